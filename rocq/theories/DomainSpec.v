(** What is assumed of the arithmetic and of std::sort, and what "tiling" means. *)
From Coq Require Import List Arith ZArith Bool Permutation Sorted.
From Verif Require Import ParticleModel ParticleSpec.
Import ListNotations.

(** Averages lie between their arguments; smoothing two equal values gives that
    value, and smoothing is monotone. *)
Record averaging {C : Type} (le : C -> C -> bool) (mid ema : C -> C -> C) : Prop := {
  av_low : forall a b, le a b = true -> le a (mid a b) = true;
  av_high : forall a b, le a b = true -> le (mid a b) b = true;
  ema_same : forall a, ema a a = a;
  ema_mono : forall a b c d, le a b = true -> le c d = true -> le (ema a c) (ema b d) = true }.

(** std::sort delivers some sorted permutation. *)
Definition sorts {C : Type} (le : C -> C -> bool)
  (sortBy : (vec C -> C) -> list (vec C) -> list (vec C)) : Prop :=
  forall key l, Permutation (sortBy key l) l /\
    StronglySorted (fun p q => le (key p) (key q) = true) (sortBy key l).

(** [p] lies in the closed box [b] *)
Definition within {C} (le : C -> C -> bool) (b : ort C) (p : vec C) : Prop :=
  Forall (fun c : vec C -> C => le (c (olow b)) (c p) = true /\ le (c p) (c (ohigh b)) = true) [vx; vy; vz].

(** every point of the root box lies in exactly one of the boxes *)
Definition tiles {C} (le lt : C -> C -> bool) (root : ort C) (doms : list (ort C)) : Prop :=
  forall p, inside le lt p root ->
    exists r d, nth_error doms r = Some d /\ inside le lt p d /\
      forall r' d', nth_error doms r' = Some d' -> inside le lt p d' -> r' = r.
