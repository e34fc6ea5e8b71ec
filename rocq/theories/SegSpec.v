(** Segments and their distances. *)
From Coq Require Import Reals.
From Verif Require Import Arith ParticleModel VecModel VecSpec.
Local Open Scope R_scope.

(** the point of the segment a b at parameter s *)
Definition lerp (a b : vec R) (s : R) : vec R := add3 (scale3 (1 - s) a) (scale3 s b).
Definition unit_interval (s : R) : Prop := 0 <= s <= 1.
Definition on_segment (a b p : vec R) : Prop := exists s, unit_interval s /\ p = lerp a b s.
(** a point or of squared length at least m *)
Definition point_or_long (m : R) (a b : vec R) : Prop := a = b \/ m <= dot3 (sub3 b a) (sub3 b a).
(** half the derivative of the squared distance with respect to the parameter s of P, at parameters (s, t) *)
Definition slope_P (P0 P1 Q0 Q1 : vec R) (s t : R) : R := dot3 (sub3 P1 P0) (sub3 (lerp P0 P1 s) (lerp Q0 Q1 t)).
(** the line slope_P = 0 does not cut a corner of the parameter square off at less than k in t *)
Definition no_tight_corner (k : R) (P0 P1 Q0 Q1 : vec R) : Prop :=
  let b := Rabs (dot3 (sub3 P1 P0) (sub3 Q1 Q0)) in
  k * b <= dot3 (sub3 P1 P0) (sub3 P1 P0) /\
  forall s t, (s = 0 \/ s = 1) -> (t = 0 \/ t = 1) ->
    slope_P P0 P1 Q0 Q1 s t = 0 \/ k * b <= Rabs (slope_P P0 P1 Q0 Q1 s t).
