(** What the point layouts and the error check must give. *)
From Coq Require Import List Reals.
From Verif Require Import Arith ParticleModel ConModel.
Import ListNotations.
Local Open Scope R_scope.

(** the points of the three layouts in a box of edge ten at the origin *)
Definition tenths (n : nat) : list (nat * nat * nat) :=
  match n with 1 => [(7, 6, 4)] | 2 => [(7, 6, 5); (2, 8, 7)] | 4 => [(1, 1, 1); (2, 2, 2); (3, 3, 3); (4, 4, 4)] | _ => [] end%nat.
(** such a point scaled to a box of edge [box] at [shift] *)
Definition inBox (box shift : R) (p : nat * nat * nat) : list R :=
  let '(x, y, z) := p in [INR x * (box / 10) + shift; INR y * (box / 10) + shift; INR z * (box / 10) + shift].
(** the greatest of some numbers that are not negative, zero if there are none *)
Definition greatest (xs : list R) (m : R) : Prop := (forall x, In x xs -> x <= m) /\ (In m xs \/ m = 0).
(** entry errors *)
Definition deviation (vt : R * R) : R := Rabs (snd vt - fst vt).
Definition relative (vt : R * R) : R := Rabs (snd vt - fst vt) / Rabs (snd vt).
Definition total {A} (f : A -> R) (l : list A) : R := fold_right (fun a s => f a + s) 0 l.
