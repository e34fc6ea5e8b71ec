(** What the statistics over all objects mean. *)
From Coq Require Import List Reals.
From Flocq Require Import Core BinarySingleNaN.
From Verif Require Import F64 Arith ParticleModel ConModel VecModel VecSpec SylModel SylSpec.
Import ListNotations.
Local Open Scope R_scope.

(** the two end points of an object, as computed in doubles *)
Definition endpoints (s : sylinder F_arith) : list (vec F_arith) :=
  let h := vscale (N := F_arith) (fmul (slength s) (f_lit 1 (-1))) (qrot (N := F_arith) (orient s) (Vec (f_ofZ 0) (f_ofZ 0) (f_ofZ 1))) in
  [vsub (N := F_arith) (spos s) h; vadd (N := F_arith) (spos s) h].
Definition finite3 (v : vec F_arith) : Prop := forall k, is_finite (vget v k) = true.
(** between two corners, component by component *)
Definition inside (low high p : vec F_arith) : Prop := forall k, B2R (vget low k) <= B2R (vget p k) <= B2R (vget high k).
(** component k of some of the points *)
Definition attained (ps : list (vec F_arith)) (k : nat) (x : f64) : Prop := exists p, In p ps /\ B2R (vget p k) = B2R x.

(** sums over a list *)
Definition rsum {A} (f : A -> R) (l : list A) : R := fold_right (fun a s => f a + s) 0 l.
(** mean over a list *)
Definition mean {A} (f : A -> R) (l : list A) : R := rsum f l / INR (length l).
(** the director of an object *)
Definition director (s : sylinder R_arith) : vec R := axis (N := R_arith) s.
(** the twelve reported numbers: mean director, then the mean of d d^T - I/3 by rows *)
Definition delta (i j : nat) : R := if Nat.eqb i j then 1 else 0.
Definition polar (ss : list (sylinder R_arith)) (i : nat) : R := mean (fun s => vget (director s) i) ss.
Definition nematic (ss : list (sylinder R_arith)) (i j : nat) : R := mean (fun s => vget (director s) i * vget (director s) j - delta i j / 3) ss.
(** the quadratic form of a 3x3 matrix *)
Definition quadform (q : nat -> nat -> R) (x : vec R) : R :=
  rsum (fun i => rsum (fun j => vget x i * q i j * vget x j) [0; 1; 2]%nat) [0; 1; 2]%nat.
(** the same object with its axis reversed *)
Definition reversed (s s' : sylinder R_arith) : Prop := forall i, vget (director s') i = - vget (director s) i.
