(** What a solution quality report should say, in real numbers. *)
From Coq Require Import List ZArith Reals Bool.
From Flocq Require Import IEEE754.BinarySingleNaN.
From Verif Require Import F64 Arith.
Import ListNotations.

(** the entries of a distributed vector, read as numbers *)
Definition entries (v : list (list F_arith)) : list R := map (fun x : F_arith => B2R x) (concat v).
Definition allFinite (v : list (list F_arith)) : Prop := Forall (fun x : F_arith => is_finite x = true) (concat v).
(** how many numbers are negative *)
Fixpoint negatives (l : list R) : nat :=
  match l with [] => 0 | x :: l => (if Rlt_dec x 0 then S (negatives l) else negatives l)%nat end.
(** [m] is the largest amount by which a number falls below zero; 0 when none does *)
Definition worst (l : list R) (m : R) : Prop :=
  (0 <= m)%R /\ (forall x, In x l -> - x <= m)%R /\ (m = 0%R \/ exists x, In x l /\ m = (- x)%R).
