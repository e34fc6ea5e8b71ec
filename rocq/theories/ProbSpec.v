(** What the random test problems of the solvers are to be. *)
From Coq Require Import List Arith ZArith Reals.
Import ListNotations.
Local Open Scope R_scope.

(** f 0 + ... + f (n-1) *)
Definition total (n : nat) (f : nat -> R) : R := fold_right Rplus 0 (map f (seq 0 n)).
(** the number at place i *)
Definition at0 (l : list R) (i : nat) : R := nth i l 0.
(** B^T D B + diagonal *)
Definition gram (n : nat) (diagonal : R) (D : list R) (B : list (list R)) (i j : nat) : R :=
  total n (fun k => at0 D k * at0 (nth k B []) i * at0 (nth k B []) j) + (if Nat.eqb i j then diagonal else 0).
(** entries up to 1e-7 are dropped *)
Definition tol : R := / 10000000.
Definition kept (a : R) : R := if Rle_dec (Rabs a) tol then 0 else a.
(** y = A x where A has one block for each rank *)
Definition blockwise (n : nat) (diagonal : R) (ranks : list (list R * list (list R))) (x y : list R) : Prop :=
  length y = (length ranks * n)%nat /\
  forall r D B i, nth_error ranks r = Some (D, B) -> (i < n)%nat -> at0 y (r * n + i) = total n (fun j => kept (gram n diagonal D B i j) * at0 x (r * n + j)).
(** scalar product *)
Definition inner (n : nat) (x y : list R) : R := total n (fun i => at0 x i * at0 y i).
(** all global indices fit an int *)
Definition fits (n ranks : nat) : Prop := (Z.of_nat ranks * Z.of_nat n <= 2 ^ 31)%Z.
(** no column of the block is dropped altogether *)
Definition columns (n : nat) (diagonal : R) (D : list R) (B : list (list R)) : Prop :=
  forall j, (j < n)%nat -> exists i, (i < n)%nat /\ tol < Rabs (gram n diagonal D B i j).
