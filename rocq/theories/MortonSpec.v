(** Interleaving of bits. *)
From Coq Require Import ZArith Reals.
Local Open Scope Z_scope.

(** bit 3i+2, 3i+1, 3i of the key are bit i of x, y, z *)
Definition interleaved3 (x y z key : Z) : Prop :=
  0 <= key /\ forall i, 0 <= i -> Z.testbit key (3 * i + 2) = Z.testbit x i /\ Z.testbit key (3 * i + 1) = Z.testbit y i /\ Z.testbit key (3 * i) = Z.testbit z i.
Definition interleaved2 (x y key : Z) : Prop :=
  0 <= key /\ forall i, 0 <= i -> Z.testbit key (2 * i + 1) = Z.testbit x i /\ Z.testbit key (2 * i) = Z.testbit y i.
(** cell number along one axis at a coarser level: drop m bits *)
Definition coarse (m n : Z) : Z := n / 2 ^ m.
(** bit i as a number *)
Definition bit (n i : Z) : Z := (n / 2 ^ i) mod 2.
(** a grid coordinate, and the width of a grid cell of the root cube *)
Definition on_grid (x : Z) : Prop := 0 <= x < 2 ^ 21.
Definition cell_width (half_len : R) : R := (2 * half_len / IZR (2 ^ 21))%R.
