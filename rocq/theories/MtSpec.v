(** The Mersenne twister MT19937 as a recurrence on 32-bit words. *)
From Coq Require Import List Arith ZArith Reals Bool.
Import ListNotations.
Local Open Scope Z_scope.

(** the words made from a seed *)
Definition seeded (s : Z) (x : nat -> Z) : Prop :=
  x O = s mod 2 ^ 32 /\ forall i, (0 < i < 624)%nat -> x i = (1812433253 * Z.lxor (x (i - 1)%nat) (x (i - 1)%nat / 2 ^ 30) + Z.of_nat i) mod 2 ^ 32.
(** the highest bit of one word and the 31 other bits of the next one, times the matrix *)
Definition matrix (u l : Z) : Z :=
  let y := u / 2 ^ 31 * 2 ^ 31 + l mod 2 ^ 31 in Z.lxor (y / 2) (if Z.odd y then 0x9908b0df else 0).
Definition recurrence (x : nat -> Z) : Prop := forall k, x (k + 624)%nat = Z.lxor (x (k + 397)%nat) (matrix (x k) (x (k + 1)%nat)).
Definition stream (s : Z) (x : nat -> Z) : Prop := seeded s x /\ recurrence x.
(** the output made from a word *)
Definition tempered (y w : Z) : Prop := exists y1 y2 y3,
  y1 = Z.lxor y (y / 2 ^ 11) /\ y2 = Z.lxor y1 (Z.land (y1 * 2 ^ 7) 0x9d2c5680) /\ y3 = Z.lxor y2 (Z.land (y2 * 2 ^ 15) 0xefc60000) /\ w = Z.lxor y3 (y3 / 2 ^ 18).
(** the numbers returned by n calls after seeding *)
Definition outputs (s : Z) (ws : list Z) : Prop := exists x, stream s x /\ forall k w, nth_error ws k = Some w -> tempered (x (624 + k)%nat) w /\ 0 <= w < 2 ^ 32.
