(** C47: Morton keys. *)
From Coq Require Import List ZArith Bool Reals.
From Flocq Require Import Core.
From Verif Require Import Outcome F64 Arith ParticleModel MortonModel MortonSpec MortonProofs.
Import ListNotations.
Local Open Scope Z_scope.

Theorem C47_bits : forall x y z, on_grid x -> on_grid y -> on_grid z -> interleaved3 x y z (key3 x y z).
Proof. exact key3_ok. Qed.
Print Assumptions C47_bits.
Theorem C47_range : forall x y z, on_grid x -> on_grid y -> on_grid z -> 0 <= key3 x y z < 2 ^ 63.
Proof. exact key3_63. Qed.
Print Assumptions C47_range.
Theorem C47_injective : forall x y z x' y' z', on_grid x -> on_grid y -> on_grid z -> on_grid x' -> on_grid y' -> on_grid z' ->
  key3 x y z = key3 x' y' z' -> x = x' /\ y = y' /\ z = z'.
Proof. exact key3_inj. Qed.
Print Assumptions C47_injective.
(** the cell id at a level reads the coordinate bits of the level *)
Theorem C47_cell : forall x y z lev, on_grid x -> on_grid y -> on_grid z -> 0 <= lev <= 21 ->
  getCellID3 lev (key3 x y z) = Done (4 * bit x (21 - lev) + 2 * bit y (21 - lev) + bit z (21 - lev)).
Proof. intros x y z lev Hx Hy Hz Hl. exact (cell3_ok x y z _ lev Hl (key3_ok x y z Hx Hy Hz)). Qed.
Print Assumptions C47_cell.
(** cells have the same leading key digits exactly if they have the same ancestor, so the keys of a tree cell are an interval *)
Theorem C47_prefix : forall x y z x' y' z' m, on_grid x -> on_grid y -> on_grid z -> on_grid x' -> on_grid y' -> on_grid z' -> 0 <= m ->
  key3 x y z / 2 ^ (3 * m) = key3 x' y' z' / 2 ^ (3 * m) <-> coarse m x = coarse m x' /\ coarse m y = coarse m y' /\ coarse m z = coarse m z'.
Proof. exact key3_prefix. Qed.
Print Assumptions C47_prefix.
(** two dimensions *)
Theorem C47_bits_2d : forall x y, 0 <= x < 2 ^ 30 -> 0 <= y < 2 ^ 30 -> interleaved2 x y (key2 x y).
Proof. exact key2_ok. Qed.
Print Assumptions C47_bits_2d.
Theorem C47_cell_2d : forall x y lev, 0 <= x < 2 ^ 30 -> 0 <= y < 2 ^ 30 -> 0 <= lev <= 30 ->
  getCellID2 lev (key2 x y) = Done (2 * bit x (30 - lev) + bit y (30 - lev)).
Proof. intros x y lev Hx Hy Hl. exact (cell2_ok x y _ lev Hl (key2_ok x y Hx Hy)). Qed.
Print Assumptions C47_cell_2d.
(** the grid coordinate of a position is that of the cell containing it (real arithmetic) *)
Theorem C47_position : forall (half_len cen pos : R), (0 < half_len)%R -> (cen - half_len <= pos < cen + half_len)%R ->
  exists n, grid (N := R_arith) Ztrunc half_len cen pos = Done n /\ on_grid n /\
    (cen - half_len + IZR n * cell_width half_len <= pos < cen - half_len + IZR (n + 1) * cell_width half_len)%R.
Proof. exact grid_ok. Qed.
Print Assumptions C47_position.

(** more than one cell below the root cube the conversion is undefined *)
Theorem C47_below : forall half_len cen pos : R, (0 < half_len)%R -> (pos <= cen - half_len - cell_width half_len)%R -> grid (N := R_arith) Ztrunc half_len cen pos = UB.
Proof. exact grid_below. Qed.
Print Assumptions C47_below.

Example C47_example : key3 5 3 1 = 4 * 64 + 2 * 8 + 7 /\ getCellID3 19 (key3 5 3 1) = Done 4 /\ getCellID3 21 (key3 5 3 1) = Done 7 /\
  key3 2097151 2097151 2097151 = 2 ^ 63 - 1 /\ key2 6 3 = 45.
Proof. vm_compute. repeat split. Qed.

(** one step outside of the grid the key is that of the opposite side *)
Theorem C47_outside_refuted : exists x, ~ on_grid x /\ key3 x 0 0 = key3 0 0 0.
Proof. exists (2 ^ 21). split; [intros [_ H]; discriminate H|vm_compute; reflexivity]. Qed.
Print Assumptions C47_outside_refuted.
(** with doubles a position strictly inside of the root cube can get there by rounding *)
Definition one : f64 := f_ofZ 1.
Definition below_one : f64 := f_lit (2 ^ 53 - 1) (-53).
Definition at0 (x : f64) : vec F_arith := Vec (C := F_arith) x (f_ofZ 0) (f_ofZ 0).
Theorem C47_edge_refuted : exists pos, flt pos one = true /\ getKey (N := F_arith) f_cast one (at0 (f_ofZ 0)) (at0 pos) = getKey (N := F_arith) f_cast one (at0 (f_ofZ 0)) (at0 (f_ofZ (-1))).
Proof. exists below_one. split; vm_compute; reflexivity. Qed.
Print Assumptions C47_edge_refuted.
