(** Proofs about Morton keys. *)
From Coq Require Import List ZArith Bool Lia Reals Lra.
From Flocq Require Import Core.
From Verif Require Import Outcome F64 Arith ParticleModel MortonModel MortonSpec.
Import ListNotations.
Local Open Scope Z_scope.

(** ** where the bits of a spread number come from *)
Fixpoint srcs (width : Z) (ls : list (Z * Z)) (j : Z) : list Z :=
  match ls with
  | [] => if (0 <=? j) && (j <? width) then [j] else []
  | (k, c) :: r => if Z.testbit c j then srcs width r j ++ srcs width r (j - k) else []
  end.
Definition sep (ls : list (Z * Z)) (s : Z) : Z := fold_right (fun km s => spread s km) s ls.

Lemma small_bits s w j : 0 <= s < 2 ^ w -> w <= j -> Z.testbit s j = false.
Proof. intros H Hj. destruct (Z.eq_dec s 0) as [->|Hs]; [apply Z.bits_0|]. apply Z.bits_above_log2; [lia|]. assert (Z.log2 s < w); [|lia]. apply Z.log2_lt_pow2; lia. Qed.

Lemma sep_bits w ls s : 0 <= s < 2 ^ w -> (forall k c, In (k, c) ls -> 0 <= k /\ 0 <= c < 2 ^ 64) ->
  forall j, Z.testbit (sep ls s) j = existsb (Z.testbit s) (srcs w ls j).
Proof.
  intros Hs. induction ls as [|(k, c) ls IH]; intros HL j.
  - cbn [sep fold_right srcs]. destruct (Z.leb_spec 0 j); cbn [andb]; [|rewrite Z.testbit_neg_r by lia; reflexivity].
    destruct (Z.ltb_spec j w); cbn [existsb]; [rewrite orb_false_r; reflexivity|apply (small_bits s w); lia].
  - assert (IH' := IH (fun k' c' H => HL k' c' (or_intror H))). destruct (HL k c (or_introl eq_refl)) as [Hk Hc]. clear IH HL.
    change (sep ((k, c) :: ls) s) with (spread (sep ls s) (k, c)). unfold spread, shl. cbn [fst snd srcs].
    rewrite Z.land_spec, Z.lor_spec. destruct (Z.testbit c j) eqn:Ec; [|rewrite andb_false_r; reflexivity].
    rewrite andb_true_r, existsb_app. assert (0 <= j). { destruct (Z.le_gt_cases 0 j); [assumption|]. rewrite Z.testbit_neg_r in Ec by lia. discriminate. }
    assert (j < 64). { destruct (Z.le_gt_cases 64 j); [|assumption]. rewrite (small_bits c 64) in Ec by lia. discriminate. }
    unfold two64. rewrite Z.mod_pow2_bits_low by lia. rewrite Z.shiftl_spec by lia. rewrite <- !IH'. reflexivity.
Qed.
Lemma sep_range ls s : ls <> [] -> 0 <= s -> (forall k c, In (k, c) ls -> 0 <= k /\ 0 <= c < 2 ^ 64) -> 0 <= sep ls s.
Proof.
  intros Hn Hs HL. destruct ls as [|(k, c) ls]; [contradiction|]. cbn [sep fold_right]. unfold spread. apply Z.land_nonneg. right. apply (HL k c). left. reflexivity.
Qed.

Definition want (d w j : Z) : list Z := if (0 <=? j) && (j <? d * w) && (j mod d =? 0) then [j / d] else [].
Fixpoint leq (a b : list Z) : bool := match a, b with [], [] => true | x :: a, y :: b => Z.eqb x y && leq a b | _, _ => false end.
Lemma leq_ok a : forall b, leq a b = true -> a = b.
Proof. induction a as [|x a IH]; intros [|y b] H; cbn in H; try discriminate; [reflexivity|]. apply andb_prop in H as [H1 H2]. apply Z.eqb_eq in H1. f_equal; [exact H1|apply IH, H2]. Qed.
Lemma check3 : forallb (fun i => leq (srcs 21 (rev masks3) (Z.of_nat i)) (want 3 21 (Z.of_nat i))) (seq 0 64) = true.
Proof. vm_compute. reflexivity. Qed.
Lemma check2 : forallb (fun i => leq (srcs 30 (rev masks2) (Z.of_nat i)) (want 2 30 (Z.of_nat i))) (seq 0 64) = true.
Proof. vm_compute. reflexivity. Qed.
Lemma masks3_ok k c : In (k, c) (rev masks3) -> 0 <= k /\ 0 <= c < 2 ^ 64.
Proof. cbn. intros H. repeat destruct H as [H|H]; try (injection H as <- <-; split; [lia|split; [lia|reflexivity]]); contradiction. Qed.
Lemma masks2_ok k c : In (k, c) (rev masks2) -> 0 <= k /\ 0 <= c < 2 ^ 64.
Proof. cbn. intros H. repeat destruct H as [H|H]; try (injection H as <- <-; split; [lia|split; [lia|reflexivity]]); contradiction. Qed.
Lemma srcs_out w ls : ls <> [] -> (forall k c, In (k, c) ls -> 0 <= k /\ 0 <= c < 2 ^ 64) -> forall j, j < 0 \/ 64 <= j -> srcs w ls j = [].
Proof.
  intros Hn HL j Hj. destruct ls as [|(k, c) ls]; [contradiction|]. cbn [srcs]. destruct (HL k c (or_introl eq_refl)) as [_ Hc].
  destruct Hj as [Hj|Hj]; [rewrite Z.testbit_neg_r by lia; reflexivity|]. rewrite (small_bits c 64) by lia. reflexivity.
Qed.

Lemma sep_want d w ls s : (0 < d /\ d * w <= 64) -> ls <> [] -> (forall k c, In (k, c) ls -> 0 <= k /\ 0 <= c < 2 ^ 64) -> 
  forallb (fun i => leq (srcs w ls (Z.of_nat i)) (want d w (Z.of_nat i))) (seq 0 64) = true -> 0 <= s < 2 ^ w ->
  forall j, Z.testbit (sep ls s) j = existsb (Z.testbit s) (want d w j).
Proof.
  intros [Hd Hw] Hn HL HC Hs j. rewrite (sep_bits w) by assumption. f_equal.
  destruct (Z.lt_ge_cases j 0) as [C|C]; [|destruct (Z.lt_ge_cases j 64) as [C2|C2]].
  - rewrite srcs_out by auto. unfold want. destruct (Z.leb_spec 0 j); [lia|reflexivity].
  - rewrite forallb_forall in HC. rewrite <- (Z2Nat.id j C). apply leq_ok, HC. apply in_seq. lia.
  - rewrite srcs_out by auto. unfold want. destruct (Z.ltb_spec j (d * w)); [lia|]. rewrite andb_false_r. reflexivity.
Qed.
Lemma want_bits d w s i r : 0 < d -> 0 <= s < 2 ^ w -> 0 <= i -> 0 <= r < d -> existsb (Z.testbit s) (want d w (d * i + r)) = (r =? 0) && Z.testbit s i.
Proof.
  intros Hd Hs Hi Hr. unfold want. rewrite (Z.add_comm (d * i) r), (Z.mul_comm d i), Z.mod_add, Z.div_add by lia. rewrite Z.mod_small, Z.div_small by lia.
  destruct (Z.leb_spec 0 (r + i * d)); [|nia]. cbn [andb]. destruct (Z.eqb_spec r 0) as [->|]; cbn [andb]; [|rewrite andb_false_r; reflexivity].
  rewrite andb_true_r, !Z.add_0_l. destruct (Z.ltb_spec (i * d) (d * w)); cbn [existsb]; [rewrite orb_false_r; reflexivity|].
  symmetry. apply (small_bits s w); [exact Hs|nia].
Qed.

Lemma sep3 s : separateBit3 s = sep (rev masks3) s. Proof. reflexivity. Qed.
Lemma sep2 s : separateBit2 s = sep (rev masks2) s. Proof. reflexivity. Qed.
Lemma separateBit3_bits s i r : 0 <= s < 2 ^ 21 -> 0 <= i -> 0 <= r < 3 -> Z.testbit (separateBit3 s) (3 * i + r) = (r =? 0) && Z.testbit s i.
Proof. intros Hs Hi Hr. rewrite sep3, (sep_want 3 21) by (try lia; try discriminate; try apply masks3_ok; try apply check3). apply want_bits; lia. Qed.
Lemma separateBit2_bits s i r : 0 <= s < 2 ^ 30 -> 0 <= i -> 0 <= r < 2 -> Z.testbit (separateBit2 s) (2 * i + r) = (r =? 0) && Z.testbit s i.
Proof. intros Hs Hi Hr. rewrite sep2, (sep_want 2 30) by (try lia; try discriminate; try apply masks2_ok; try apply check2). apply want_bits; lia. Qed.

Lemma shl_bits s k j : 0 <= k -> 0 <= j -> Z.testbit (shl s k) j = (j <? 64) && (k <=? j) && Z.testbit s (j - k).
Proof.
  intros Hk Hj. unfold shl, two64. destruct (Z.ltb_spec j 64); cbn [andb].
  - rewrite Z.mod_pow2_bits_low, Z.shiftl_spec by lia. destruct (Z.leb_spec k j); [reflexivity|]. apply Z.testbit_neg_r. lia.
  - apply Z.mod_pow2_bits_high. lia.
Qed.
Lemma shl_nonneg s k : 0 <= shl s k. Proof. unfold shl, two64. apply Z.mod_pos_bound. reflexivity. Qed.

Lemma key3_ok x y z : 0 <= x < 2 ^ 21 -> 0 <= y < 2 ^ 21 -> 0 <= z < 2 ^ 21 -> interleaved3 x y z (key3 x y z).
Proof.
  intros Hx Hy Hz. split.
  { unfold key3. rewrite !Z.lor_nonneg. split; [split; apply shl_nonneg|]. rewrite sep3. apply sep_range; [discriminate|lia|apply masks3_ok]. }
  intros i Hi. assert (B : forall s (k r : Z), 0 <= s < 2 ^ 21 -> 0 <= k < 3 -> 0 <= r < 3 -> Z.testbit (shl (separateBit3 s) k) (3 * i + r) = (r =? k) && Z.testbit s i).
  { intros s k r Hs Hk Hr. rewrite shl_bits by lia. destruct (Z.leb_spec k (3 * i + r)).
    - rewrite andb_true_r. destruct (Z.le_gt_cases k r).
      + replace (3 * i + r - k) with (3 * i + (r - k)) by lia. rewrite separateBit3_bits by lia.
        destruct (Z.eqb_spec (r - k) 0), (Z.eqb_spec r k); try lia; cbn [andb]; rewrite ?andb_false_r, ?andb_true_r; try reflexivity.
        destruct (Z.ltb_spec (3 * i + r) 64); cbn [andb]; [reflexivity|]. symmetry. apply (small_bits s 21); lia.
      + replace (3 * i + r - k) with (3 * (i - 1) + (3 + r - k)) by lia. rewrite separateBit3_bits by lia.
        destruct (Z.eqb_spec (3 + r - k) 0), (Z.eqb_spec r k); try lia; apply andb_false_r.
    - rewrite andb_false_r. destruct (Z.eqb_spec r k); [lia|reflexivity]. }
  unfold key3. rewrite !Z.lor_spec. rewrite <- (Z.add_0_r (3 * i)) at 7 8 9. rewrite !B, !separateBit3_bits by lia.
  cbn [Z.eqb Pos.eqb andb orb]. rewrite ?orb_false_r. auto.
Qed.
Lemma key2_ok x y : 0 <= x < 2 ^ 30 -> 0 <= y < 2 ^ 30 -> interleaved2 x y (key2 x y).
Proof.
  intros Hx Hy. split.
  { unfold key2. rewrite Z.lor_nonneg. split; [apply shl_nonneg|]. rewrite sep2. apply sep_range; [discriminate|lia|apply masks2_ok]. }
  intros i Hi. assert (B : forall s (k r : Z), 0 <= s < 2 ^ 30 -> 0 <= k < 2 -> 0 <= r < 2 -> Z.testbit (shl (separateBit2 s) k) (2 * i + r) = (r =? k) && Z.testbit s i).
  { intros s k r Hs Hk Hr. rewrite shl_bits by lia. destruct (Z.leb_spec k (2 * i + r)).
    - rewrite andb_true_r. destruct (Z.le_gt_cases k r).
      + replace (2 * i + r - k) with (2 * i + (r - k)) by lia. rewrite separateBit2_bits by lia.
        destruct (Z.eqb_spec (r - k) 0), (Z.eqb_spec r k); try lia; cbn [andb]; rewrite ?andb_false_r, ?andb_true_r; try reflexivity.
        destruct (Z.ltb_spec (2 * i + r) 64); cbn [andb]; [reflexivity|]. symmetry. apply (small_bits s 30); lia.
      + replace (2 * i + r - k) with (2 * (i - 1) + (2 + r - k)) by lia. rewrite separateBit2_bits by lia.
        destruct (Z.eqb_spec (2 + r - k) 0), (Z.eqb_spec r k); try lia; apply andb_false_r.
    - rewrite andb_false_r. destruct (Z.eqb_spec r k); [lia|reflexivity]. }
  unfold key2. rewrite !Z.lor_spec. rewrite <- (Z.add_0_r (2 * i)) at 3 4. rewrite !B, !separateBit2_bits by lia.
  cbn [Z.eqb Pos.eqb andb orb]. rewrite ?orb_false_r. auto.
Qed.

(** ** consequences of interleaving *)
Lemma interleaved3_det x y z k1 k2 : interleaved3 x y z k1 -> interleaved3 x y z k2 -> k1 = k2.
Proof.
  intros [_ H1] [_ H2]. apply Z.bits_inj'. intros j Hj. pose proof (Z.div_mod j 3 ltac:(lia)) as E. pose proof (Z.mod_pos_bound j 3 ltac:(lia)) as Hr.
  specialize (H1 (j / 3) ltac:(apply Z.div_pos; lia)). specialize (H2 (j / 3) ltac:(apply Z.div_pos; lia)). destruct H1 as (A1 & A2 & A3), H2 as (B1 & B2 & B3).
  assert (j mod 3 = 0 \/ j mod 3 = 1 \/ j mod 3 = 2) as [C|[C|C]] by lia; rewrite C in E; rewrite ?Z.add_0_r in E; rewrite E; congruence.
Qed.
Lemma interleaved3_inj x y z x' y' z' k : 0 <= x -> 0 <= y -> 0 <= z -> 0 <= x' -> 0 <= y' -> 0 <= z' -> interleaved3 x y z k -> interleaved3 x' y' z' k -> x = x' /\ y = y' /\ z = z'.
Proof.
  intros _ _ _ _ _ _ [_ H1] [_ H2]. repeat split; apply Z.bits_inj'; intros i Hi; destruct (H1 i Hi) as (A1 & A2 & A3), (H2 i Hi) as (B1 & B2 & B3); congruence.
Qed.
Lemma interleaved3_shift x y z k m : 0 <= m -> interleaved3 x y z k -> interleaved3 (coarse m x) (coarse m y) (coarse m z) (k / 2 ^ (3 * m)).
Proof.
  intros Hm [H0 H]. split; [apply Z.div_pos; [exact H0|apply Z.pow_pos_nonneg; lia]|]. intros i Hi. unfold coarse. rewrite !Z.div_pow2_bits by lia.
  destruct (H (i + m) ltac:(lia)) as (A1 & A2 & A3). replace (3 * i + 2 + 3 * m) with (3 * (i + m) + 2) by lia. replace (3 * i + 1 + 3 * m) with (3 * (i + m) + 1) by lia.
  replace (3 * i + 3 * m) with (3 * (i + m)) by lia. auto.
Qed.
Lemma bit_b n i : 0 <= i -> bit n i = Z.b2z (Z.testbit n i).
Proof. intros Hi. symmetry. apply Z.testbit_spec'. exact Hi. Qed.

Lemma land7 k : Z.land k 7 = 4 * Z.b2z (Z.testbit k 2) + 2 * Z.b2z (Z.testbit k 1) + Z.b2z (Z.testbit k 0).
Proof.
  change 7 with (Z.ones 3). rewrite Z.land_ones by lia. change (2 ^ 3) with 8. rewrite !Z.testbit_spec' by lia. change (2 ^ 2) with 4. change (2 ^ 1) with 2. change (2 ^ 0) with 1. rewrite Z.div_1_r.
  assert (k = k / 2 / 2 / 2 * 8 + (4 * (k / 2 / 2 mod 2) + 2 * (k / 2 mod 2) + k mod 2)) as E.
  { pose proof (Z.div_mod k 2 ltac:(lia)). pose proof (Z.div_mod (k / 2) 2 ltac:(lia)). pose proof (Z.div_mod (k / 2 / 2) 2 ltac:(lia)). lia. }
  replace (k / 4) with (k / 2 / 2) by (rewrite Z.div_div by lia; reflexivity).
  pose proof (Z.mod_pos_bound k 2 ltac:(lia)). pose proof (Z.mod_pos_bound (k / 2) 2 ltac:(lia)). pose proof (Z.mod_pos_bound (k / 2 / 2) 2 ltac:(lia)).
  symmetry. apply (Z.mod_unique k 8 (k / 2 / 2 / 2)); lia.
Qed.
Lemma land3 k : Z.land k 3 = 2 * Z.b2z (Z.testbit k 1) + Z.b2z (Z.testbit k 0).
Proof.
  change 3 with (Z.ones 2). rewrite Z.land_ones by lia. change (2 ^ 2) with 4. rewrite !Z.testbit_spec' by lia. change (2 ^ 1) with 2. change (2 ^ 0) with 1. rewrite Z.div_1_r.
  pose proof (Z.div_mod k 2 ltac:(lia)). pose proof (Z.div_mod (k / 2) 2 ltac:(lia)).
  pose proof (Z.mod_pos_bound k 2 ltac:(lia)). pose proof (Z.mod_pos_bound (k / 2) 2 ltac:(lia)).
  symmetry. apply (Z.mod_unique k 4 (k / 2 / 2)); lia.
Qed.

Lemma cell3_ok x y z k lev : 0 <= lev <= 21 -> interleaved3 x y z k -> getCellID3 lev k = Done (4 * bit x (21 - lev) + 2 * bit y (21 - lev) + bit z (21 - lev)).
Proof.
  intros Hl [_ H]. unfold getCellID3. destruct (Z.leb_spec 0 ((21 - lev) * 3)); [|lia]. destruct (Z.ltb_spec ((21 - lev) * 3) 64); [|lia]. cbn [andb]. f_equal.
  rewrite land7, !Z.shiftr_spec by lia. destruct (H (21 - lev) ltac:(lia)) as (A1 & A2 & A3).
  replace (2 + (21 - lev) * 3) with (3 * (21 - lev) + 2) by lia. replace (1 + (21 - lev) * 3) with (3 * (21 - lev) + 1) by lia. replace (0 + (21 - lev) * 3) with (3 * (21 - lev)) by lia.
  rewrite A1, A2, A3, !bit_b by lia. reflexivity.
Qed.
Lemma cell2_ok x y k lev : 0 <= lev <= 30 -> interleaved2 x y k -> getCellID2 lev k = Done (2 * bit x (30 - lev) + bit y (30 - lev)).
Proof.
  intros Hl [_ H]. unfold getCellID2. destruct (Z.leb_spec 0 ((30 - lev) * 2)); [|lia]. destruct (Z.ltb_spec ((30 - lev) * 2) 64); [|lia]. cbn [andb]. f_equal.
  rewrite land3, !Z.shiftr_spec by lia. destruct (H (30 - lev) ltac:(lia)) as (A1 & A2).
  replace (1 + (30 - lev) * 2) with (2 * (30 - lev) + 1) by lia. replace (0 + (30 - lev) * 2) with (2 * (30 - lev)) by lia.
  rewrite A1, A2, !bit_b by lia. reflexivity.
Qed.

(** ** the top-level statements *)
Lemma key3_inj x y z x' y' z' : on_grid x -> on_grid y -> on_grid z -> on_grid x' -> on_grid y' -> on_grid z' -> key3 x y z = key3 x' y' z' -> x = x' /\ y = y' /\ z = z'.
Proof.
  unfold on_grid. intros ? ? ? ? ? ? E. apply (interleaved3_inj x y z x' y' z' (key3 x y z)); try lia; [apply key3_ok; assumption|rewrite E; apply key3_ok; assumption].
Qed.
Lemma key3_coarse x y z m : on_grid x -> on_grid y -> on_grid z -> 0 <= m -> key3 x y z / 2 ^ (3 * m) = key3 (coarse m x) (coarse m y) (coarse m z).
Proof.
  unfold on_grid. intros Hx Hy Hz Hm. assert (C : forall n, 0 <= n < 2 ^ 21 -> 0 <= coarse m n < 2 ^ 21).
  { intros n Hn. unfold coarse. assert (0 < 2 ^ m) by (apply Z.pow_pos_nonneg; lia). split; [apply Z.div_pos; lia|]. apply Z.div_lt_upper_bound; nia. }
  eapply interleaved3_det; [apply interleaved3_shift; [exact Hm|apply key3_ok; assumption]|]. apply key3_ok; apply C; assumption.
Qed.
(** keys of the cells of one parent at any level form an interval *)
Lemma key3_prefix x y z x' y' z' m : on_grid x -> on_grid y -> on_grid z -> on_grid x' -> on_grid y' -> on_grid z' -> 0 <= m ->
  key3 x y z / 2 ^ (3 * m) = key3 x' y' z' / 2 ^ (3 * m) <-> coarse m x = coarse m x' /\ coarse m y = coarse m y' /\ coarse m z = coarse m z'.
Proof.
  intros Hx Hy Hz Hx' Hy' Hz' Hm. rewrite !key3_coarse by assumption. split; [|intros (-> & -> & ->); reflexivity].
  assert (C : forall n, on_grid n -> on_grid (coarse m n)).
  { unfold on_grid. intros n Hn. unfold coarse. assert (0 < 2 ^ m) by (apply Z.pow_pos_nonneg; lia). split; [apply Z.div_pos; lia|]. apply Z.div_lt_upper_bound; nia. }
  apply key3_inj; apply C; assumption.
Qed.
Lemma key3_63 x y z : on_grid x -> on_grid y -> on_grid z -> 0 <= key3 x y z < 2 ^ 63.
Proof.
  intros Hx Hy Hz. destruct (key3_ok x y z Hx Hy Hz) as [H0 _]. split; [exact H0|].
  assert (E : key3 x y z / 2 ^ (3 * 21) = 0).
  { rewrite key3_coarse by (assumption || lia). unfold coarse, on_grid in *. rewrite !Z.div_small by assumption. reflexivity. }
  change (3 * 21) with 63 in E. apply Z.div_small_iff in E; [lia|discriminate].
Qed.

(** ** positions, real arithmetic *)
Local Open Scope R_scope.
Lemma grid_ok (half_len cen pos : R) : 0 < half_len -> cen - half_len <= pos < cen + half_len ->
  exists n, grid (N := R_arith) Ztrunc half_len cen pos = Done n /\ on_grid n /\
    cen - half_len + IZR n * cell_width half_len <= pos < cen - half_len + IZR (n + 1) * cell_width half_len.
Proof.
  intros Hh Hp. unfold grid, factor. rarith. set (t := (pos - cen + half_len) * (1 / (half_len * 2) * IZR (2 ^ 21))).
  assert (Et : t * cell_width half_len = pos - cen + half_len).
  { unfold t, cell_width. field. split; [|lra]. apply not_0_IZR. discriminate. }
  assert (Hw : 0 < cell_width half_len). { unfold cell_width. apply Rdiv_lt_0_compat; [lra|]. apply IZR_lt. reflexivity. }
  assert (Ht0 : 0 <= t). { apply (Rmult_le_reg_r (cell_width half_len)); [exact Hw|]. lra. }
  assert (Ht1 : t < IZR (2 ^ 21)).
  { apply (Rmult_lt_reg_r (cell_width half_len)); [exact Hw|]. rewrite Et. unfold cell_width. replace (IZR (2 ^ 21) * (2 * half_len / IZR (2 ^ 21))) with (2 * half_len); [lra|]. field. apply not_0_IZR. discriminate. }
  rewrite Ztrunc_floor by exact Ht0. exists (Zfloor t).
  assert (Hn : on_grid (Zfloor t)).
  { split; [apply Zfloor_lub; exact Ht0|]. apply lt_IZR. eapply Rle_lt_trans; [apply Zfloor_lb|exact Ht1]. }
  pose proof Hn as [Hn0 Hn1]. change (2 ^ 21)%Z with 2097152%Z in Hn1. split.
  - cbv zeta. unfold two64. change (2 ^ 64)%Z with 18446744073709551616%Z. destruct (Z.leb_spec 0 (Zfloor t)); [|lia]. destruct (Z.ltb_spec (Zfloor t) 18446744073709551616); [reflexivity|lia].
  - split; [exact Hn|]. assert (A : IZR (Zfloor t) <= t) by apply Zfloor_lb. assert (B : t < IZR (Zfloor t + 1)) by (rewrite plus_IZR; apply Zfloor_ub).
    apply (Rmult_le_compat_r (cell_width half_len)) in A; [|lra]. apply (Rmult_lt_compat_r (cell_width half_len)) in B; [|exact Hw]. lra.
Qed.
Lemma grid_below (half_len cen pos : R) : 0 < half_len -> pos <= cen - half_len - cell_width half_len -> grid (N := R_arith) Ztrunc half_len cen pos = UB.
Proof.
  intros Hh Hp. unfold grid, factor. rarith. set (t := (pos - cen + half_len) * (1 / (half_len * 2) * IZR (2 ^ 21))).
  assert (Et : t * cell_width half_len = pos - cen + half_len).
  { unfold t, cell_width. field. split; [|lra]. apply not_0_IZR. discriminate. }
  assert (Hw : 0 < cell_width half_len). { unfold cell_width. apply Rdiv_lt_0_compat; [lra|]. apply IZR_lt. reflexivity. }
  assert (Ht : t <= -1). { apply (Rmult_le_reg_r (cell_width half_len)); [exact Hw|]. lra. }
  assert (H : (Ztrunc t <= -1)%Z). { rewrite Ztrunc_ceil by lra. apply Zceil_glb. exact Ht. }
  cbv zeta. destruct (Z.leb_spec 0 (Ztrunc t)); [lia|]. reflexivity.
Qed.
