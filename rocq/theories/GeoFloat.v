(** The periodic wrap in doubles. *)
From Coq Require Import List ZArith Bool Reals Lra Lia.
From Flocq Require Import Core BinarySingleNaN.
From Verif Require Import Outcome ListUtil F64 Arith ParticleModel GeoModel GeoSpec.
Import ListNotations.

Lemma grid_format e z : (-1074 <= e)%Z -> (Z.abs z <= 2 ^ 53)%Z ->
  generic_format radix2 fexp64 (IZR z * bpow radix2 e).
Proof.
  intros He Hz. destruct (Z.eq_dec (Z.abs z) (2 ^ 53)) as [E|E].
  - assert (G : generic_format radix2 fexp64 (bpow radix2 (53 + e))).
    { apply generic_format_bpow. unfold SpecFloat.fexp, SpecFloat.emin, emax64, prec64. lia. }
    rewrite bpow_plus in G. change (bpow radix2 53) with (IZR (2 ^ 53)) in G. rewrite <- E in G.
    destruct (Z.abs_eq_or_opp z) as [A|A]; rewrite A in G; [exact G|].
    rewrite opp_IZR in G. replace (IZR z * bpow radix2 e)%R with (- (- IZR z * bpow radix2 e))%R by ring.
    apply generic_format_opp, G.
  - apply generic_format_FLT. apply (FLT_spec radix2 (3 - emax64 - prec64) prec64 _ (Float radix2 z e)).
    + reflexivity.
    + cbn [Fnum]. change (Zpower radix2 prec64) with (2 ^ 53)%Z. lia.
    + cbn [Fexp]. unfold emax64, prec64. lia.
Qed.

Lemma grid_bound e z : (e <= 970)%Z -> (Z.abs z <= 2 ^ 53)%Z -> (Rabs (IZR z * bpow radix2 e) < bpow radix2 emax64)%R.
Proof.
  intros He Hz. rewrite Rabs_mult, (Rabs_pos_eq (bpow radix2 e)) by apply bpow_ge_0.
  rewrite <- abs_IZR. apply Rle_lt_trans with (bpow radix2 53 * bpow radix2 e)%R.
  - apply Rmult_le_compat_r; [apply bpow_ge_0|]. change (bpow radix2 53) with (IZR (2 ^ 53)). apply IZR_le, Hz.
  - rewrite <- bpow_plus. apply bpow_lt. unfold emax64. lia.
Qed.

Section Grid.
  Variable e : Z.
  Hypothesis He : (-1074 <= e <= 970)%Z.

  Lemma grid_sub a b x y : on_grid e a x -> on_grid e b y -> (Z.abs (a - b) <= 2 ^ 53)%Z -> on_grid e (a - b) (fsub x y).
  Proof.
    intros (Fx & Rx) (Fy & Ry) H.
    assert (E : (B2R x - B2R y = IZR (a - b) * bpow radix2 e)%R) by (rewrite Rx, Ry, minus_IZR; ring).
    destruct (fsub_R x y Fx Fy) as (A & B); rewrite E, (rnd64_id _ (grid_format e (a - b) ltac:(lia) H)) in *.
    - apply grid_bound; [lia|exact H].
    - split; assumption.
  Qed.
  Lemma grid_add a b x y : on_grid e a x -> on_grid e b y -> (Z.abs (a + b) <= 2 ^ 53)%Z -> on_grid e (a + b) (fadd x y).
  Proof.
    intros (Fx & Rx) (Fy & Ry) H.
    assert (E : (B2R x + B2R y = IZR (a + b) * bpow radix2 e)%R) by (rewrite Rx, Ry, plus_IZR; ring).
    destruct (fadd_R x y Fx Fy) as (A & B); rewrite E, (rnd64_id _ (grid_format e (a + b) ltac:(lia) H)) in *.
    - apply grid_bound; [lia|exact H].
    - split; assumption.
  Qed.
  Lemma grid_lt a b x y : on_grid e a x -> on_grid e b y -> flt x y = Z.ltb a b.
  Proof.
    intros (Fx & Rx) (Fy & Ry). unfold flt. rewrite (Bltb_correct prec64 emax64 x y Fx Fy), Rx, Ry.
    pose proof (bpow_gt_0 radix2 e) as P.
    destruct (Z.ltb_spec a b) as [H|H].
    - apply Rlt_bool_true, Rmult_lt_compat_r; [exact P|apply IZR_lt, H].
    - apply Rlt_bool_false, Rmult_le_compat_r; [lra|apply IZR_le, H].
  Qed.
  Lemma grid_le a b x y : on_grid e a x -> on_grid e b y -> fle x y = Z.leb a b.
  Proof.
    intros (Fx & Rx) (Fy & Ry). unfold fle. rewrite (Bleb_correct prec64 emax64 x y Fx Fy), Rx, Ry.
    pose proof (bpow_gt_0 radix2 e) as P.
    destruct (Z.leb_spec a b) as [H|H].
    - apply Rle_bool_true, Rmult_le_compat_r; [lra|apply IZR_le, H].
    - apply Rle_bool_false, Rmult_lt_compat_r; [exact P|apply IZR_lt, H].
  Qed.
  Lemma grid_eq a b x y : on_grid e a x -> on_grid e b y -> feq x y = Z.eqb a b.
  Proof.
    intros (Fx & Rx) (Fy & Ry). unfold feq. rewrite (Beqb_correct prec64 emax64 x y Fx Fy), Rx, Ry.
    pose proof (bpow_gt_0 radix2 e) as P.
    destruct (Z.eqb_spec a b) as [H|H].
    - apply Req_bool_true. rewrite H. reflexivity.
    - apply Req_bool_false. intros E. apply H, eq_IZR. apply Rmult_eq_reg_r in E; [exact E|lra].
  Qed.

  (** the loops on a grid: integers, no rounding *)
  Lemma subWhile_grid u l ub L : on_grid e u ub -> on_grid e l L -> (0 < l)%Z ->
    forall fuel z x, on_grid e z x -> (z - u < Z.of_nat fuel * l)%Z -> (Z.abs z <= 2 ^ 51)%Z -> (Z.abs u <= 2 ^ 51)%Z -> (l <= 2 ^ 52)%Z ->
    exists k y, subWhile (N := F_arith) fuel ub L x = Done y /\ on_grid e (z - k * l) y /\ (0 <= k)%Z /\ (z - k * l < u)%Z /\
      (k = 0 \/ u - l <= z - k * l)%Z /\ (z < u -> k = 0)%Z /\ (k = 0%Z -> y = x).
  Proof.
    intros Gu Gl Hl. induction fuel as [|f IH]; intros z x Gx Hf Hz Hu Hl2; cbn [subWhile]; cbn [F_arith a_le a_sub];
      rewrite (grid_le u z _ _ Gu Gx); destruct (Z.leb_spec u z) as [H|H].
    - lia.
    - exists 0%Z, x. split; [reflexivity|]. replace (z - 0 * l)%Z with z by lia. repeat split; try lia; try apply Gx.
    - destruct (Z_lt_le_dec (z - l) (- 2 ^ 51)) as [O|O].
      + (* the loop stops after this step *)
        assert (G1 : on_grid e (z - l) (fsub x L)) by (apply grid_sub; [exact Gx|exact Gl|lia]).
        exists 1%Z, (fsub x L). replace (z - 1 * l)%Z with (z - l)%Z by lia.
        split.
        { destruct f; cbn [subWhile]; cbn [F_arith a_le]; rewrite (grid_le _ _ _ _ Gu G1);
            destruct (Z.leb_spec u (z - l)); try lia; reflexivity. }
        split; [exact G1|]. repeat split; lia.
      + destruct (IH (z - l)%Z (fsub x L)) as (k & y & E & G & K & B & C & D & F); try (rewrite Nat2Z.inj_succ, Z.mul_succ_l in Hf; lia).
        { apply grid_sub; [exact Gx|exact Gl|lia]. }
        exists (k + 1)%Z, y. split; [exact E|]. replace (z - (k + 1) * l)%Z with (z - l - k * l)%Z by lia.
        split; [exact G|]. split; [lia|]. split; [exact B|]. split; [|split; lia].
        destruct C as [C|C]; [|lia]. destruct (Z_lt_le_dec (z - l) u); lia.
    - exists 0%Z, x. split; [reflexivity|]. replace (z - 0 * l)%Z with z by lia. repeat split; try lia; try apply Gx.
  Qed.
  Lemma addWhile_grid u l lb L : on_grid e u lb -> on_grid e l L -> (0 < l)%Z ->
    forall fuel z x, on_grid e z x -> (u - z < Z.of_nat fuel * l)%Z -> (Z.abs z <= 2 ^ 51)%Z -> (Z.abs u <= 2 ^ 51)%Z -> (l <= 2 ^ 52)%Z ->
    exists k y, addWhile (N := F_arith) fuel lb L x = Done y /\ on_grid e (z + k * l) y /\ (0 <= k)%Z /\ (u <= z + k * l)%Z /\
      (k = 0 \/ z + k * l < u + l)%Z /\ (u <= z -> k = 0)%Z /\ (k = 0%Z -> y = x).
  Proof.
    intros Gu Gl Hl. induction fuel as [|f IH]; intros z x Gx Hf Hz Hu Hl2; cbn [addWhile]; cbn [F_arith a_lt a_add];
      rewrite (grid_lt z u _ _ Gx Gu); destruct (Z.ltb_spec z u) as [H|H].
    - lia.
    - exists 0%Z, x. split; [reflexivity|]. replace (z + 0 * l)%Z with z by lia. repeat split; try lia; try apply Gx.
    - destruct (Z_lt_le_dec (2 ^ 51) (z + l)) as [O|O].
      + (* the loop stops after this step *)
        assert (G1 : on_grid e (z + l) (fadd x L)) by (apply grid_add; [exact Gx|exact Gl|lia]).
        exists 1%Z, (fadd x L). replace (z + 1 * l)%Z with (z + l)%Z by lia.
        split.
        { destruct f; cbn [addWhile]; cbn [F_arith a_lt]; rewrite (grid_lt _ _ _ _ G1 Gu);
            destruct (Z.ltb_spec (z + l) u); try lia; reflexivity. }
        split; [exact G1|]. repeat split; lia.
      + destruct (IH (z + l)%Z (fadd x L)) as (k & y & E & G & K & B & C & D & F); try (rewrite Nat2Z.inj_succ, Z.mul_succ_l in Hf; lia).
        { apply grid_add; [exact Gx|exact Gl|lia]. }
        exists (k + 1)%Z, y. split; [exact E|]. replace (z + (k + 1) * l)%Z with (z + l + k * l)%Z by lia.
        split; [exact G|]. split; [lia|]. split; [exact B|]. split; [|split; lia].
        destruct C as [C|C]; [|lia]. destruct (Z_lt_le_dec (z + l) u); lia.
    - exists 0%Z, x. split; [reflexivity|]. replace (z + 0 * l)%Z with z by lia. repeat split; try lia; try apply Gx.
  Qed.

  Lemma wrap_Z a b z k : (a < b)%Z -> (a <= z + k * (b - a) < b)%Z -> (z + k * (b - a) = a + (z - a) mod (b - a))%Z.
  Proof.
    intros H B. rewrite (Z.mod_eq (z - a) (b - a)) by lia.
    assert (Q : ((z - a) / (b - a) = - k)%Z).
    { symmetry. apply (Z.div_unique_pos (z - a) (b - a) (- k) (z + k * (b - a) - a)); lia. }
    rewrite Q. lia.
  Qed.

  Lemma findPBCImage_grid a b z lb ub x fuel : on_grid e a lb -> on_grid e b ub -> on_grid e z x -> (a < b)%Z ->
    (Z.abs a <= 2 ^ 51)%Z -> (Z.abs b <= 2 ^ 51)%Z -> (Z.abs z <= 2 ^ 51)%Z ->
    (Z.abs (z - a) + (b - a) < Z.of_nat fuel * (b - a))%Z ->
    exists y, findPBCImage (N := F_arith) fuel lb ub x = Done y /\ on_grid e (a + (z - a) mod (b - a)) y /\
      ((a <= z < b)%Z -> y = x).
  Proof.
    intros Ga Gb Gz H Ha Hb Hz Hf. unfold findPBCImage. cbn [F_arith a_sub].
    assert (GL : on_grid e (b - a) (fsub ub lb)) by (apply grid_sub; [exact Gb|exact Ga|lia]).
    destruct (subWhile_grid b (b - a) ub _ Gb GL ltac:(lia) fuel z x Gz) as (k & x1 & E & G & K & B & C & D & F); try lia.
    rewrite E. cbn [obind].
    destruct (addWhile_grid a (b - a) lb _ Ga GL ltac:(lia) fuel (z - k * (b - a)) x1 G) as (j & y & E2 & G2 & K2 & B2 & C2 & D2 & F2); try lia.
    rewrite E2. exists y. split; [reflexivity|].
    replace (z - k * (b - a) + j * (b - a))%Z with (z + (j - k) * (b - a))%Z in * by lia.
    split.
    - rewrite <- (wrap_Z a b z (j - k)); [exact G2|lia|]. split; [lia|].
      destruct C2 as [->|C2]; [|lia]. replace (z + (0 - k) * (b - a))%Z with (z - k * (b - a))%Z by lia. exact B.
    - intros Hin. rewrite F2 by (apply D2; rewrite (D ltac:(lia)); lia). apply F, D. lia.
  Qed.

  Lemma adjust_grid a b z lb ub x fuel : on_grid e a lb -> on_grid e b ub -> on_grid e z x -> (a < b)%Z ->
    (Z.abs a <= 2 ^ 51)%Z -> (Z.abs b <= 2 ^ 51)%Z -> (Z.abs z <= 2 ^ 51)%Z ->
    (Z.abs (z - a) + 2 * (b - a) < Z.of_nat fuel * (b - a))%Z ->
    exists y, adjustCoordinate (N := F_arith) fuel lb ub x = Done y /\ on_grid e (a + (z - a) mod (b - a)) y /\
      ((a <= z < b)%Z -> y = x).
  Proof.
    intros Ga Gb Gz H Ha Hb Hz Hf. unfold adjustCoordinate. cbn [F_arith a_sub a_eq].
    assert (GL : on_grid e (b - a) (fsub ub lb)) by (apply grid_sub; [exact Gb|exact Ga|lia]).
    destruct (addWhile_grid a (b - a) lb _ Ga GL ltac:(lia) fuel z x Gz) as (j & x1 & E & G & K & B & C & D & F); try lia.
    rewrite E. cbn [obind].
    destruct (subWhile_grid b (b - a) ub _ Gb GL ltac:(lia) fuel (z + j * (b - a)) x1 G) as (k & y & E2 & G2 & K2 & B2 & C2 & D2 & F2);
      try lia.
    rewrite E2. cbn [obind]. rewrite (grid_eq _ _ _ _ G2 Gb).
    destruct (Z.eqb_spec (z + j * (b - a) - k * (b - a)) b) as [X|X]; [lia|].
    exists y. split; [reflexivity|].
    replace (z + j * (b - a) - k * (b - a))%Z with (z + (j - k) * (b - a))%Z in * by lia.
    split.
    - rewrite <- (wrap_Z a b z (j - k)); [exact G2|lia|]. split; [|lia].
      destruct C2 as [->|C2]; [|lia]. replace (z + (j - 0) * (b - a))%Z with (z + j * (b - a))%Z by lia. exact B.
    - intros Hin. rewrite F2 by (apply D2; rewrite (D ltac:(lia)); lia). apply F, D. lia.
  Qed.
End Grid.

(** values already inside are untouched, for all doubles *)
Lemma inside_untouched fuel (lb ub x : f64) : fle ub x = false -> flt x lb = false ->
  findPBCImage (N := F_arith) fuel lb ub x = Done x.
Proof.
  intros H1 H2. unfold findPBCImage. cbn [F_arith a_sub].
  destruct fuel; cbn [subWhile]; cbn [F_arith a_le]; rewrite H1; cbn [obind addWhile]; cbn [F_arith a_lt]; rewrite H2; reflexivity.
Qed.

(** a step that does not change x never ends *)
Lemma stuck fuel (ub L x : f64) : fle ub x = true -> fsub x L = x -> subWhile (N := F_arith) fuel ub L x = NoFuel.
Proof.
  intros H1 H2. induction fuel as [|f IH]; cbn [subWhile]; cbn [F_arith a_le a_sub]; rewrite H1; [reflexivity|].
  rewrite H2. exact IH.
Qed.
