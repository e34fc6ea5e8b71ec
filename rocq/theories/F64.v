(** IEEE-754 binary64 ("double") via Flocq's BinarySingleNaN.  No model content:
    the operations the modelled code performs on doubles, rounding to nearest
    even, and the facts the proofs use. *)
From Coq Require Import ZArith Reals Lia Lra Psatz Bool.
From Flocq Require Import Core BinarySingleNaN Relative Mult_error.
Local Open Scope Z_scope.

Definition prec64 : Z := 53.
Definition emax64 : Z := 1024.
Global Instance Hprec64 : Prec_gt_0 prec64. Proof. reflexivity. Qed.
Global Instance Hemax64 : Prec_lt_emax prec64 emax64. Proof. reflexivity. Qed.

Definition f64 := binary_float prec64 emax64.

Definition fadd : f64 -> f64 -> f64 := Bplus mode_NE.
Definition fsub : f64 -> f64 -> f64 := Bminus mode_NE.
Definition fmul : f64 -> f64 -> f64 := Bmult mode_NE.
Definition fdiv : f64 -> f64 -> f64 := Bdiv mode_NE.
Definition fsqrt : f64 -> f64 := Bsqrt mode_NE.
Definition fopp : f64 -> f64 := Bopp.
Definition fabs : f64 -> f64 := Babs.
(** comparisons: false when an operand is NaN *)
Definition flt : f64 -> f64 -> bool := Bltb.
Definition fle : f64 -> f64 -> bool := Bleb.
Definition feq : f64 -> f64 -> bool := Beqb.
(** conversion from an integer type *)
Definition f_ofZ (z : Z) : f64 := binary_normalize prec64 emax64 _ _ mode_NE z 0 false.
(** m * 2^e, for literals *)
Definition f_lit (m e : Z) : f64 := binary_normalize prec64 emax64 _ _ mode_NE m e false.
(** std::floor *)
Definition ffloor (x : f64) : f64 := Bnearbyint mode_DN x.
(** conversion to an integer type: truncation; the caller must check the range *)
Definition f_trunc (x : f64) : Z := Btrunc x.
Definition f_finite (x : f64) : bool := is_finite x.
Definition f_R (x : f64) : R := B2R x.
Definition f_zero : f64 := B754_zero false.

Notation fexp64 := (SpecFloat.fexp prec64 emax64).
Definition rnd64 (x : R) : R := round radix2 fexp64 ZnearestE x.

Global Instance fexp64_valid : Valid_exp fexp64.
Proof. apply (fexp_correct prec64 emax64 Hprec64). Qed.

Lemma fexp64_FLT : forall e, fexp64 e = FLT_exp (3 - emax64 - prec64) prec64 e.
Proof. reflexivity. Qed.

Global Instance fexp64_mono : Monotone_exp fexp64.
Proof. exact (FLT_exp_monotone (3 - emax64 - prec64) prec64). Qed.

(** integers up to 2^53 are exactly representable *)
Lemma int_format z : Z.abs z <= 2 ^ 53 -> generic_format radix2 fexp64 (IZR z).
Proof.
  intros Hz.
  destruct (Z.eq_dec (Z.abs z) (2 ^ 53)) as [E|E].
  - assert (G : generic_format radix2 fexp64 (bpow radix2 53)).
    { apply generic_format_bpow. vm_compute. discriminate. }
    assert (B : bpow radix2 53 = IZR (2 ^ 53)).
    { reflexivity. }
    destruct (Z.abs_eq_or_opp z) as [A|A].
    + rewrite <- A, E, <- B. exact G.
    + replace z with (- (2 ^ 53)) by lia. rewrite opp_IZR, <- B. apply generic_format_opp, G.
  - apply generic_format_FLT. apply (FLT_spec radix2 (3 - emax64 - prec64) prec64 _ (Float radix2 z 0)).
    + unfold F2R. cbn. ring.
    + cbn [Fnum]. change (Zpower radix2 prec64) with (2 ^ 53). lia.
    + cbn. vm_compute. discriminate.
Qed.

Lemma rnd64_int z : Z.abs z <= 2 ^ 53 -> rnd64 (IZR z) = IZR z.
Proof. intros H. apply round_generic; [apply valid_rnd_N | apply int_format, H]. Qed.

Lemma bpow_emax_big z : Z.abs z <= 2 ^ 53 -> (Rabs (IZR z) < bpow radix2 emax64)%R.
Proof.
  intros H. rewrite <- abs_IZR. apply Rle_lt_trans with (IZR (2 ^ 53)); [apply IZR_le, H|].
  change (IZR (2 ^ 53)) with (bpow radix2 53). apply bpow_lt. reflexivity.
Qed.

Lemma f_ofZ_exact z : Z.abs z <= 2 ^ 53 -> B2R (f_ofZ z) = IZR z /\ is_finite (f_ofZ z) = true.
Proof.
  intros Hz. pose proof (binary_normalize_correct prec64 emax64 _ _ mode_NE z 0 false) as H.
  cbv zeta in H.
  assert (EX : F2R (Float radix2 z 0) = IZR z) by (unfold F2R; cbn; ring).
  rewrite EX in H.
  change (round radix2 fexp64 (round_mode mode_NE) (IZR z)) with (rnd64 (IZR z)) in H.
  rewrite rnd64_int in H by assumption.
  rewrite Rlt_bool_true in H by (apply bpow_emax_big, Hz).
  destruct H as (A & B & _). split; assumption.
Qed.

Lemma rnd64_mono x y : (x <= y)%R -> (rnd64 x <= rnd64 y)%R.
Proof. intros H. apply round_le; [typeclasses eauto | apply valid_rnd_N | exact H]. Qed.

(** floor and truncation on a finite double *)
Lemma round_FIX0 (rnd : R -> Z) x : round radix2 (FIX_exp 0) rnd x = IZR (rnd x).
Proof.
  unfold round, F2R, scaled_mantissa, cexp, FIX_exp. cbn. rewrite !Rmult_1_r. reflexivity.
Qed.

Lemma ffloor_R x : B2R (ffloor x) = IZR (Zfloor (B2R x)) /\ is_finite (ffloor x) = is_finite x.
Proof.
  destruct (Bnearbyint_correct prec64 emax64 _ mode_DN x) as (A & B & _).
  rewrite round_FIX0 in A. split; assumption.
Qed.

Lemma f_trunc_R x : f_trunc x = Ztrunc (B2R x).
Proof.
  pose proof (Btrunc_correct prec64 emax64 _ x) as H. rewrite round_FIX0 in H.
  apply eq_IZR, H.
Qed.

Lemma fdiv_R x y : B2R y <> 0%R -> is_finite x = true ->
  (Rabs (rnd64 (B2R x / B2R y)) < bpow radix2 emax64)%R ->
  B2R (fdiv x y) = rnd64 (B2R x / B2R y) /\ is_finite (fdiv x y) = true.
Proof.
  intros Hy Hx Hb. pose proof (Bdiv_correct prec64 emax64 _ _ mode_NE x y Hy) as H.
  change (round radix2 fexp64 (round_mode mode_NE) (B2R x / B2R y)) with (rnd64 (B2R x / B2R y)) in H.
  rewrite Rlt_bool_true in H by assumption. destruct H as (A & B & _).
  split; [exact A | rewrite <- Hx; exact B].
Qed.

Lemma fmul_R x y : is_finite x = true -> is_finite y = true ->
  (Rabs (rnd64 (B2R x * B2R y)) < bpow radix2 emax64)%R ->
  B2R (fmul x y) = rnd64 (B2R x * B2R y) /\ is_finite (fmul x y) = true.
Proof.
  intros Hx Hy Hb. pose proof (Bmult_correct prec64 emax64 _ _ mode_NE x y) as H.
  change (round radix2 fexp64 (round_mode mode_NE) (B2R x * B2R y)) with (rnd64 (B2R x * B2R y)) in H.
  rewrite Rlt_bool_true in H by assumption. destruct H as (A & B & _).
  split; [exact A|]. rewrite Hx, Hy in B. exact B.
Qed.

Lemma fadd_R x y : is_finite x = true -> is_finite y = true ->
  (Rabs (rnd64 (B2R x + B2R y)) < bpow radix2 emax64)%R ->
  B2R (fadd x y) = rnd64 (B2R x + B2R y) /\ is_finite (fadd x y) = true.
Proof.
  intros Hx Hy Hb. pose proof (Bplus_correct prec64 emax64 _ _ mode_NE x y Hx Hy) as H.
  change (round radix2 fexp64 (round_mode mode_NE) (B2R x + B2R y)) with (rnd64 (B2R x + B2R y)) in H.
  rewrite Rlt_bool_true in H by assumption. destruct H as (A & B & _). split; assumption.
Qed.

Lemma fsub_R x y : is_finite x = true -> is_finite y = true ->
  (Rabs (rnd64 (B2R x - B2R y)) < bpow radix2 emax64)%R ->
  B2R (fsub x y) = rnd64 (B2R x - B2R y) /\ is_finite (fsub x y) = true.
Proof.
  intros Hx Hy Hb. pose proof (Bminus_correct prec64 emax64 _ _ mode_NE x y Hx Hy) as H.
  change (round radix2 fexp64 (round_mode mode_NE) (B2R x - B2R y)) with (rnd64 (B2R x - B2R y)) in H.
  rewrite Rlt_bool_true in H by assumption. destruct H as (A & B & _). split; assumption.
Qed.

Lemma flt_R x y : is_finite x = true -> is_finite y = true ->
  flt x y = true <-> (B2R x < B2R y)%R.
Proof.
  intros Hx Hy. unfold flt. rewrite (Bltb_correct prec64 emax64 x y Hx Hy).
  case Rlt_bool_spec; intros H; split; intros; try easy; try lra.
Qed.

Lemma fle_R x y : is_finite x = true -> is_finite y = true ->
  fle x y = true <-> (B2R x <= B2R y)%R.
Proof.
  intros Hx Hy. unfold fle. rewrite (Bleb_correct prec64 emax64 x y Hx Hy).
  case Rle_bool_spec; intros H; split; intros; try easy; try lra.
Qed.

(** relative error of rounding a quotient of integers *)
Lemma rnd64_rel x : (bpow radix2 (-1022) <= Rabs x)%R ->
  (Rabs (rnd64 x - x) <= bpow radix2 (-53) * Rabs x)%R.
Proof.
  intros H.
  pose proof (relative_error_N_FLT radix2 (3 - emax64 - prec64) prec64 eq_refl
                (fun z => negb (Z.even z)) x H) as E.
  change (/ 2 * bpow radix2 (- prec64 + 1))%R with (/ 2 * bpow radix2 (-52))%R in E.
  replace (bpow radix2 (-53)) with (/ 2 * bpow radix2 (-52))%R.
  - exact E.
  - change (-52) with (1 + -53). rewrite bpow_plus. cbn -[bpow]. change (bpow radix2 1) with 2%R. field.
Qed.

(** The computation floor(a / (double)n) of two ints is the exact integer quotient. *)
Lemma div_floor_exact a n : 0 <= a < 2 ^ 31 -> 0 < n < 2 ^ 31 ->
  let q := ffloor (fdiv (f_ofZ a) (f_ofZ n)) in
  B2R q = IZR (a / n) /\ is_finite q = true.
Proof.
  intros Ha Hn. cbv zeta.
  destruct (f_ofZ_exact a) as (Ra & Fa); [lia|].
  destruct (f_ofZ_exact n) as (Rn & Fn); [lia|].
  assert (Hn0 : (0 < IZR n)%R) by (apply (IZR_lt 0); lia).
  assert (Ha0 : (0 <= IZR a)%R) by (apply (IZR_le 0); lia).
  set (x := (IZR a / IZR n)%R).
  assert (Hx0 : (0 <= x)%R) by (apply Rmult_le_pos; [assumption | left; apply Rinv_0_lt_compat; assumption]).
  assert (Hxa : (x <= IZR a)%R).
  { unfold x, Rdiv. rewrite <- (Rmult_1_r (IZR a)) at 2. apply Rmult_le_compat_l; [assumption|].
    rewrite <- Rinv_1. apply Rinv_le; [lra|]. apply (IZR_le 1). lia. }
  assert (Q1 : (IZR (a / n) <= x)%R).
  { unfold x. apply Rmult_le_reg_r with (IZR n); [assumption|]. unfold Rdiv.
    rewrite Rmult_assoc, Rinv_l, Rmult_1_r by lra. rewrite <- mult_IZR. apply IZR_le.
    rewrite Z.mul_comm. apply Z.mul_div_le. lia. }
  assert (Q2 : (x <= IZR (a / n) + 1 - / IZR n)%R).
  { unfold x. apply Rmult_le_reg_r with (IZR n); [assumption|]. unfold Rdiv.
    rewrite Rmult_assoc, Rinv_l, Rmult_1_r by lra.
    replace ((IZR (a / n) + 1 - / IZR n) * IZR n)%R with (IZR (a / n) * IZR n + IZR n - 1)%R by (field; lra).
    rewrite <- mult_IZR, <- plus_IZR, <- minus_IZR. apply IZR_le.
    pose proof (Z.mul_succ_div_gt a n ltac:(lia)). nia. }
  assert (QB : 0 <= a / n <= a).
  { split; [apply Z.div_pos; lia|]. apply Z.div_le_upper_bound; nia. }
  assert (R1 : (IZR (a / n) <= rnd64 x)%R).
  { rewrite <- (rnd64_int (a / n)) by lia. apply rnd64_mono, Q1. }
  assert (R2 : (rnd64 x < IZR (a / n) + 1)%R).
  { destruct (Z.eq_dec a 0) as [->|Ha1].
    { unfold x, Rdiv. rewrite Rmult_0_l. change (rnd64 0) with (rnd64 (IZR 0)).
      rewrite rnd64_int by lia. rewrite Z.div_0_l by lia. lra. }
    assert (Xlow : (/ IZR n <= x)%R).
    { unfold x, Rdiv. rewrite <- (Rmult_1_l (/ IZR n)) at 1. apply Rmult_le_compat_r.
      - left. apply Rinv_0_lt_compat. assumption.
      - apply (IZR_le 1). lia. }
    assert (NB : (bpow radix2 (-31) <= / IZR n)%R).
    { change (-31) with (- (31)). rewrite bpow_opp. apply Rinv_le; [assumption|].
      change (bpow radix2 31) with (IZR (2 ^ 31)). apply IZR_le. lia. }
    assert (NX : (bpow radix2 (-1022) <= Rabs x)%R).
    { rewrite Rabs_pos_eq by assumption. apply Rle_trans with (bpow radix2 (-31)); [|lra].
      apply bpow_le. lia. }
    pose proof (rnd64_rel x NX) as E. rewrite (Rabs_pos_eq x) in E by assumption.
    assert (E2 : (rnd64 x - x <= bpow radix2 (-53) * x)%R).
    { pose proof (rnd64_rel x NX) as E'. rewrite (Rabs_pos_eq x) in E' by assumption.
      eapply Rle_trans; [apply Rle_abs | exact E']. }
    assert (E3 : (bpow radix2 (-53) * x <= bpow radix2 (-22) * / IZR n)%R).
    { unfold x, Rdiv. rewrite <- Rmult_assoc. apply Rmult_le_compat_r.
      - left. apply Rinv_0_lt_compat. assumption.
      - change (-22) with (-53 + 31). rewrite bpow_plus.
        apply Rmult_le_compat_l; [apply bpow_ge_0|].
        change (bpow radix2 31) with (IZR (2 ^ 31)). apply IZR_le. lia. }
    assert (E4 : (bpow radix2 (-22) * / IZR n < / IZR n)%R).
    { rewrite <- (Rmult_1_l (/ IZR n)) at 2. apply Rmult_lt_compat_r.
      - apply Rinv_0_lt_compat. assumption.
      - change 1%R with (bpow radix2 0). apply bpow_lt. lia. }
    lra. }
  assert (BX : (Rabs (rnd64 x) < bpow radix2 emax64)%R).
  { rewrite Rabs_pos_eq.
    - apply Rlt_trans with (IZR (a / n) + 1)%R; [exact R2|].
      rewrite <- (plus_IZR (a / n) 1).
      pose proof (bpow_emax_big (a / n + 1) ltac:(lia)) as BB.
      rewrite Rabs_pos_eq in BB; [exact BB|]. apply (IZR_le 0). lia.
    - apply Rle_trans with (IZR (a / n)); [apply (IZR_le 0); lia | exact R1]. }
  destruct (fdiv_R (f_ofZ a) (f_ofZ n)) as (D1 & D2).
  { rewrite Rn. lra. }
  { exact Fa. }
  { rewrite Ra, Rn. exact BX. }
  rewrite Ra, Rn in D1. fold x in D1.
  destruct (ffloor_R (fdiv (f_ofZ a) (f_ofZ n))) as (G1 & G2).
  rewrite D2 in G2. rewrite D1 in G1. split; [|exact G2]. rewrite G1. f_equal.
  apply Zfloor_imp. rewrite plus_IZR. lra.
Qed.

(** powers of two as literals *)
Lemma f_lit_pow2 e : -1074 <= e < 1024 -> B2R (f_lit 1 e) = bpow radix2 e /\ is_finite (f_lit 1 e) = true.
Proof.
  intros He. pose proof (binary_normalize_correct prec64 emax64 _ _ mode_NE 1 e false) as H.
  cbv zeta in H. unfold F2R in H. cbn [Fnum Fexp] in H. rewrite Rmult_1_l in H.
  assert (G : generic_format radix2 fexp64 (bpow radix2 e)).
  { apply generic_format_bpow. unfold SpecFloat.fexp, SpecFloat.emin, emax64, prec64. lia. }
  rewrite round_generic in H by (try exact G; apply valid_rnd_N).
  rewrite Rlt_bool_true in H.
  - destruct H as (A & B & _). split; assumption.
  - rewrite Rabs_pos_eq by apply bpow_ge_0. apply bpow_lt. unfold emax64. lia.
Qed.

Lemma rnd64_id x : generic_format radix2 fexp64 x -> rnd64 x = x.
Proof. intros H. apply round_generic; [apply valid_rnd_N|exact H]. Qed.

Lemma f_format (x : f64) : generic_format radix2 fexp64 (B2R x).
Proof. apply generic_format_B2R. Qed.

Lemma format_scale x e : 0 <= e -> generic_format radix2 fexp64 x -> generic_format radix2 fexp64 (x * bpow radix2 e).
Proof. intros He H. exact (mult_bpow_pos_exact_FLT radix2 (3 - emax64 - prec64) prec64 x e H He). Qed.

Lemma rnd64_bpow_le x e : (-1074 <= e)%Z -> (Rabs x <= bpow radix2 e)%R -> (Rabs (rnd64 x) <= bpow radix2 e)%R.
Proof.
  intros He H. unfold rnd64. apply abs_round_le_generic; [apply (fexp_correct prec64 emax64); reflexivity|apply valid_rnd_N| |exact H].
  apply generic_format_bpow. unfold SpecFloat.fexp, SpecFloat.emin, emax64, prec64. lia.
Qed.
