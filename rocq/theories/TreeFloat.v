From Coq Require Import List Arith ZArith Lia Bool Reals Lra Psatz.
From Flocq Require Import Core BinarySingleNaN Relative Plus_error.
From Verif Require Import Outcome ListUtil F64 Arith ParticleModel DomainModel TreeModel TreeSpec TreeProofs TreeSearch.
Import ListNotations.
Local Open Scope R_scope.

Definition u53 : R := bpow radix2 (-53).
Definition eta : R := bpow radix2 (-1075).
Lemma half e : / 2 * bpow radix2 (e + 1) = bpow radix2 e. Proof. rewrite bpow_plus. change (bpow radix2 1) with 2. field. Qed.
Lemma u53_pos : 0 < u53 <= / 8. Proof. unfold u53. split; [apply bpow_gt_0|]. replace (/ 8) with (bpow radix2 (-3)) by (cbn; lra). apply bpow_le. lia. Qed.
Lemma eta_pos : 0 < eta. Proof. apply bpow_gt_0. Qed.
Lemma inv_pow n : / 2 ^ n = bpow radix2 (- Z.of_nat n).
Proof. rewrite bpow_opp. f_equal. rewrite <- IZR_Zpower by lia. change (Zpower radix2 (Z.of_nat n)) with (2 ^ Z.of_nat n)%Z. rewrite pow_IZR. reflexivity. Qed.
Lemma loose_eq d : loose d = d * (1 + 8 * u53) + 8 * eta.
Proof. unfold loose. rewrite !inv_pow. change (- Z.of_nat 50)%Z with (3 + -53)%Z. replace (- Z.of_nat 1072)%Z with (3 + -1075)%Z by reflexivity. rewrite !bpow_plus. change (bpow radix2 3) with 8. reflexivity. Qed.

Lemma sub_finite (x y : f64) : is_finite x = true -> is_finite y = true -> is_finite (fsub x y) = true -> B2R (fsub x y) = rnd64 (B2R x - B2R y).
Proof.
  intros Hx Hy Hf. pose proof (Bminus_correct prec64 emax64 _ _ mode_NE x y Hx Hy) as H. change (round radix2 fexp64 (round_mode mode_NE) (B2R x - B2R y)) with (rnd64 (B2R x - B2R y)) in H.
  destruct (Rlt_bool (Rabs (rnd64 (B2R x - B2R y))) (bpow radix2 emax64)); [apply H|]. exfalso. destruct H as (H & _). fold (fsub x y) in H. rewrite <- is_finite_SF_B2SF, H in Hf. discriminate Hf.
Qed.
Lemma add_finite (x y : f64) : is_finite x = true -> is_finite y = true -> is_finite (fadd x y) = true -> B2R (fadd x y) = rnd64 (B2R x + B2R y).
Proof.
  intros Hx Hy Hf. pose proof (Bplus_correct prec64 emax64 _ _ mode_NE x y Hx Hy) as H. change (round radix2 fexp64 (round_mode mode_NE) (B2R x + B2R y)) with (rnd64 (B2R x + B2R y)) in H.
  destruct (Rlt_bool (Rabs (rnd64 (B2R x + B2R y))) (bpow radix2 emax64)); [apply H|]. exfalso. destruct H as (H & _). fold (fadd x y) in H. rewrite <- is_finite_SF_B2SF, H in Hf. discriminate Hf.
Qed.
Lemma rnd64_F (x : f64) : rnd64 (B2R x) = B2R x. Proof. apply rnd64_id, f_format. Qed.
Lemma sum_rel x y : generic_format radix2 fexp64 x -> generic_format radix2 fexp64 y -> 0 <= x + y -> rnd64 (x + y) <= (x + y) * (1 + u53).
Proof.
  intros Hx Hy Hp. destruct (FLT_plus_error_N_ex radix2 (3 - emax64 - prec64) prec64 (fun z => negb (Z.even z)) x y Hx Hy) as (e & He & E). unfold rnd64. change (round radix2 fexp64 ZnearestE (x + y)) with (round radix2 (FLT_exp (3 - emax64 - prec64) prec64) (Znearest (fun z => negb (Z.even z))) (x + y)). rewrite E.
  apply Rmult_le_compat_l; [assumption|]. assert (Hu : u_ro radix2 prec64 = u53). { exact (half (-53)). } rewrite Hu in He. assert (P := u53_pos). apply Rabs_le_inv in He. assert (u53 / (1 + u53) <= u53). { apply (Rmult_le_reg_r (1 + u53)); [lra|]. unfold Rdiv. rewrite Rmult_assoc, Rinv_l by lra. nra. } lra.
Qed.
Lemma mul_rel x : 0 <= x -> rnd64 x <= x * (1 + u53) + eta.
Proof.
  intros Hp. destruct (error_N_FLT radix2 (3 - emax64 - prec64) prec64 eq_refl (fun z => negb (Z.even z)) x) as (e & d & He & Hd & _ & E). unfold rnd64. change (round radix2 fexp64 ZnearestE x) with (round radix2 (FLT_exp (3 - emax64 - prec64) prec64) (Znearest (fun z => negb (Z.even z))) x). rewrite E.
  assert (Hu : / 2 * bpow radix2 (- prec64 + 1) = u53). { exact (half (-53)). } assert (Hu' : / 2 * bpow radix2 (3 - emax64 - prec64) = eta). { exact (half (-1075)). }
  rewrite Hu in He. rewrite Hu' in Hd. apply Rabs_le_inv in He, Hd. assert (x * (1 + e) <= x * (1 + u53)) by (apply Rmult_le_compat_l; lra). lra.
Qed.
Lemma rnd64_0 : rnd64 0 = 0. Proof. apply round_0. apply valid_rnd_N. Qed.
Lemma rnd64_pos x : 0 <= x -> 0 <= rnd64 x. Proof. intros H. rewrite <- rnd64_0. apply rnd64_mono. assumption. Qed.

Lemma gap_dbl (l h x : f64) (xe : R) (r : f64) : is_finite l = true -> is_finite h = true -> is_finite x = true -> is_finite r = true -> B2R l <= xe <= B2R h -> Rabs (B2R x - xe) <= B2R r ->
  let g := gap (N := F_arith) l h x in is_finite (g : f64) = true /\ 0 <= B2R (g : f64) <= Rabs (B2R x - xe) * (1 + u53) /\ B2R (g : f64) <= B2R r.
Proof.
  intros Hl Hh Hx Hr (Hle & Heh) Hd. cbv zeta. unfold gap. cbn [a_lt a_sub a_Z F_arith]. assert (P := u53_pos).
  assert (Hsub : forall a b : f64, is_finite a = true -> is_finite b = true -> 0 <= B2R a - B2R b <= Rabs (B2R x - xe) -> is_finite (fsub a b) = true /\ 0 <= B2R (fsub a b) <= Rabs (B2R x - xe) * (1 + u53) /\ B2R (fsub a b) <= B2R r).
  { intros a b Ha Hb (B1 & B2). assert (Hle' : rnd64 (B2R a - B2R b) <= B2R r) by (rewrite <- (rnd64_F r); apply rnd64_mono; lra). assert (H0 := rnd64_pos _ B1). destruct (fsub_R a b Ha Hb) as (E & F).
    { rewrite Rabs_pos_eq by assumption. apply (Rle_lt_trans _ (B2R r)); [assumption|]. apply (Rle_lt_trans _ (Rabs (B2R r))); [apply RRle_abs|]. apply abs_B2R_lt_emax. }
    rewrite E. split; [assumption|]. split; [|assumption]. split; [assumption|]. unfold Rminus in *. assert (K := sum_rel (B2R a) (- B2R b) (f_format a) (generic_format_opp _ _ _ (f_format b)) B1). apply (Rle_trans _ _ _ K). apply Rmult_le_compat_r; lra. }
  destruct (flt h x) eqn:E1; [|destruct (flt x l) eqn:E2].
  - apply flt_R in E1; try assumption. apply Hsub; try assumption. rewrite Rabs_pos_eq by lra. lra.
  - apply flt_R in E2; try assumption. apply Hsub; try assumption. rewrite Rabs_minus_sym, Rabs_pos_eq by lra. lra.
  - destruct (f_ofZ_exact 0) as (Z1 & Z2); [cbn; lia|]. rewrite Z1. split; [assumption|]. assert (A := Rabs_pos (B2R x - xe)). split; [split; [lra|nra]|lra].
Qed.

Lemma square_dbl (g r : f64) d : is_finite g = true -> is_finite r = true -> 0 <= B2R g <= d * (1 + u53) -> 0 <= d -> B2R g <= B2R r -> B2R r <= bpow radix2 123 ->
  is_finite (fmul g g) = true /\ 0 <= B2R (fmul g g) <= d ^ 2 * (1 + u53) ^ 3 + eta /\ B2R (fmul g g) <= bpow radix2 246.
Proof.
  intros Hg Hr (G0 & G1) Hd Hgr Hb. assert (P := u53_pos). set (y := B2R g) in *. assert (Hy : 0 <= y * y <= bpow radix2 246). { split; [nra|]. change 246%Z with (123 + 123)%Z. rewrite bpow_plus. apply Rmult_le_compat; lra. }
  assert (R1 : rnd64 (y * y) <= bpow radix2 246). { rewrite <- (rnd64_id (bpow radix2 246)) by (apply generic_format_bpow; cbn; lia). apply rnd64_mono. lra. } assert (R0 := rnd64_pos _ (proj1 Hy)).
  destruct (fmul_R g g Hg Hg) as (E & F). { fold y. rewrite Rabs_pos_eq by assumption. apply (Rle_lt_trans _ _ _ R1). apply bpow_lt. reflexivity. }
  rewrite E. fold y. split; [assumption|]. split; [|assumption]. split; [assumption|]. apply (Rle_trans _ _ _ (mul_rel _ (proj1 Hy))). apply Rplus_le_compat_r. replace (d ^ 2 * (1 + u53) ^ 3) with ((d * (1 + u53)) * (d * (1 + u53)) * (1 + u53)) by ring. apply Rmult_le_compat_r; [lra|]. apply Rmult_le_compat; lra.
Qed.

Notation fsite := (site F_arith).
Lemma ball_low_F c (e : fsite) : In c coords -> c (olow (ball e)) = fsub (c (s_pos e)) (s_rad e).
Proof. intros [<-|[<-|[<-|[]]]]; reflexivity. Qed.
Lemma ball_high_F c (e : fsite) : In c coords -> c (ohigh (ball e)) = fadd (c (s_pos e)) (s_rad e).
Proof. intros [<-|[<-|[<-|[]]]]; reflexivity. Qed.
Lemma apart_coord (e f : fsite) c : In c coords -> (real (c (s_pos e)) - real (c (s_pos f))) ^ 2 <= apart real e f.
Proof.
  intros Hc. unfold apart. assert (A := pow2_ge_0 (real (vx (s_pos e)) - real (vx (s_pos f)))). assert (B := pow2_ge_0 (real (vy (s_pos e)) - real (vy (s_pos f)))). assert (C := pow2_ge_0 (real (vz (s_pos e)) - real (vz (s_pos f)))). destruct Hc as [<-|[<-|[<-|[]]]]; lra.
Qed.
Lemma sq_abs a b : 0 <= b -> a ^ 2 <= b ^ 2 -> Rabs a <= b.
Proof. intros Hb H. apply Rabs_le. split; nra. Qed.

(** e's coordinate lies between the rounded faces of the ball of f, when it lies between the exact ones *)
Lemma ball_between (e f : fsite) c : In c coords -> proper finite real (point f) -> proper finite real (ball f) -> finite (s_rad f) -> Rabs (real (c (s_pos f)) - real (c (s_pos e))) <= real (s_rad f) ->
  real (c (olow (ball f))) <= real (c (s_pos e)) <= real (c (ohigh (ball f))).
Proof.
  intros Hc Hp Hb Hr H. destruct (Hp c Hc) as (P1 & _). destruct (Hb c Hc) as (B1 & B2 & _). cbn [point olow] in P1. rewrite ball_low_F in * by assumption. rewrite ball_high_F in * by assumption. unfold real, finite in *. apply Rabs_le_inv in H.
  rewrite sub_finite, add_finite by assumption. rewrite <- (rnd64_F (c (s_pos e))). split; apply rnd64_mono; lra.
Qed.

Lemma G_doubles (e f : fsite) : usable finite real [e; f] -> apart real e f <= real (s_rad e) ^ 2 -> box_in real (point f) (ball e).
Proof.
  intros Hu H c Hc. destruct (Hu e (or_introl eq_refl)) as (U1 & U2 & U3 & U4). apply (ball_between f e c Hc U1 U2 U3). apply sq_abs; [assumption|]. apply (Rle_trans _ _ _ (apart_coord e f c Hc) H).
Qed.

Lemma rad_bound (f : fsite) : proper finite real (point f) -> proper finite real (ball f) -> finite (s_rad f) -> real (s_rad f) <= bpow radix2 123.
Proof.
  intros Hp Hb Hr. destruct (Hp vx ltac:(cbn; auto)) as (P1 & _ & P2 & _). destruct (Hb vx ltac:(cbn; auto)) as (_ & B2 & _ & B3). cbn [point olow] in P1, P2. rewrite ball_high_F in B2, B3 by (cbn; auto). unfold real, finite in *. rewrite add_finite in B3 by assumption.
  assert (K : 16777215 * 2 ^ 97 <= bpow radix2 121). { rewrite <- two97. change 121%Z with (24 + 97)%Z. rewrite bpow_plus. apply Rmult_le_compat_r; [apply bpow_ge_0|]. change (bpow radix2 24) with 16777216. lra. }
  destruct (Rle_lt_dec (B2R (s_rad f : f64)) (bpow radix2 123)) as [|Hbig]; [assumption|]. exfalso. apply Rabs_le_inv in P2, B3.
  assert (E : bpow radix2 123 = 4 * bpow radix2 121) by (change 123%Z with (2 + 121)%Z; rewrite bpow_plus; reflexivity). assert (E2 : bpow radix2 122 = 2 * bpow radix2 121) by (change 122%Z with (1 + 121)%Z; rewrite bpow_plus; reflexivity).
  assert (M : rnd64 (bpow radix2 122) <= rnd64 (B2R (vx (s_pos f) : f64) + B2R (s_rad f : f64))) by (apply rnd64_mono; lra). rewrite (rnd64_id (bpow radix2 122)) in M by (apply generic_format_bpow; cbn; lia). assert (Q := bpow_gt_0 radix2 121). lra.
Qed.

Lemma total_bound dx dy dz a b c : 0 <= a <= dx ^ 2 * (1 + u53) ^ 3 + eta -> 0 <= b <= dy ^ 2 * (1 + u53) ^ 3 + eta -> 0 <= c <= dz ^ 2 * (1 + u53) ^ 3 + eta ->
  (a + b) * (1 + u53) + c <= (dx ^ 2 + dy ^ 2 + dz ^ 2) * (1 + 8 * u53) + 8 * eta.
Proof.
  intros Ha Hb Hc. assert (P := u53_pos). assert (Q := eta_pos). set (D := dx ^ 2 + dy ^ 2 + dz ^ 2). assert (HD : 0 <= D) by (unfold D; assert (A := pow2_ge_0 dx); assert (B := pow2_ge_0 dy); assert (C := pow2_ge_0 dz); lra).
  assert (H1 : (a + b) * (1 + u53) + c <= (a + b + c) * (1 + u53)) by nra. assert (H2 : a + b + c <= D * (1 + u53) ^ 3 + 3 * eta) by (unfold D; lra).
  assert (H3 : (a + b + c) * (1 + u53) <= (D * (1 + u53) ^ 3 + 3 * eta) * (1 + u53)) by (apply Rmult_le_compat_r; lra).
  assert (H4 : (1 + u53) ^ 4 <= 1 + 8 * u53). { assert (0 <= u53 * u53 <= u53 / 8) by nra. assert (0 <= u53 * u53 * u53 <= u53 / 64) by nra. assert (0 <= u53 * u53 * u53 * u53 <= u53 / 512) by nra. nra. }
  assert (H5 : D * (1 + u53) ^ 4 <= D * (1 + 8 * u53)) by (apply Rmult_le_compat_l; assumption). assert (H6 : (D * (1 + u53) ^ 3 + 3 * eta) * (1 + u53) = D * (1 + u53) ^ 4 + 3 * eta * (1 + u53)) by ring. nra.
Qed.

Lemma S_doubles tin tout fs (e f : fsite) : In e fs -> hull finite real (map point fs) tin -> usable finite real [e; f] -> loose (apart real e f) <= real (s_rad f) ^ 2 ->
  isInEpList tin tout f = true /\ forall m, okB finite (v_out m) -> box_in real (ball f) (v_out m) -> openBit tin tout m = true.
Proof.
  intros He (T1 & T2 & _) Hu H. destruct (Hu f (or_intror (or_introl eq_refl))) as (U1 & U2 & U3 & U4). assert (Hin := T2 (point e) (in_map _ _ _ He)). rewrite loose_eq in H. assert (P := u53_pos). assert (Q := eta_pos).
  assert (HD : apart real e f <= real (s_rad f) ^ 2). { assert (0 <= apart real e f) by (apply (Rle_trans _ ((real (vx (s_pos e)) - real (vx (s_pos f))) ^ 2)); [apply pow2_ge_0|apply apart_coord; cbn; auto]). nra. }
  assert (Hc : forall c, In c coords -> Rabs (real (c (s_pos f)) - real (c (s_pos e))) <= real (s_rad f)). { intros c Hc. rewrite Rabs_minus_sym. apply sq_abs; [assumption|]. apply (Rle_trans _ _ _ (apart_coord e f c Hc) HD). }
  assert (Hrb := rad_bound f U1 U2 U3). split.
  - unfold isInEpList. apply orb_true_iff. left. unfold distanceMinSQ. cbv zeta. cbn [a_le a_add a_mul F_arith].
    assert (HG : forall c, In c coords -> let g := gap (N := F_arith) (c (olow tin)) (c (ohigh tin)) (c (s_pos f)) in is_finite (fmul g g : f64) = true /\ 0 <= B2R (fmul g g : f64) <= Rabs (real (c (s_pos f)) - real (c (s_pos e))) ^ 2 * (1 + u53) ^ 3 + eta /\ B2R (fmul g g : f64) <= bpow radix2 246).
    { intros c Hcc. destruct (T1 c Hcc) as (O1 & O2). destruct (U1 c Hcc) as (O3 & _). destruct (Hin c Hcc) as (I1 & I2). cbn [point olow ohigh] in I1, I2, O3. destruct (gap_dbl (c (olow tin)) (c (ohigh tin)) (c (s_pos f)) (real (c (s_pos e))) (s_rad f)) as (G1 & G2 & G3); try assumption; [split; assumption|apply Hc; assumption|]. cbv zeta. apply (square_dbl _ (s_rad f)); try assumption. apply Rabs_pos. }
    destruct (HG vx ltac:(cbn; auto)) as (X1 & X2 & X3). destruct (HG vy ltac:(cbn; auto)) as (Y1 & Y2 & Y3). destruct (HG vz ltac:(cbn; auto)) as (Z1 & Z2 & Z3). cbv zeta in X1, X2, X3, Y1, Y2, Y3, Z1, Z2, Z3. clear HG.
    set (ax := fmul _ _) in X1, X2, X3 |- *. set (ay := fmul _ _) in Y1, Y2, Y3 |- *. set (az := fmul _ _) in Z1, Z2, Z3 |- *.
    assert (Big : forall x, 0 <= x <= bpow radix2 250 -> Rabs (rnd64 x) < bpow radix2 emax64). { intros x Hx. rewrite Rabs_pos_eq by (apply rnd64_pos; apply Hx). apply (Rle_lt_trans _ (rnd64 (bpow radix2 250))); [apply rnd64_mono; apply Hx|]. rewrite rnd64_id by (apply generic_format_bpow; cbn; lia). apply bpow_lt. reflexivity. }
    assert (E250 : bpow radix2 250 = 16 * bpow radix2 246) by (change 250%Z with (4 + 246)%Z; rewrite bpow_plus; reflexivity). assert (B246 := bpow_gt_0 radix2 246).
    assert (HS := sum_rel (B2R ax) (B2R ay) (f_format ax) (f_format ay) ltac:(lra)). assert (HS0 : 0 <= rnd64 (B2R ax + B2R ay)) by (apply rnd64_pos; lra).
    destruct (fadd_R ax ay X1 Y1) as (S1 & S2); [apply Big; lra|]. destruct (fadd_R (fadd ax ay) az S2 Z1) as (S3 & S4); [apply Big; rewrite S1; nra|].
    assert (Hrr : 0 <= real (s_rad f) * real (s_rad f) <= bpow radix2 246). { split; [nra|]. change 246%Z with (123 + 123)%Z. rewrite bpow_plus. apply Rmult_le_compat; lra. }
    destruct (fmul_R (s_rad f) (s_rad f) U3 U3) as (M1 & M2); [apply Big; unfold real in Hrr; lra|].
    apply fle_R; try assumption. rewrite S3, M1, S1. apply rnd64_mono. apply (Rle_trans _ ((B2R ax + B2R ay) * (1 + u53) + B2R az)); [lra|]. apply (Rle_trans _ _ _ (total_bound _ _ _ _ _ _ X2 Y2 Z2)).
    rewrite !pow2_abs. unfold apart, real in *. replace (B2R (s_rad f : f64) * B2R (s_rad f : f64)) with (B2R (s_rad f : f64) ^ 2) by ring. refine (Rle_trans _ _ _ (Req_le _ _ _) H). ring.
  - intros m Hm Hb. unfold openBit. apply orb_true_iff. left. apply (overlapsBox_ok finite real doubles_ordered); try assumption. intros c Hcc. destruct (ball_between e f c Hcc U1 U2 U3 (Hc c Hcc)). destruct (Hb c Hcc). destruct (Hin c Hcc). cbn [point olow ohigh] in *. split; lra.
Qed.
