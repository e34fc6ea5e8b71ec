(** Proofs about the main loop, names and restart. *)
From Coq Require Import List ZArith Bool Ascii String Reals Lra Lia Arith.
From Flocq Require Import Core BinarySingleNaN.
From Verif Require Import Outcome F64 RunModel RunSpec.
Import ListNotations.
Local Notation length := List.length.
Local Open Scope Z_scope.

(** * Main loop *)
Lemma below_S k s : 0 < k -> 0 <= s -> below k (s + 1) = below k s + (if s mod k =? 0 then 1 else 0).
Proof.
  intros Hk Hs. unfold below. pose proof (Z_div_mod_eq_full s k) as D. pose proof (Z.mod_pos_bound s k Hk) as M.
  set (q := s / k) in *. set (r := s mod k) in *. rewrite D.
  replace (k * q + r + 1 + k - 1) with ((q + 1) * k + r) by ring. rewrite Z.div_add_l, (Z.div_small r k) by lia.
  destruct (Z.eqb_spec r 0) as [E|E].
  - rewrite E. replace (k * q + 0 + k - 1) with (q * k + (k - 1)) by ring. rewrite Z.div_add_l, (Z.div_small (k - 1) k) by lia. lia.
  - replace (k * q + r + k - 1) with ((q + 1) * k + (r - 1)) by ring. rewrite Z.div_add_l, (Z.div_small (r - 1) k) by lia. lia.
Qed.

Lemma below_mono k a b : 0 < k -> a <= b -> below k a <= below k b.
Proof. intros Hk H. unfold below. apply Z.div_le_mono; lia. Qed.

Lemma below_mult k s : 0 < k -> s mod k = 0 -> below k s = s / k.
Proof.
  intros Hk E. unfold below. pose proof (Z_div_mod_eq_full s k) as D. rewrite E in D. set (q := s / k) in *. rewrite D.
  replace (k * q + 0 + k - 1) with (q * k + (k - 1)) by ring. rewrite Z.div_add_l, (Z.div_small (k - 1) k) by lia. lia.
Qed.

Lemma below_next k s : 0 < k -> 0 <= s -> s mod k = 0 -> below k (s + 1) = s / k + 1.
Proof. intros Hk Hs E. rewrite below_S, E, below_mult by assumption. reflexivity. Qed.

Lemma loop_ok timeSnap dt T k : snapInterval timeSnap dt = Done k -> 0 < k ->
  forall d s0 n0 fuel, 0 <= s0 -> s0 + Z.of_nat d <= INT_MAX ->
  (forall n, s0 <= n < s0 + Z.of_nat d -> goesOn dt T n = true) -> goesOn dt T (s0 + Z.of_nat d) = false ->
  n0 + (below k (s0 + Z.of_nat d) - below k s0) <= INT_MAX -> (d <= fuel)%nat ->
  mainLoop fuel timeSnap dt T s0 n0 =
    Done (map (fun i => entry k s0 n0 (s0 + Z.of_nat i)) (seq 0 d), (s0 + Z.of_nat d, n0 + (below k (s0 + Z.of_nat d) - below k s0))).
Proof.
  intros HK Hk. induction d as [|d IH]; intros s0 n0 fuel Hs He Hon Hoff Hn Hf.
  - cbn [seq map]. rewrite Z.add_0_r in *. destruct fuel; cbn [mainLoop]; rewrite Hoff; rewrite Z.sub_diag, Z.add_0_r; reflexivity.
  - destruct fuel as [|fuel]; [lia|]. cbn [mainLoop]. rewrite (Hon s0) by lia.
    unfold ifWriteResult. rewrite HK. cbn [obind]. destruct (Z.eqb_spec k 0); [lia|]. cbn [obind].
    rewrite Z.rem_mod_nonneg by lia.
    pose proof (below_S k s0 Hk Hs) as BS. pose proof (below_mono k (s0 + 1) (s0 + Z.of_nat (S d)) Hk ltac:(lia)) as BM.
    assert (I : incr s0 = Done (s0 + 1)). { unfold incr. destruct (Z.eqb_spec s0 INT_MAX); [lia|reflexivity]. }
    assert (J : (if s0 mod k =? 0 then incr n0 else Done n0) = Done (n0 + (below k (s0 + 1) - below k s0))).
    { rewrite BS. destruct (s0 mod k =? 0).
      - unfold incr. destruct (Z.eqb_spec n0 INT_MAX); [lia|]. f_equal. ring.
      - f_equal. ring. }
    rewrite J. cbn [obind]. rewrite I. cbn [obind].
    rewrite (IH (s0 + 1) (n0 + (below k (s0 + 1) - below k s0)) fuel); try lia.
    + cbn [obind fst snd seq map]. f_equal. replace (s0 + 1 + Z.of_nat d) with (s0 + Z.of_nat (S d)) by lia. f_equal; [|f_equal; ring].
      f_equal.
      * unfold entry. rewrite Z.add_0_r. rewrite Z.sub_diag, Z.add_0_r. reflexivity.
      * rewrite <- seq_shift, map_map. apply map_ext. intros i. unfold entry.
        replace (s0 + Z.of_nat (S i)) with (s0 + 1 + Z.of_nat i) by lia. f_equal.
        destruct ((s0 + 1 + Z.of_nat i) mod k =? 0); [|reflexivity]. f_equal. ring.
    + intros n1 Hr. apply Hon. lia.
    + replace (s0 + 1 + Z.of_nat d) with (s0 + Z.of_nat (S d)) by lia. exact Hoff.
    + replace (s0 + 1 + Z.of_nat d) with (s0 + Z.of_nat (S d)) by lia. lia.
Qed.

Lemma schedule_ok : forall timeSnap dt T k s0 n0 e fuel, snapInterval timeSnap dt = Done k -> 0 < k ->
  0 <= s0 <= e -> e <= INT_MAX -> (forall n, s0 <= n < e -> goesOn dt T n = true) -> goesOn dt T e = false ->
  n0 + (below k e - below k s0) <= INT_MAX -> (Z.to_nat (e - s0) <= fuel)%nat ->
  exists steps, mainLoop fuel timeSnap dt T s0 n0 = Done (steps, (e, n0 + (below k e - below k s0))) /\
    Z.of_nat (length steps) = e - s0 /\
    forall i, 0 <= Z.of_nat i < e - s0 -> nth_error steps i = Some (entry k s0 n0 (s0 + Z.of_nat i)).
Proof.
  intros timeSnap dt T k s0 n0 e fuel HK Hk Hs He Hon Hoff Hn Hf.
  pose proof (loop_ok timeSnap dt T k HK Hk (Z.to_nat (e - s0)) s0 n0 fuel) as L.
  rewrite Z2Nat.id in L by lia. replace (s0 + (e - s0)) with e in L by ring.
  eexists. split; [apply L; try assumption; lia|]. split.
  - rewrite map_length, seq_length. lia.
  - intros i Hi. rewrite nth_error_map.
    assert (N : nth_error (seq 0 (Z.to_nat (e - s0))) i = Some i).
    { rewrite (nth_error_nth' _ 0%nat) by (rewrite seq_length; lia). rewrite seq_nth by lia. reflexivity. }
    rewrite N. reflexivity.
Qed.

(** a run that cannot end overflows its counter *)
Lemma overflow_ok timeSnap dt T k : snapInterval timeSnap dt = Done k -> 0 < k ->
  (forall n, 0 <= n <= INT_MAX -> goesOn dt T n = true) ->
  forall d s0 n0 fuel, 0 <= s0 -> s0 + Z.of_nat d = INT_MAX -> (d < fuel)%nat -> mainLoop fuel timeSnap dt T s0 n0 = UB.
Proof.
  intros HK Hk Hon. induction d as [|d IH]; intros s0 n0 fuel Hs He Hf; (destruct fuel as [|fuel]; [lia|]); cbn [mainLoop]; rewrite (Hon s0) by lia;
    unfold ifWriteResult; rewrite HK; cbn [obind]; (destruct (Z.eqb_spec k 0); [lia|]); cbn [obind].
  - assert (I : incr s0 = UB). { unfold incr. destruct (Z.eqb_spec s0 INT_MAX); [reflexivity|lia]. }
    destruct (Z.rem s0 k =? 0); [unfold incr at 1; destruct (n0 =? INT_MAX); [reflexivity|]|]; cbn [obind]; rewrite I; reflexivity.
  - assert (I : incr s0 = Done (s0 + 1)). { unfold incr. destruct (Z.eqb_spec s0 INT_MAX); [lia|reflexivity]. }
    destruct (Z.rem s0 k =? 0); [unfold incr at 1; destruct (n0 =? INT_MAX); [reflexivity|]|]; cbn [obind]; rewrite I; cbn [obind];
      rewrite IH; try lia; reflexivity.
Qed.

Lemma goesOn_R dt T n : is_finite dt = true -> is_finite T = true -> (0 < B2R dt)%R -> 0 <= n <= INT_MAX ->
  goesOn dt T n = true <-> (rnd64 (IZR n * B2R dt) < B2R T)%R.
Proof.
  intros Fd FT Pd Hn. unfold goesOn. unfold INT_MAX in Hn. destruct (f_ofZ_exact n) as (En & Fn); [lia|].
  assert (Pn : (0 <= IZR n)%R) by (apply IZR_le; lia).
  assert (Pp : (0 <= IZR n * B2R dt)%R) by nra.
  assert (Pr : (0 <= rnd64 (IZR n * B2R dt))%R).
  { replace 0%R with (rnd64 0). apply rnd64_mono; exact Pp. unfold rnd64. apply round_0. typeclasses eauto. }
  destruct (Rlt_or_le (rnd64 (IZR n * B2R dt)) (bpow radix2 emax64)) as [L|L].
  - destruct (fmul_R (f_ofZ n) dt Fn Fd) as (A & B). { rewrite En, Rabs_pos_eq; assumption. }
    rewrite flt_R by assumption. rewrite A, En. reflexivity.
  - pose proof (Bmult_correct prec64 emax64 _ _ mode_NE (f_ofZ n) dt) as H.
    change (round radix2 (SpecFloat.fexp prec64 emax64) (round_mode mode_NE) (B2R (f_ofZ n) * B2R dt)) with (rnd64 (B2R (f_ofZ n) * B2R dt)) in H.
    rewrite En in H. rewrite Rlt_bool_false in H by (rewrite Rabs_pos_eq; assumption).
    assert (FTb : (B2R T < bpow radix2 emax64)%R).
    { pose proof (abs_B2R_lt_emax prec64 emax64 T) as Q. apply Rabs_lt_inv in Q. exact (proj2 Q). }
    split; [|intros; lra]. intros F. exfalso.
    fold (fmul (f_ofZ n) dt) in H. unfold binary_overflow, overflow_to_inf in H.
    assert (Sg : Bsign (f_ofZ n) = false \/ n = 0).
    { destruct (Z.eq_dec n 0); [right; assumption|left].
      destruct (f_ofZ n) as [s|s| |s m ex ee] eqn:E0; try discriminate Fn.
      - exfalso. cbn in En. assert (n = 0) by (apply eq_IZR; rewrite <- En; reflexivity). contradiction.
      - cbn. destruct s; [|reflexivity]. exfalso. cbn [B2R] in En.
        assert (Q : (F2R (Float radix2 (cond_Zopp true (Zpos m)) ex) < 0)%R) by (apply F2R_lt_0; reflexivity). rewrite En in Q. lra. }
    destruct Sg as [Sg|Sg]. 2:{ subst n. rewrite Rmult_0_l in L. unfold rnd64 in L. rewrite round_0 in L by typeclasses eauto. pose proof (bpow_gt_0 radix2 emax64). lra. }
    assert (Sd : Bsign dt = false).
    { destruct dt as [s|s| |s m ex ee]; try discriminate Fd; cbn [B2R] in Pd; [lra|].
      cbn. destruct s; [|reflexivity]. exfalso.
      assert (Q : (F2R (Float radix2 (cond_Zopp true (Zpos m)) ex) < 0)%R) by (apply F2R_lt_0; reflexivity). lra. }
    rewrite Sg, Sd in H. cbn in H.
    destruct (fmul (f_ofZ n) dt) as [s|s| |s m ex ee]; try discriminate H. injection H as ->.
    destruct T as [s|s| |s m ex ee]; try discriminate FT; unfold flt, Bltb, SpecFloat.SFltb in F; cbn in F; try discriminate F.
Qed.

Lemma end_exists : forall dt T n, is_finite dt = true -> is_finite T = true -> (0 < B2R dt)%R -> 0 <= n <= INT_MAX -> (B2R T <= IZR n * B2R dt)%R ->
  exists e, 0 <= e <= n /\ forall m, 0 <= m <= INT_MAX -> goesOn dt T m = (m <? e).
Proof.
  intros dt T n Fd FT Pd Hn HT.
  assert (Off : goesOn dt T n = false).
  { destruct (goesOn dt T n) eqn:E; [|reflexivity]. apply goesOn_R in E; try assumption.
    assert (Q : (B2R T <= rnd64 (IZR n * B2R dt))%R). { rewrite <- (rnd64_id (B2R T)) by apply f_format. apply rnd64_mono, HT. } lra. }
  assert (Mono : forall a b, 0 <= a <= b -> b <= INT_MAX -> goesOn dt T b = true -> goesOn dt T a = true).
  { intros a b Hab Hb E. apply goesOn_R in E; try assumption; try lia. apply goesOn_R; try assumption; try lia.
    eapply Rle_lt_trans; [|exact E]. apply rnd64_mono. apply Rmult_le_compat_r; [lra|]. apply IZR_le. lia. }
  assert (X : forall d, (d <= Z.to_nat n)%nat -> goesOn dt T (n - Z.of_nat d) = false ->
     exists e, 0 <= e <= n /\ goesOn dt T e = false /\ forall m, 0 <= m < e -> goesOn dt T m = true).
  { intros d Hd. remember (Z.to_nat n - d)%nat as c eqn:Ec. revert d Hd Ec. induction c as [|c IH]; intros d Hd Ec E.
    - exists 0. split; [lia|]. split; [|lia]. replace 0 with (n - Z.of_nat d) by lia. exact E.
    - destruct (goesOn dt T (n - Z.of_nat (S d))) eqn:E'.
      + exists (n - Z.of_nat d). split; [lia|]. split; [exact E|]. intros m Hm. apply (Mono m (n - Z.of_nat (S d))); [lia|lia|exact E'].
      + apply (IH (S d)); [lia|lia|exact E']. }
  destruct (X 0%nat) as (e & He & E0 & E1); [lia|rewrite Z.sub_0_r; exact Off|].
  exists e. split; [exact He|]. intros m Hm. destruct (Z.ltb_spec m e); [apply E1; lia|].
  destruct (goesOn dt T m) eqn:E; [|reflexivity]. rewrite <- E0. symmetry. apply (Mono e m); [lia|lia|exact E].
Qed.

Lemma interval_exact : forall timeSnap dt m, is_finite timeSnap = true -> is_finite dt = true -> B2R dt <> 0%R -> 1 <= m <= INT_MAX ->
  B2R timeSnap = (IZR m * B2R dt)%R -> snapInterval timeSnap dt = Done m.
Proof.
  intros ts dt m Ft Fd Hd Hm E. unfold INT_MAX in Hm.
  assert (Q : (B2R ts / B2R dt = IZR m)%R) by (rewrite E; field; exact Hd).
  destruct (fdiv_R ts dt Hd Ft) as (A & B).
  { rewrite Q, rnd64_int by lia. apply bpow_emax_big. lia. }
  rewrite Q, rnd64_int in A by lia. unfold snapInterval. unfold f_finite. rewrite B. rewrite f_trunc_R, A, Ztrunc_IZR.
  unfold INT_MAX. rewrite !(proj2 (Z.leb_le _ _)) by lia. reflexivity.
Qed.

(** the interval used never exceeds the rounded quotient, and is less than one step below it *)
Lemma interval_near : forall timeSnap dt, is_finite timeSnap = true -> (0 <= B2R timeSnap)%R -> (0 < B2R dt)%R ->
  (rnd64 (B2R timeSnap / B2R dt) < 2147483648)%R ->
  exists k, snapInterval timeSnap dt = Done k /\ 0 <= k /\ (IZR k <= rnd64 (B2R timeSnap / B2R dt) < IZR k + 1)%R.
Proof.
  intros ts dt Ft Pt Pd L.
  assert (Pq : (0 <= B2R ts / B2R dt)%R). { apply Rmult_le_pos; [exact Pt|]. apply Rlt_le, Rinv_0_lt_compat, Pd. }
  assert (Pr : (0 <= rnd64 (B2R ts / B2R dt))%R).
  { replace 0%R with (rnd64 0). apply rnd64_mono; exact Pq. unfold rnd64. apply round_0. typeclasses eauto. }
  destruct (fdiv_R ts dt) as (A & B); [lra|exact Ft| |].
  { rewrite Rabs_pos_eq by exact Pr. eapply Rlt_trans; [exact L|]. change (2147483648)%R with (IZR (2^31)).
    change (IZR (2 ^ 31)) with (IZR (Zpower radix2 31)). rewrite IZR_Zpower by lia. apply bpow_lt. reflexivity. }
  exists (Zfloor (rnd64 (B2R ts / B2R dt))). unfold snapInterval, f_finite. rewrite B. rewrite f_trunc_R, A, Ztrunc_floor by exact Pr.
  assert (Z0 : 0 <= Zfloor (rnd64 (B2R ts / B2R dt))) by (apply Zfloor_lub; exact Pr).
  assert (Z1 : Zfloor (rnd64 (B2R ts / B2R dt)) < 2147483648).
  { apply lt_IZR. eapply Rle_lt_trans; [apply Zfloor_lb|]. exact L. }
  unfold INT_MAX. rewrite !(proj2 (Z.leb_le _ _)) by lia. split; [reflexivity|]. split; [exact Z0|].
  split; [apply Zfloor_lb|]. apply Zfloor_ub.
Qed.

(** continuing from a snapshot does what the uninterrupted run does after it *)
Lemma resume_entry k s s' : 0 < k -> 0 <= s -> s mod k = 0 -> entry k 0 0 s = (s, Some (s / k)) /\ entry k (s + 1) (s / k + 1) s' = entry k 0 0 s'.
Proof.
  intros Hk Hs E. assert (B0 : below k 0 = 0). { unfold below. rewrite Z.div_small; lia. } unfold entry. rewrite E, B0. split.
  - rewrite below_mult by assumption. f_equal. cbn [Z.eqb]. f_equal. ring.
  - rewrite (below_next k s) by assumption. f_equal. destruct (s' mod k =? 0); [|reflexivity]. f_equal. ring.
Qed.

(** * Names *)
Definition val (l : list Z) : Z := fold_left (fun a d => 10 * a + d) l 0.

Lemma val_snoc l d : val (l ++ [d]) = 10 * val l + d.
Proof. unfold val. rewrite fold_left_app. reflexivity. Qed.

Lemma digits_val fuel : forall z, 0 <= z -> val (digits fuel z) = z.
Proof.
  induction fuel as [|f IH]; intros z Hz; cbn [digits]; [unfold val; cbn [fold_left]; ring|].
  destruct (z <? 10); [unfold val; cbn [fold_left]; ring|]. rewrite val_snoc, IH by (apply Z.div_pos; lia).
  pose proof (Z_div_mod_eq_full z 10). lia.
Qed.

Lemma digits_ok fuel : forall z, 0 <= z < 10 * 2 ^ Z.of_nat fuel -> Forall (fun d => 0 <= d <= 9) (digits fuel z).
Proof.
  induction fuel as [|f IH]; intros z Hz; cbn [digits].
  - cbn in Hz. repeat constructor; lia.
  - destruct (Z.ltb_spec z 10); [repeat constructor; lia|]. apply Forall_app. split.
    + apply IH. split; [apply Z.div_pos; lia|]. apply Z.div_lt_upper_bound; [lia|].
      rewrite Nat2Z.inj_succ, Z.pow_succ_r in Hz by lia. lia.
    + repeat constructor; pose proof (Z.mod_pos_bound z 10); lia.
Qed.

Lemma digits_nonnil fuel z : digits fuel z <> [].
Proof. destruct fuel; cbn [digits]; [discriminate|]. destruct (z <? 10); [discriminate|]. destruct (digits fuel (z / 10)); discriminate. Qed.

Lemma digit_ok d : 0 <= d <= 9 -> isDigit (digit d) = true /\ digitVal (digit d) = d /\ isSpace (digit d) = false.
Proof.
  intros H. assert (E : d = 0 \/ d = 1 \/ d = 2 \/ d = 3 \/ d = 4 \/ d = 5 \/ d = 6 \/ d = 7 \/ d = 8 \/ d = 9) by lia.
  repeat (destruct E as [->|E]; [repeat split|]). subst; repeat split.
Qed.

Lemma dec_digits z : 0 <= z -> Forall (fun c => isDigit c = true /\ isSpace c = false) (dec z).
Proof.
  intros Hz. unfold dec. apply Forall_map. eapply Forall_impl; [|apply digits_ok].
  - intros d Hd. destruct (digit_ok d Hd) as (A & _ & B). split; assumption.
  - destruct (Z.eq_dec z 0) as [->|N]; [cbn; lia|]. rewrite Z2Nat.id by apply Z.log2_nonneg.
    pose proof (Z.log2_spec z ltac:(lia)) as L. rewrite Z.pow_succ_r in L by apply Z.log2_nonneg.
    pose proof (Z.pow_pos_nonneg 2 (Z.log2 z) ltac:(lia) (Z.log2_nonneg z)). lia.
Qed.

Lemma dec_nonnil z : dec z <> [].
Proof. unfold dec. intros E. apply map_eq_nil in E. exact (digits_nonnil _ _ E). Qed.

Lemma fold_digits l : Forall (fun d => 0 <= d <= 9) l -> forall a, fold_left (fun a c => 10 * a + digitVal c) (map digit l) a = fold_left (fun a d => 10 * a + d) l a.
Proof.
  induction 1 as [|d l Hd Hl IH]; intros a; [reflexivity|]. cbn [map fold_left]. rewrite IH. destruct (digit_ok d Hd) as (_ & -> & _). reflexivity.
Qed.

Lemma dec_value z : 0 <= z -> fold_left (fun a c => 10 * a + digitVal c) (dec z) 0 = z.
Proof.
  intros Hz. unfold dec. rewrite fold_digits; [apply (digits_val _ z Hz)|]. apply digits_ok.
  destruct (Z.eq_dec z 0) as [->|N]; [cbn; lia|]. rewrite Z2Nat.id by apply Z.log2_nonneg.
  pose proof (Z.log2_spec z ltac:(lia)) as L. rewrite Z.pow_succ_r in L by apply Z.log2_nonneg.
  pose proof (Z.pow_pos_nonneg 2 (Z.log2 z) ltac:(lia) (Z.log2_nonneg z)). lia.
Qed.

Lemma span_app p a b : Forall (fun c => p c = true) a -> (match b with c :: _ => p c = false | [] => True end) -> span p (a ++ b) = (a, b).
Proof.
  induction 1 as [|c a Hc Ha IH]; intros Hb; cbn [app].
  - destruct b as [|c b]; [reflexivity|]. cbn [span]. rewrite Hb. reflexivity.
  - cbn [span]. rewrite Hc, (IH Hb). reflexivity.
Qed.

Definition starts (p : ascii -> bool) (b : text) : Prop := match b with c :: _ => p c = true | [] => False end.
Definition ends (b : text) : Prop := match b with c :: _ => isDigit c = false | [] => True end.

Lemma dec_span z b : 0 <= z -> ends b -> span isDigit (dec z ++ b) = (dec z, b).
Proof. intros Hz Hb. apply span_app; [|exact Hb]. eapply Forall_impl; [|apply dec_digits, Hz]. intros c H; apply H. Qed.

Lemma dec_cancel a b u v : 0 <= a -> 0 <= b -> ends u -> ends v -> dec a ++ u = dec b ++ v -> a = b /\ u = v.
Proof.
  intros Ha Hb Hu Hv E. pose proof (dec_span a u Ha Hu) as A. pose proof (dec_span b v Hb Hv) as B. rewrite E, B in A.
  apply pair_equal_spec in A. destruct A as (A1 & A2). split; [|symmetry; exact A2].
  rewrite <- (dec_value a Ha), <- (dec_value b Hb), A1. reflexivity.
Qed.

Lemma dec_starts z b : 0 <= z -> starts isDigit (dec z ++ b).
Proof.
  intros Hz. pose proof (dec_digits z Hz) as D. pose proof (dec_nonnil z) as N. destruct (dec z) as [|c t]; [contradiction|].
  inversion D; subst. cbn. tauto.
Qed.

Definition valid (f : file) : Prop := match snapOf f with Some s => 0 <= s | None => True end.

Lemma name_inj : forall f g, valid f -> valid g -> fileName f = fileName g -> f = g.
Proof.
  assert (Sp : forall r s b, 0 <= s -> "r"%char :: r = dec s ++ b -> False).
  { intros r s b Hs E. pose proof (dec_starts s b Hs) as D. rewrite <- E in D. discriminate D. }
  intros f g Hf Hg E. destruct f, g; cbn [valid snapOf] in *; unfold fileName, txt in E; cbn [list_ascii_of_string app] in E; try discriminate E; try reflexivity;
    repeat match type of E with _ :: _ = _ :: _ => apply (f_equal (@tl ascii)) in E; cbn [tl] in E end;
    try (exfalso; eapply Sp; [|exact E]; assumption); try (exfalso; eapply Sp; [|symmetry; exact E]; assumption);
    (apply dec_cancel in E; [|lia|lia|reflexivity|reflexivity]); destruct E as (E1 & E2);
    try (apply (f_equal (@tl ascii)) in E2; cbn [tl] in E2; apply dec_cancel in E2; [|lia|lia|reflexivity|reflexivity]; destruct E2 as (E2 & _);
         apply Nat2Z.inj in E1); subst; reflexivity.
Qed.

(** folders *)
Lemma folder_num size : 1 <= size -> 1 <= Z.max (Z.quot 400 size) 1 <= 400.
Proof.
  intros H. rewrite Z.quot_div_nonneg by lia. assert (400 / size <= 400) by (apply Z.div_le_upper_bound; nia). lia.
Qed.

Lemma folder_ok : forall size a, 1 <= size -> 0 <= a -> a + 400 <= INT_MAX ->
  let num := Z.max (400 / size) 1 in
  resultFolder size a = Done (txt "./result/result" ++ dec (a / num * num) ++ txt "-" ++ dec (a / num * num + num - 1) ++ txt "/").
Proof.
  intros size a Hs Ha Hb num. unfold resultFolder. pose proof (folder_num size Hs) as N. rewrite (Z.quot_div_nonneg 400 size) in * by lia.
  fold num in N |- *. rewrite Z.quot_div_nonneg by lia. pose proof (Z.mul_div_le a num ltac:(lia)) as M.
  rewrite (proj2 (Z.leb_le _ _)) by lia. reflexivity.
Qed.

Lemma folder_same : forall size a b, 1 <= size -> 0 <= a -> a + 400 <= INT_MAX -> 0 <= b -> b + 400 <= INT_MAX ->
  (resultFolder size a = resultFolder size b <-> a / Z.max (400 / size) 1 = b / Z.max (400 / size) 1).
Proof.
  intros size a b Hs Ha Ha' Hb Hb'. rewrite !folder_ok by assumption. pose proof (folder_num size Hs) as N. rewrite (Z.quot_div_nonneg 400 size) in N by lia.
  set (num := Z.max (400 / size) 1) in *.
  split.
  - intros E. injection E as E. apply dec_cancel in E.
    + destruct E as (E & _). nia.
    + apply Z.mul_nonneg_nonneg; [apply Z.div_pos; lia|lia].
    + apply Z.mul_nonneg_nonneg; [apply Z.div_pos; lia|lia].
    + reflexivity.
    + reflexivity.
  - intros ->. reflexivity.
Qed.

(** * The restart file *)
Lemma span_space_digits z b : 0 <= z -> ends b -> snd (span isSpace (dec z ++ b)) = dec z ++ b.
Proof.
  intros Hz Hb. pose proof (dec_digits z Hz) as D. pose proof (dec_nonnil z) as N. destruct (dec z) as [|c t]; [contradiction|].
  inversion D as [|? ? (A & B)]; subst. cbn [app span]. rewrite B. reflexivity.
Qed.

Lemma readNum_dec lim z b : 0 <= z <= lim -> ends b -> readNum lim (dec z ++ b) = Some (z, b).
Proof.
  intros Hz Hb. unfold readNum. rewrite span_space_digits, dec_span, dec_value by (assumption || lia).
  pose proof (dec_nonnil z) as N. destruct (dec z) as [|c t]; [contradiction|]. rewrite (proj2 (Z.leb_le _ _)) by lia. reflexivity.
Qed.

Lemma readNum_nl lim t : readNum lim (nl :: t) = readNum lim t.
Proof. unfold readNum. cbn [span]. change (isSpace nl) with true. cbn iota. destruct (span isSpace t). reflexivity. Qed.
Lemma readWord_nl t : readWord (nl :: t) = readWord t.
Proof. unfold readWord. cbn [span]. change (isSpace nl) with true. cbn iota. destruct (span isSpace t). reflexivity. Qed.

Definition solid (w : text) : Prop := Forall (fun c => isSpace c = false) w.
Lemma readWord_solid w b : solid w -> w <> [] -> (match b with c :: _ => isSpace c = true | [] => True end) -> readWord (w ++ b) = Some w.
Proof.
  intros Hw N Hb. unfold readWord.
  assert (S0 : snd (span isSpace (w ++ b)) = w ++ b).
  { destruct w as [|c w]; [contradiction|]. inversion Hw; subst. cbn [app span]. rewrite H1. reflexivity. }
  rewrite S0, span_app.
  - destruct w; [contradiction|reflexivity].
  - eapply Forall_impl; [|exact Hw]. intros c E. cbv beta in E. rewrite E. reflexivity.
  - destruct b as [|c b]; [exact I|]. rewrite Hb. reflexivity.
Qed.

Lemma head_solid s : 0 <= s -> solid (fileName (FHead s)).
Proof.
  intros Hs. cbn [fileName]. unfold solid. apply Forall_app. split; [repeat constructor|]. apply Forall_app. split; [|repeat constructor].
  eapply Forall_impl; [|apply dec_digits, Hs]. intros c H; apply H.
Qed.

Lemma readInfo_ok : forall seed step snap, 0 <= seed <= 4294967295 -> 0 <= step <= INT_MAX -> 0 <= snap <= INT_MAX ->
  readInfo (infoText seed step snap) = Some (seed, step, snap, fileName (FHead snap)).
Proof.
  intros seed step snap H1 H2 H3. unfold readInfo, infoText. cbn [app].
  rewrite readNum_dec by (assumption || reflexivity). rewrite readNum_nl, readNum_dec by (assumption || reflexivity).
  rewrite readNum_nl, readNum_dec by (assumption || reflexivity). rewrite readWord_nl.
  rewrite readWord_solid; [reflexivity|apply head_solid; lia|discriminate|reflexivity].
Qed.

Lemma replaceLast_none c n by_ b : ~ In c b -> replaceLast c n by_ b = None.
Proof.
  induction b as [|x b IH]; intros H; [reflexivity|]. cbn [replaceLast]. rewrite IH by (intros Q; apply H; right; exact Q).
  destruct (Ascii.eqb_spec x c) as [->|]; [exfalso; apply H; left; reflexivity|reflexivity].
Qed.
Lemma replaceLast_app c n by_ a b : ~ In c b -> replaceLast c n by_ (a ++ c :: b) = Some (a ++ by_ ++ skipn n (c :: b)).
Proof.
  intros H. induction a as [|x a IH]; cbn [app].
  - cbn [replaceLast]. rewrite replaceLast_none by exact H. rewrite Ascii.eqb_refl. reflexivity.
  - cbn [replaceLast]. rewrite IH. reflexivity.
Qed.

Lemma reinit_ok : forall size seed step snap, 1 <= size -> 0 <= seed <= 4294967295 -> 0 <= step < INT_MAX -> 0 <= snap -> snap + 400 <= INT_MAX ->
  exists folder, resultFolder size snap = Done folder /\
    reinit size (infoText seed step snap) =
      Done (Some ((seed + 1) mod 4294967296, step + 1, snap + 1, folder ++ fileName (FHead snap), folder ++ fileName (FAscii snap))).
Proof.
  intros size seed step snap Hs H1 H2 H3 H4. eexists. split; [apply folder_ok; lia|]. unfold reinit.
  rewrite readInfo_ok by lia. unfold fileName at 1.
  replace (txt "Sylinder_" ++ dec snap ++ txt ".pvtp") with ((txt "Sylinder_" ++ dec snap) ++ "."%char :: txt "pvtp") by (rewrite <- app_assoc; reflexivity).
  rewrite replaceLast_app by (cbn; intuition discriminate).
  change (skipn 5 ("."%char :: txt "pvtp")) with (@nil ascii). rewrite app_nil_r, <- app_assoc.
  change (txt "Sylinder_" ++ dec snap ++ txt ".dat") with (txt "Sylinder" ++ "_"%char :: (dec snap ++ txt ".dat")).
  rewrite replaceLast_app.
  2:{ intros Q. apply in_app_or in Q. destruct Q as [Q|Q]; [|cbn in Q; intuition discriminate].
      pose proof (dec_digits snap H3) as D. rewrite Forall_forall in D. specialize (D _ Q). cbn in D. destruct D as (D & _). discriminate D. }
  rewrite folder_ok by lia. cbn [obind]. unfold incr. destruct (Z.eqb_spec step INT_MAX); [lia|]. destruct (Z.eqb_spec snap INT_MAX); [unfold INT_MAX in *; lia|].
  cbn [obind]. do 3 f_equal.
Qed.

(** a restart file cut off anywhere is never taken for another snapshot *)
Lemma prefix_split {A} (t v a b : list A) : t ++ v = a ++ b -> (exists a2, a = t ++ a2 /\ v = a2 ++ b) \/ (exists b1, t = a ++ b1 /\ b = b1 ++ v).
Proof.
  revert a. induction t as [|x t IH]; intros a E.
  - left. exists a. split; [reflexivity|exact E].
  - destruct a as [|y a]; cbn [app] in E.
    + right. exists (x :: t). split; [reflexivity|symmetry; exact E].
    + injection E as -> E. destruct (IH a E) as [(a2 & -> & E2)|(b1 & -> & E2)]; [left|right]; eexists; (split; [reflexivity|exact E2]).
Qed.

Lemma readNum_digits lim t : Forall (fun c => isDigit c = true /\ isSpace c = false) t -> readNum lim t = None \/ exists v, readNum lim t = Some (v, []).
Proof.
  intros H. unfold readNum.
  assert (S0 : snd (span isSpace t) = t). { destruct H as [|c t (A & B) H]; [reflexivity|]. cbn [span]. rewrite B. reflexivity. }
  rewrite S0. rewrite <- (app_nil_r t). rewrite span_app; [|eapply Forall_impl; [|exact H]; intros c Q; apply Q|exact I].
  destruct t; [left; reflexivity|]. destruct (_ <=? lim); [right; eexists; reflexivity|left; reflexivity].
Qed.

Lemma Forall_prefix {A} (P : A -> Prop) a b : Forall P (a ++ b) -> Forall P a.
Proof. intros H. apply Forall_app in H. apply H. Qed.

Lemma torn_ok : forall seed step snap t v, 0 <= seed <= 4294967295 -> 0 <= step <= INT_MAX -> 0 <= snap <= INT_MAX ->
  infoText seed step snap = t ++ v -> (2 <= length v)%nat ->
  readInfo t = None \/ exists x y z name, readInfo t = Some (x, y, z, name) /\ forall s, 0 <= s -> name <> fileName (FHead s).
Proof.
  intros seed step snap t v H1 H2 H3 E L. unfold infoText in E. cbn [app] in E. symmetry in E. unfold readInfo.
  apply prefix_split in E. destruct E as [(a2 & Ea & _)|(t1 & -> & E)].
  { left. pose proof (dec_digits seed ltac:(lia)) as D. rewrite Ea in D. apply Forall_prefix in D.
    destruct (readNum_digits 4294967295 t D) as [->|(x & ->)]; reflexivity. }
  destruct t1 as [|c t1]; [left; rewrite readNum_dec by (assumption || exact I); reflexivity|].
  cbn [app] in E. injection E as <- E. rewrite readNum_dec by (assumption || reflexivity). rewrite readNum_nl. symmetry in E.
  apply prefix_split in E. destruct E as [(a2 & Ea & _)|(t2 & -> & E)].
  { left. pose proof (dec_digits step ltac:(lia)) as D. rewrite Ea in D. apply Forall_prefix in D.
    destruct (readNum_digits INT_MAX t1 D) as [->|(x & ->)]; reflexivity. }
  destruct t2 as [|c t2]; [left; rewrite readNum_dec by (assumption || exact I); reflexivity|].
  cbn [app] in E. injection E as <- E. rewrite readNum_dec by (assumption || reflexivity). rewrite readNum_nl. symmetry in E.
  apply prefix_split in E. destruct E as [(a2 & Ea & _)|(t3 & -> & E)].
  { left. pose proof (dec_digits snap ltac:(lia)) as D. rewrite Ea in D. apply Forall_prefix in D.
    destruct (readNum_digits INT_MAX t2 D) as [->|(x & ->)]; reflexivity. }
  destruct t3 as [|c t3]; [left; rewrite readNum_dec by (assumption || exact I); reflexivity|].
  cbn [app] in E. injection E as <- E. rewrite readNum_dec by (assumption || reflexivity). rewrite readWord_nl.
  change (fileName (FHead snap) ++ [nl] = t3 ++ v) in E.
  symmetry in E. apply prefix_split in E. destruct E as [(a2 & Ea & Ev)|(b1 & -> & E)].
  - destruct t3 as [|c t3]; [left; reflexivity|]. right. exists seed, step, snap, (c :: t3).
    rewrite <- (app_nil_r (c :: t3)) at 1. rewrite readWord_solid; [|unfold solid; eapply Forall_prefix; rewrite <- Ea; apply head_solid; lia|discriminate|exact I].
    split; [reflexivity|]. intros s Hs Q. rewrite Q in Ea. cbn [fileName] in Ea. rewrite <- !app_assoc in Ea. apply app_inv_head in Ea.
    apply dec_cancel in Ea; [|lia|exact Hs|reflexivity|reflexivity]. destruct Ea as (_ & Ea).
    apply (f_equal (@List.length ascii)) in Ea. rewrite Ev, !app_length in *. cbn [List.length txt list_ascii_of_string] in *. lia.
  - destruct b1 as [|c b1]; cbn [app] in E; [subst v; cbn in L; lia|]. injection E as _ E. destruct b1; [|discriminate E]. cbn in E. subst v. cbn in L. lia.
Qed.

(** * Interleaved file operations *)
Lemma fileEqb_ok f g : reflect (f = g) (fileEqb f g).
Proof.
  destruct f, g; cbn [fileEqb]; try (apply ReflectF; discriminate); try (apply ReflectT; reflexivity);
    repeat match goal with |- context [(?a =? ?b)%nat] => destruct (Nat.eqb_spec a b) | |- context [Z.eqb ?a ?b] => destruct (Z.eqb_spec a b) end;
    cbn [andb]; first [apply ReflectT; congruence | apply ReflectF; congruence].
Qed.

Definition after (p : list op) (s : fs) : fs := fold_left (fun s o => doOp o s) p s.
Definition touches (f : file) (o : op) : bool := match o with Create g => fileEqb f g | Put g _ => fileEqb f g | Sync => false end.

Lemma after_app p q s : after (p ++ q) s = after q (after p s).
Proof. apply fold_left_app. Qed.
Lemma doOp_other o s f : touches f o = false -> doOp o s f = s f.
Proof. destruct o; cbn [touches doOp]; intros H; try rewrite H; reflexivity. Qed.
Lemma after_other p : forall s f, Forall (fun o => touches f o = false) p -> after p s f = s f.
Proof. induction p as [|o p IH]; intros s f H; [reflexivity|]. inversion H; subst. cbn [after fold_left]. etransitivity; [apply IH; assumption|]. apply doOp_other. assumption. Qed.
Lemma doOp_same o s s' f : s f = s' f -> doOp o s f = doOp o s' f.
Proof. intros H. destruct o; cbn [doOp]; try (destruct (fileEqb f f0); [reflexivity|exact H]); [|exact H]. rewrite H. reflexivity. Qed.
Lemma after_same p : forall s s' f, s f = s' f -> after p s f = after p s' f.
Proof. induction p as [|o p IH]; intros s s' f H; [exact H|]. cbn [after fold_left]. apply IH. apply doOp_same, H. Qed.

Lemma after_putAll f t : forall s u, s f = Some u -> after (putAll f t) s f = Some (u ++ t).
Proof.
  induction t as [|c t IH]; intros s u H; [rewrite app_nil_r; exact H|]. cbn [putAll map after fold_left].
  assert (E : doOp (Put f c) s f = Some (u ++ [c])). { cbn [doOp]. destruct (fileEqb_ok f f); [|congruence]. rewrite H. reflexivity. }
  etransitivity; [apply (IH _ _ E)|]. rewrite <- app_assoc. reflexivity.
Qed.
Lemma after_writeFile f t s : after (writeFile f t) s f = Some t.
Proof. unfold writeFile. cbn [after fold_left]. etransitivity; [apply (after_putAll f t _ [])|reflexivity]. cbn [doOp]. destruct (fileEqb_ok f f); [reflexivity|congruence]. Qed.

Lemma putAll_prefix f t : forall q v, putAll f t = q ++ v -> exists u, q = putAll f u /\ prefix u t.
Proof.
  unfold putAll. intros q v E. apply map_eq_app in E. destruct E as (a & b & -> & <- & _). exists a. split; [reflexivity|]. exists b. reflexivity.
Qed.

Definition owner (f : file) : nat := match f with FPiece r _ | FConPiece r _ => r | _ => 0%nat end.
Definition expected (d : snapData) (f : file) : text :=
  match f with
  | FAscii _ => d_ascii d ++ d_links d | FPiece r _ => d_piece d r | FConPiece r _ => d_con d r | FHead _ => d_head d | FConHead _ => d_conhead d | FInfo => []
  end.
Definition body (rank : nat) (snap : Z) (d : snapData) : list op :=
  Sync ::
  ((if (rank =? 0)%nat then writeFile (FAscii snap) (d_ascii d) ++ putAll (FAscii snap) (d_links d) else []) ++
  [Sync] ++
  writeFile (FPiece rank snap) (d_piece d rank) ++ writeFile (FConPiece rank snap) (d_con d rank) ++
  (if (rank =? 0)%nat then writeFile (FHead snap) (d_head d) ++ writeFile (FConHead snap) (d_conhead d) else [])).
Definition tail_ (rank : nat) (seed step snap : Z) : list op := if (rank =? 0)%nat then writeFile FInfo (infoText seed step snap) else [].

Lemma stepOps_split r seed data st k : stepOps r seed data (st, Some k) = body r k (data k) ++ tail_ r seed st k.
Proof.
  unfold stepOps, writeResult, body, tail_. cbn [snd fst app]. f_equal. rewrite <- !app_assoc. f_equal. cbn [app]. f_equal. rewrite <- !app_assoc.
  destruct (r =? 0)%nat; reflexivity.
Qed.

(** which operations a block has *)
Definition on (r : nat) (k : Z) (o : op) : Prop := match o with Sync => True | Create f | Put f _ => owner f = r /\ snapOf f = Some k end.
Definition onInfo (o : op) : Prop := match o with Sync => True | Create f | Put f _ => f = FInfo end.

Lemma putAll_Forall (P : op -> Prop) f t : (forall c, P (Put f c)) -> Forall P (putAll f t).
Proof. intros H. apply Forall_map. apply Forall_forall. intros c _. apply H. Qed.
Lemma writeFile_Forall (P : op -> Prop) f t : P (Create f) -> (forall c, P (Put f c)) -> Forall P (writeFile f t).
Proof. intros H1 H2. constructor; [exact H1|]. apply putAll_Forall, H2. Qed.

Lemma body_on r k d : Forall (on r k) (body r k d).
Proof.
  unfold body. constructor; [exact I|]. apply Forall_app. split.
  - destruct (Nat.eqb_spec r 0) as [->|]; [|constructor]. apply Forall_app. split; [apply writeFile_Forall|apply putAll_Forall]; intros; split; reflexivity.
  - constructor; [exact I|]. repeat (apply Forall_app; split); try (apply writeFile_Forall; intros; split; reflexivity).
    destruct (Nat.eqb_spec r 0) as [->|]; [|constructor]. apply Forall_app. split; apply writeFile_Forall; intros; split; reflexivity.
Qed.
Lemma tail_on r seed st k : Forall onInfo (tail_ r seed st k).
Proof. unfold tail_. destruct (r =? 0)%nat; [|constructor]. apply writeFile_Forall; intros; reflexivity. Qed.

Lemma on_touch r k o f : on r k o -> touches f o = true -> owner f = r /\ snapOf f = Some k.
Proof. destruct o; cbn [on touches]; intros H T; try discriminate T; destruct (fileEqb_ok f f0); try discriminate T; subst; exact H. Qed.
Lemma onInfo_touch o f : onInfo o -> touches f o = true -> f = FInfo.
Proof. destruct o; cbn [onInfo touches]; intros H T; try discriminate T; destruct (fileEqb_ok f f0); try discriminate T; subst; reflexivity. Qed.

Lemma untouched_on r k p f : Forall (on r k) p -> (owner f <> r \/ snapOf f <> Some k) -> Forall (fun o => touches f o = false) p.
Proof.
  intros H N. eapply Forall_impl; [|exact H]. intros o Ho. destruct (touches f o) eqn:T; [|reflexivity].
  destruct (on_touch r k o f Ho T). tauto.
Qed.
Lemma untouched_info p f : Forall onInfo p -> f <> FInfo -> Forall (fun o => touches f o = false) p.
Proof. intros H N. eapply Forall_impl; [|exact H]. intros o Ho. destruct (touches f o) eqn:T; [|reflexivity]. exfalso. apply N. eapply onInfo_touch; eassumption. Qed.

Lemma body_after r k d s f : owner f = r -> snapOf f = Some k -> after (body r k d) s f = Some (expected d f).
Proof.
  intros Ho Hk. unfold body. change (Sync :: ?X) with ([Sync] ++ X). rewrite !after_app.
  change (after [Sync] s) with s. set (s1 := after (if (r =? 0)%nat then _ else []) s).
  change (after [Sync] s1) with s1.
  assert (W : forall g u t, f <> g -> after (writeFile g t) u f = u f).
  { intros g u t N. apply after_other. apply writeFile_Forall; intros; cbn [touches]; destruct (fileEqb_ok f g); congruence. }
  assert (Z : forall u, f <> FHead k -> f <> FConHead k -> after (if (r =? 0)%nat then writeFile (FHead k) (d_head d) ++ writeFile (FConHead k) (d_conhead d) else []) u f = u f).
  { intros u N1 N2. destruct (r =? 0)%nat; [|reflexivity]. rewrite after_app, !W by assumption. reflexivity. }
  destruct f; cbn [owner snapOf expected] in *; try discriminate Hk; injection Hk as ->; subst r.
  - rewrite Z, !W by discriminate. unfold s1. cbn [Nat.eqb]. rewrite after_app. apply after_putAll. apply after_writeFile.
  - rewrite Z, W by discriminate. apply after_writeFile.
  - rewrite Z by discriminate. apply after_writeFile.
  - cbn [Nat.eqb]. rewrite after_app, W by discriminate. apply after_writeFile.
  - cbn [Nat.eqb]. rewrite after_app. apply after_writeFile.
Qed.

Definition snaps (steps : list (Z * option Z)) : list Z := flat_map (fun e => match snd e with Some k => [k] | None => [] end) steps.
Lemma snaps_app a b : snaps (a ++ b) = snaps a ++ snaps b.
Proof. apply flat_map_app. Qed.

(** operations of a list of steps *)
Definition within (r : nat) (ks : list Z) (o : op) : Prop :=
  match o with Sync => True | Create f | Put f _ => f = FInfo \/ owner f = r /\ exists k, snapOf f = Some k /\ In k ks end.
Lemma within_mono r a b o : (forall k, In k a -> In k b) -> within r a o -> within r b o.
Proof. intros H. destruct o; cbn [within]; try tauto; intros [E|(A & k & B & C)]; [left; exact E|right|left; exact E|right]; (split; [exact A|exists k; split; [exact B|apply H, C]]). Qed.
Lemma on_within r k ks o : In k ks -> on r k o -> within r ks o.
Proof. intros H. destruct o; cbn [on within]; try tauto; intros (A & B); right; (split; [exact A|exists k; split; assumption]). Qed.
Lemma info_within r ks o : onInfo o -> within r ks o.
Proof. destruct o; cbn [onInfo within]; tauto. Qed.

Lemma stepOps_within r seed data e : Forall (within r (snaps [e])) (stepOps r seed data e).
Proof.
  destruct e as (st, [k|]).
  - rewrite stepOps_split. apply Forall_app. split.
    + eapply Forall_impl; [|apply body_on]. intros o. apply on_within. left. reflexivity.
    + eapply Forall_impl; [|apply tail_on]. intros o. apply info_within.
  - unfold stepOps. cbn [snd]. constructor; [exact I|constructor].
Qed.
Lemma program_within r seed data steps : Forall (within r (snaps steps)) (rankProgram seed data steps r).
Proof.
  unfold rankProgram. induction steps as [|e steps IH]; cbn [flat_map]; [constructor|]. apply Forall_app. split.
  - eapply Forall_impl; [|apply stepOps_within]. intros o. apply within_mono. intros k Hk. cbn in Hk |- *. rewrite app_nil_r in Hk. apply in_or_app. left. exact Hk.
  - eapply Forall_impl; [|exact IH]. intros o. apply within_mono. intros k Hk. change (e :: steps) with ([e] ++ steps). rewrite snaps_app. apply in_or_app. right. exact Hk.
Qed.
Lemma untouched_within r ks p f k : Forall (within r ks) p -> snapOf f = Some k -> ~ In k ks -> Forall (fun o => touches f o = false) p.
Proof.
  intros H Hk N. eapply Forall_impl; [|exact H]. intros o Ho. destruct o as [g|g c|]; cbn [within touches] in *; try reflexivity;
    (destruct (fileEqb_ok f g) as [<-|]; [exfalso|reflexivity]); (destruct Ho as [->|(_ & k' & E & Q)]; [discriminate Hk|]); rewrite Hk in E; injection E as <-; exact (N Q).
Qed.
Lemma untouched_owner r ks p f : Forall (within r ks) p -> owner f <> r -> f <> FInfo -> Forall (fun o => touches f o = false) p.
Proof.
  intros H Ho N. eapply Forall_impl; [|exact H]. intros o Hw. destruct o as [g|g c|]; cbn [within touches] in *; try reflexivity;
    (destruct (fileEqb_ok f g) as [<-|]; [exfalso|reflexivity]); (destruct Hw as [->|(E & _)]; [exact (N eq_refl)|exact (Ho E)]).
Qed.
(** only rank 0 writes the restart file *)
Lemma program_info r seed data steps : (r <> 0)%nat -> Forall (fun o => touches FInfo o = false) (rankProgram seed data steps r).
Proof.
  intros Hr. unfold rankProgram. apply Forall_flat_map. apply Forall_forall. intros (st, [k|]) _.
  - rewrite stepOps_split. apply Forall_app. split; [eapply untouched_on; [apply body_on|right; discriminate]|].
    unfold tail_. destruct (Nat.eqb_spec r 0); [contradiction|constructor].
  - repeat constructor.
Qed.

(** content of the files of complete steps *)
Lemma steps_after r seed data steps : forall s f k, owner f = r -> snapOf f = Some k -> In k (snaps steps) ->
  after (rankProgram seed data steps r) s f = Some (expected (data k) f).
Proof.
  unfold rankProgram. induction steps as [|e steps IH] using rev_ind; intros s f k Ho Hk Hin; [destruct Hin|].
  rewrite flat_map_app, after_app. cbn [flat_map]. rewrite app_nil_r. rewrite snaps_app in Hin.
  destruct e as (st, [k'|]).
  - rewrite stepOps_split, after_app. rewrite (after_other (tail_ _ _ _ _)).
    2:{ eapply untouched_info; [apply tail_on|]. intros ->. discriminate Hk. }
    destruct (Z.eq_dec k' k) as [->|N].
    + apply body_after; assumption.
    + rewrite after_other by (eapply untouched_on; [apply body_on|right; congruence]). apply IH; try assumption.
      apply in_app_or in Hin. destruct Hin as [Q|Q]; [exact Q|]. cbn in Q. destruct Q as [Q|[]]. contradiction.
  - unfold stepOps. cbn [snd]. cbn [after fold_left doOp]. apply IH; try assumption.
    apply in_app_or in Hin. destruct Hin as [Q|Q]; [exact Q|destruct Q].
Qed.

(** counting synchronisations *)
Definition cnt (p : list op) : nat := length (filter isSync p).
Lemma cnt_app a b : cnt (a ++ b) = (cnt a + cnt b)%nat.
Proof. unfold cnt. rewrite filter_app, app_length. reflexivity. Qed.
Lemma cnt_writeFile f t : cnt (writeFile f t) = 0%nat.
Proof. unfold cnt, writeFile. cbn [filter isSync]. unfold putAll. induction t; [reflexivity|exact IHt]. Qed.
Lemma cnt_putAll f t : cnt (putAll f t) = 0%nat.
Proof. unfold cnt, putAll. induction t; [reflexivity|exact IHt]. Qed.
Lemma cnt_body r k d : cnt (body r k d) = 2%nat.
Proof.
  unfold body. change (Sync :: ?X) with ([Sync] ++ X). rewrite !cnt_app, !cnt_writeFile. destruct (r =? 0)%nat; rewrite ?cnt_app, ?cnt_writeFile, ?cnt_putAll; reflexivity.
Qed.
Lemma cnt_step r seed data e : cnt (stepOps r seed data e) = match snd e with Some _ => 2%nat | None => 1%nat end.
Proof.
  destruct e as (st, [k|]); [|reflexivity]. rewrite stepOps_split, cnt_app, cnt_body. unfold tail_. destruct (r =? 0)%nat; rewrite ?cnt_writeFile; reflexivity.
Qed.
Lemma cnt_program seed data steps r q : cnt (rankProgram seed data steps r) = cnt (rankProgram seed data steps q).
Proof. unfold rankProgram. induction steps as [|e steps IH]; [reflexivity|]. cbn [flat_map]. rewrite !cnt_app, IH, !cnt_step. reflexivity. Qed.

Lemma program_app seed data a b r : rankProgram seed data (a ++ b) r = rankProgram seed data a r ++ rankProgram seed data b r.
Proof. apply flat_map_app. Qed.

(** a rank that has passed more synchronisations than some steps have is through with them *)
Lemma passed seed data pre suf r dn rest : dn ++ rest = rankProgram seed data (pre ++ suf) r -> (cnt (rankProgram seed data pre 0) < cnt dn)%nat ->
  exists more, dn = rankProgram seed data pre r ++ more /\ Forall (within r (snaps suf)) more.
Proof.
  intros E C. rewrite program_app in E. pose proof (program_within r seed data suf) as P. apply prefix_split in E. destruct E as [(a2 & Ea & _)|(b1 & -> & Eb)].
  - exfalso. apply (f_equal cnt) in Ea. rewrite cnt_app, (cnt_program seed data pre r 0) in Ea. lia.
  - exists b1. split; [reflexivity|]. rewrite Eb in P. apply Forall_prefix in P. exact P.
Qed.

(** the restart file as left by a beginning of rank 0's program *)
Lemma info_last seed data steps : forall dn rest s, dn ++ rest = rankProgram seed data steps 0 ->
  after dn s FInfo = s FInfo \/
  exists pre st k post w t, steps = pre ++ (st, Some k) :: post /\
    dn = rankProgram seed data pre 0 ++ body 0 k (data k) ++ Create FInfo :: w /\ Forall (within 0 (snaps post)) w /\
    (exists w2, rest = w2 /\ Forall (within 0 (snaps post)) w2) /\
    after dn s FInfo = Some t /\ prefix t (infoText seed st k).
Proof.
  induction steps as [|e steps IH] using rev_ind; intros dn rest s E.
  { apply app_eq_nil in E. destruct E as (-> & _). left. reflexivity. }
  rewrite program_app in E. unfold rankProgram at 2 in E. cbn [flat_map] in E. rewrite app_nil_r in E.
  assert (Ext : forall dn' q rest', dn' ++ rest' = rankProgram seed data steps 0 -> dn = dn' ++ q -> Forall (within 0 (snaps [e])) q -> Forall (within 0 (snaps [e])) rest ->
     rest' = [] \/ q = [] /\ (exists x, rest = rest' ++ x /\ Forall (within 0 (snaps [e])) x) -> after dn s FInfo = after dn' s FInfo ->
     after dn s FInfo = s FInfo \/
     exists pre st k post w t, steps ++ [e] = pre ++ (st, Some k) :: post /\
      dn = rankProgram seed data pre 0 ++ body 0 k (data k) ++ Create FInfo :: w /\ Forall (within 0 (snaps post)) w /\
      (exists w2, rest = w2 /\ Forall (within 0 (snaps post)) w2) /\
      after dn s FInfo = Some t /\ prefix t (infoText seed st k)).
  { intros dn' q rest' E' -> Hq Hrest Hr Ha. destruct (IH dn' rest' s E') as [L|(pre & st & k & post & w & t & -> & -> & Hw & (w2 & -> & Hw2) & Ht & Hp)].
    - left. rewrite Ha. exact L.
    - right. exists pre, st, k, (post ++ [e]), (w ++ q), t.
      assert (M1 : forall o, within 0 (snaps post) o -> within 0 (snaps (post ++ [e])) o) by (intros o; apply within_mono; intros j Hj; rewrite snaps_app; apply in_or_app; left; exact Hj).
      assert (M2 : forall o, within 0 (snaps [e]) o -> within 0 (snaps (post ++ [e])) o) by (intros o; apply within_mono; intros j Hj; rewrite snaps_app; apply in_or_app; right; exact Hj).
      split; [rewrite <- app_assoc; reflexivity|]. split; [rewrite <- !app_assoc; reflexivity|]. split; [apply Forall_app; split; (eapply Forall_impl; [|eassumption]; assumption)|].
      split.
      { exists rest. split; [reflexivity|]. destruct Hr as [Hr|(_ & x & -> & Hx)].
        - eapply Forall_impl; [exact M2|exact Hrest].
        - apply Forall_app. split; (eapply Forall_impl; [|eassumption]; assumption). }
      split; [rewrite Ha; exact Ht|exact Hp]. }
  pose proof (stepOps_within 0 seed data e) as Se.
  apply prefix_split in E. destruct E as [(a2 & Ea & Er)|(q & -> & Eq)].
  - (* inside the earlier steps *)
    destruct (IH dn a2 s (eq_sym Ea)) as [L|(pre & st & k & post & w & t & -> & Hd & Hw & (w2 & -> & Hw2) & Ht & Hp)]; [left; exact L|].
    right. exists pre, st, k, (post ++ [e]), w, t.
    assert (M1 : forall o, within 0 (snaps post) o -> within 0 (snaps (post ++ [e])) o) by (intros o; apply within_mono; intros j Hj; rewrite snaps_app; apply in_or_app; left; exact Hj).
    assert (M2 : forall o, within 0 (snaps [e]) o -> within 0 (snaps (post ++ [e])) o) by (intros o; apply within_mono; intros j Hj; rewrite snaps_app; apply in_or_app; right; exact Hj).
    split; [rewrite <- app_assoc; reflexivity|]. split; [exact Hd|]. split; [eapply Forall_impl; [exact M1|exact Hw]|].
    split; [exists rest; split; [reflexivity|]; rewrite Er; apply Forall_app; split; (eapply Forall_impl; [|eassumption]; assumption)|].
    split; [exact Ht|exact Hp].
  - (* in the last step *)
    rewrite Eq in Se. apply Forall_app in Se. destruct Se as (Sq & Sr).
    destruct e as (st, [k|]).
    + rewrite stepOps_split in Eq. symmetry in Eq. apply prefix_split in Eq. destruct Eq as [(b2 & Eb & Er)|(q2 & -> & Et)].
      * apply (Ext (rankProgram seed data steps 0) q []); [rewrite app_nil_r; reflexivity|reflexivity|exact Sq|exact Sr|left; reflexivity|].
        rewrite after_app. apply after_other. pose proof (body_on 0 k (data k)) as B. rewrite Eb in B. apply Forall_prefix in B.
        eapply untouched_on; [exact B|right; discriminate].
      * unfold tail_ in Et. cbn [Nat.eqb] in Et. destruct q2 as [|o q2].
        -- apply (Ext (rankProgram seed data steps 0) (body 0 k (data k)) []); [rewrite app_nil_r; reflexivity|rewrite app_nil_r; reflexivity|rewrite app_nil_r in Sq; exact Sq|exact Sr|left; reflexivity|].
           rewrite app_nil_r, after_app. apply after_other. eapply untouched_on; [apply body_on|right; discriminate].
        -- unfold writeFile in Et. cbn [app] in Et. injection Et as <- Et. destruct (putAll_prefix FInfo _ q2 rest Et) as (u & -> & Pu).
           right. exists steps, st, k, [], (putAll FInfo u), u. split; [reflexivity|]. split; [reflexivity|].
           split; [apply putAll_Forall; intros; left; reflexivity|]. split.
           { exists rest. split; [reflexivity|]. assert (X : Forall (within 0 []) (putAll FInfo (infoText seed st k))) by (apply putAll_Forall; intros; left; reflexivity).
             rewrite Et in X. apply Forall_app in X. apply X. }
           split; [|exact Pu]. rewrite !after_app. apply after_writeFile.
    + apply (Ext (rankProgram seed data steps 0) q []); [rewrite app_nil_r; reflexivity|reflexivity|exact Sq|exact Sr|left; reflexivity|].
      rewrite after_app. apply after_other. assert (X : Forall (fun o => touches FInfo o = false) (stepOps 0 seed data (st, None))) by (repeat constructor).
      rewrite Eq in X. apply Forall_prefix in X. exact X.
Qed.

(** what a schedule does: every rank has done a beginning of its program, all with the same number of synchronisations *)
Lemma setNth_length {A} r (x : A) l : (r < length l)%nat -> length (setNth r x l) = length l.
Proof. intros H. unfold setNth. rewrite app_length, firstn_length. cbn [length]. rewrite skipn_length. lia. Qed.
Lemma setNth_same {A} r (x : A) l : (r < length l)%nat -> nth_error (setNth r x l) r = Some x.
Proof.
  intros H. unfold setNth. rewrite nth_error_app2 by (rewrite firstn_length; lia). rewrite firstn_length, Nat.min_l by lia. rewrite Nat.sub_diag. reflexivity.
Qed.
Lemma setNth_other {A} r q (x : A) l : (r < length l)%nat -> q <> r -> nth_error (setNth r x l) q = nth_error l q.
Proof.
  intros H N. unfold setNth. destruct (Nat.lt_ge_cases q r).
  - rewrite nth_error_app1 by (rewrite firstn_length; lia). rewrite <- (firstn_skipn r l) at 2. rewrite nth_error_app1 by (rewrite firstn_length; lia). reflexivity.
  - rewrite nth_error_app2 by (rewrite firstn_length; lia). rewrite firstn_length, Nat.min_l by lia.
    rewrite <- (firstn_skipn (S r) l) at 2. rewrite (nth_error_app2 (firstn (S r) l)) by (rewrite firstn_length; lia). rewrite firstn_length, Nat.min_l by lia.
    destruct (q - r)%nat as [|m] eqn:E; [lia|]. cbn [nth_error]. f_equal. lia.
Qed.

Definition mine (r : nat) (o : op) : Prop := match o with Sync => True | Create f | Put f _ => owner f = r end.

Lemma schedule_inv : forall ps0, (forall r p, nth_error ps0 r = Some p -> Forall (mine r) p) -> forall sched s0 s ps,
  runSchedule sched (s0, ps0) = (s, ps) ->
  length ps = length ps0 /\
  exists (dn : nat -> list op) c,
    (forall r p, nth_error ps0 r = Some p -> exists rest, nth_error ps r = Some rest /\ p = dn r ++ rest /\ cnt (dn r) = c) /\
    (forall f, s f = if (owner f <? length ps0)%nat then after (dn (owner f)) s0 f else s0 f).
Proof.
  intros ps0 HM sched s0. induction sched as [|ch sched IH] using rev_ind; intros s ps E.
  - cbn in E. apply pair_equal_spec in E. destruct E as (<- & <-). split; [reflexivity|]. exists (fun _ => []), 0%nat. split.
    + intros r p Hp. exists p. split; [exact Hp|]. split; reflexivity.
    + intros f. destruct (_ <? _)%nat; reflexivity.
  - unfold runSchedule in E. rewrite fold_left_app in E. cbn [fold_left] in E. fold (runSchedule sched (s0, ps0)) in E.
    destruct (runSchedule sched (s0, ps0)) as (s1, ps1) eqn:E1. destruct (IH s1 ps1 eq_refl) as (L & dn & c & HP & HF). clear IH.
    assert (Same : (s1, ps1) = (s, ps) -> length ps = length ps0 /\
       exists (dn : nat -> list op) c,
        (forall r p, nth_error ps0 r = Some p -> exists rest, nth_error ps r = Some rest /\ p = dn r ++ rest /\ cnt (dn r) = c) /\
        (forall f, s f = if (owner f <? length ps0)%nat then after (dn (owner f)) s0 f else s0 f)).
    { intros Q. apply pair_equal_spec in Q. destruct Q as (<- & <-). split; [exact L|]. exists dn, c. split; assumption. }
    cbn [turn] in E. destruct ch as [r|].
    + destruct (nth_error ps1 r) as [[|o rest]|] eqn:Er; try (apply Same, E). destruct (isSync o) eqn:Eo; [apply Same, E|].
      apply pair_equal_spec in E. destruct E as (<- & <-).
      assert (Hr : (r < length ps1)%nat) by (apply nth_error_Some; congruence).
      split; [rewrite setNth_length; assumption|].
      assert (Hp0 : exists p0, nth_error ps0 r = Some p0). { destruct (nth_error ps0 r) eqn:Q; [eexists; reflexivity|]. apply nth_error_None in Q. lia. }
      destruct Hp0 as (p0 & Hp0). destruct (HP r p0 Hp0) as (rest0 & Q1 & Q2 & Q3). rewrite Er in Q1. injection Q1 as <-.
      assert (Mo : mine r o). { pose proof (HM r p0 Hp0) as M. rewrite Q2 in M. apply Forall_app in M. destruct M as (_ & M). inversion M; assumption. }
      exists (fun q => if (q =? r)%nat then dn r ++ [o] else dn q), c. split.
      * intros q p Hp. destruct (Nat.eqb_spec q r) as [->|N].
        -- rewrite Hp0 in Hp. injection Hp as <-. exists rest. split; [apply setNth_same, Hr|]. split; [rewrite <- app_assoc; exact Q2|].
           rewrite cnt_app, Q3. unfold cnt. cbn [filter]. rewrite Eo. cbn. lia.
        -- rewrite setNth_other by assumption. apply HP, Hp.
      * intros f. destruct (Nat.eqb_spec (owner f) r) as [Ef|Ef].
        -- assert (Lf : (owner f <? length ps0)%nat = true) by (apply Nat.ltb_lt; lia). rewrite Lf. rewrite after_app. cbn [after fold_left].
           apply doOp_same. rewrite HF, Lf, Ef. reflexivity.
        -- rewrite doOp_other; [apply HF|]. destruct o as [g|g x|]; cbn [touches mine] in *; try reflexivity; (destruct (fileEqb_ok f g); [subst; contradiction|reflexivity]).
    + destruct (forallb atSync ps1) eqn:Ea; [|apply Same, E]. apply pair_equal_spec in E. destruct E as (<- & <-). rewrite forallb_forall in Ea.
      split; [rewrite map_length; exact L|]. exists (fun q => dn q ++ [Sync]), (c + 1)%nat. split.
      * intros r p Hp. destruct (HP r p Hp) as (rest & Q1 & Q2 & Q3). rewrite nth_error_map, Q1.
        specialize (Ea rest (nth_error_In _ _ Q1)). destruct rest as [|o rest]; [discriminate Ea|]. cbn [atSync] in Ea. destruct o; try discriminate Ea.
        exists rest. split; [reflexivity|]. split; [rewrite <- app_assoc; exact Q2|]. rewrite cnt_app, Q3. reflexivity.
      * intros f. rewrite HF. destruct (_ <? _)%nat; [|reflexivity]. rewrite after_app. reflexivity.
Qed.

Lemma program_mine seed data steps r : Forall (mine r) (rankProgram seed data steps r).
Proof.
  destruct (Nat.eq_dec r 0) as [->|N].
  - eapply Forall_impl; [|apply (program_within 0)]. intros o. destruct o; cbn [within mine]; try tauto; intros [->|(A & _)]; [reflexivity|exact A|reflexivity|exact A].
  - pose proof (program_within r seed data steps) as A. pose proof (program_info r seed data steps N) as B. revert A B. induction 1 as [|o p Ho Hp IH]; intros B; constructor.
    + inversion B; subst. destruct o as [g|g c|]; cbn [within mine touches] in *; try tauto; (destruct Ho as [->|(Q & _)]; [|exact Q]); destruct (fileEqb_ok FInfo FInfo); congruence.
    + apply IH. inversion B; assumption.
Qed.

Lemma numbered_range n steps : numbered n steps -> forall pre st k post, steps = pre ++ (st, Some k) :: post ->
  n <= k /\ (forall j, n <= j < k -> In j (snaps pre)) /\ (forall j, In j (snaps pre) -> n <= j < k) /\ (forall j, In j (snaps post) -> k < j).
Proof.
  assert (Low : forall steps n, numbered n steps -> forall j, In j (snaps steps) -> n <= j).
  { clear. induction steps as [|(s, [k|]) steps IH]; cbn [numbered]; intros n H j Hj.
    - destruct Hj.
    - destruct H as (-> & H). destruct Hj as [<-|Hj]; [lia|]. specialize (IH _ H j Hj). lia.
    - apply (IH n H j Hj). }
  revert n. induction steps as [|(s, [k0|]) steps IH]; intros n H pre st k post E.
  - destruct pre; discriminate E.
  - cbn [numbered] in H. destruct H as (-> & H). destruct pre as [|e pre]; cbn [app] in E.
    + injection E as -> -> ->. split; [lia|]. split; [lia|]. split; [intros j []|]. intros j Hj. specialize (Low _ _ H j Hj). lia.
    + injection E as <- E2. destruct (IH _ H pre st k post E2) as (A & B & C & D). split; [lia|]. split; [|split; [|exact D]].
      * intros j Hj. destruct (Z.eq_dec j n) as [->|]; [left; reflexivity|]. right. apply B. lia.
      * intros j [<-|Hj]; [lia|]. specialize (C j Hj). lia.
  - cbn [numbered] in H. destruct pre as [|e pre]; cbn [app] in E; [discriminate E|]. injection E as <- E2.
    destruct (IH _ H pre st k post E2) as (A & B & C & D). split; [exact A|]. split; [exact B|]. split; assumption.
Qed.
Lemma numbered_low n steps : numbered n steps -> forall j, In j (snaps steps) -> n <= j.
Proof.
  revert n. induction steps as [|(s, [k|]) steps IH]; cbn [numbered]; intros n H j Hj.
  - destruct Hj.
  - destruct H as (-> & H). destruct Hj as [<-|Hj]; [lia|]. specialize (IH _ H j Hj). lia.
  - apply (IH n H j Hj).
Qed.

Lemma crash_ok : forall n seed data steps sched s0 n0 s rest, (0 < n)%nat -> numbered n0 steps -> crashedRun n seed data steps sched s0 = (s, rest) ->
  (forall f k, snapOf f = Some k -> k < n0 -> s f = s0 f) /\
  (s FInfo = s0 FInfo \/
   exists pre st snap post t, steps = pre ++ (st, Some snap) :: post /\ s FInfo = Some t /\ prefix t (infoText seed st snap) /\
     rootPart s snap (data snap) /\ (forall st' snap', In (st', Some snap') pre -> whole n s snap' (data snap')) /\
     (settled rest -> whole n s snap (data snap))).
Proof.
  intros n seed data steps sched s0 n0 s rest Hn Hnum E. unfold crashedRun in E.
  remember (map (rankProgram seed data steps) (seq 0 n)) as ps0 eqn:Eps.
  assert (L0 : length ps0 = n) by (rewrite Eps, map_length, seq_length; reflexivity).
  assert (N0 : forall r, (r < n)%nat -> nth_error ps0 r = Some (rankProgram seed data steps r)).
  { intros r Hr. rewrite Eps, nth_error_map, (nth_error_nth' _ 0%nat) by (rewrite seq_length; exact Hr). rewrite seq_nth by exact Hr. reflexivity. }
  assert (HM : forall r p, nth_error ps0 r = Some p -> Forall (mine r) p).
  { intros r p Hp. assert (Hr : (r < n)%nat) by (rewrite <- L0; apply nth_error_Some; congruence). rewrite N0 in Hp by exact Hr. injection Hp as <-. apply program_mine. }
  destruct (schedule_inv ps0 HM sched s0 s rest E) as (Lr & dn & c & HP & HF). rewrite L0 in *.
  assert (HD : forall r, (r < n)%nat -> exists rs, nth_error rest r = Some rs /\ dn r ++ rs = rankProgram seed data steps r /\ cnt (dn r) = c).
  { intros r Hr. destruct (HP r _ (N0 r Hr)) as (rs & A & B & C). exists rs. split; [exact A|]. split; [symmetry; exact B|exact C]. }
  assert (HW : forall r, (r < n)%nat -> Forall (within r (snaps steps)) (dn r)).
  { intros r Hr. destruct (HD r Hr) as (rs & _ & B & _). pose proof (program_within r seed data steps) as P. rewrite <- B in P. apply Forall_prefix in P. exact P. }
  split.
  { intros f k Hk Hlt. rewrite HF. destruct (Nat.ltb_spec (owner f) n) as [Lt|]; [|reflexivity]. apply after_other.
    eapply untouched_within; [apply HW, Lt|exact Hk|]. intros Q. pose proof (numbered_low _ _ Hnum _ Q). lia. }
  destruct (HD 0%nat Hn) as (rs0 & R0 & B0 & C0).
  assert (FI : s FInfo = after (dn 0%nat) s0 FInfo). { rewrite HF. cbn [owner]. destruct (Nat.ltb_spec 0 n); [reflexivity|lia]. }
  destruct (info_last seed data steps (dn 0%nat) rs0 s0 B0) as [Q|(pre & st & k & post & w & t & Es & Ed & Hw & (w2 & -> & Hw2) & Ht & Hp)]; [left; rewrite FI; exact Q|].
  right. destruct (numbered_range n0 steps Hnum pre st k post Es) as (K1 & K2 & K3 & K4).
  exists pre, st, k, post, t. split; [exact Es|]. split; [rewrite FI; exact Ht|]. split; [exact Hp|].
  assert (Root : forall f, owner f = 0%nat -> snapOf f = Some k -> s f = Some (expected (data k) f)).
  { intros f Ho Hk. rewrite HF, Ho. destruct (Nat.ltb_spec 0 n); [|lia]. rewrite Ed. change (Create FInfo :: w) with ([Create FInfo] ++ w). rewrite !after_app.
    rewrite after_other by (eapply untouched_within; [exact Hw|exact Hk|intros Q; specialize (K4 _ Q); lia]).
    rewrite after_other. 2:{ constructor; [|constructor]. cbn [touches]. destruct (fileEqb_ok f FInfo); [subst; discriminate Hk|reflexivity]. }
    apply body_after; assumption. }
  assert (Cpre : (cnt (rankProgram seed data pre 0) < c)%nat).
  { rewrite <- C0, Ed, !cnt_app, cnt_body. lia. }
  split; [|split].
  - unfold rootPart, whole. split; [apply (Root (FAscii k)); reflexivity|]. split; [apply (Root (FHead k)); reflexivity|]. split; [apply (Root (FConHead k)); reflexivity|].
    intros r Hr. assert (r = 0)%nat by lia. subst r. split; [apply (Root (FPiece 0 k)); reflexivity|apply (Root (FConPiece 0 k)); reflexivity].
  - intros st' k' Hin.
    assert (Hks : In k' (snaps pre)). { unfold snaps. apply in_flat_map. exists (st', Some k'). split; [exact Hin|left; reflexivity]. }
    assert (F : forall f, (owner f < n)%nat -> snapOf f = Some k' -> s f = Some (expected (data k') f)).
    { intros f Ho Hk. rewrite HF. destruct (Nat.ltb_spec (owner f) n); [|lia]. destruct (HD (owner f) Ho) as (rs & _ & B & C).
      rewrite Es in B. destruct (passed seed data pre ((st, Some k) :: post) (owner f) (dn (owner f)) rs B) as (more & Em & Hm); [lia|].
      rewrite Em, after_app. rewrite after_other.
      - apply steps_after; [reflexivity|exact Hk|exact Hks].
      - eapply untouched_within; [exact Hm|exact Hk|]. intros Q. specialize (K3 _ Hks). cbn in Q. destruct Q as [Q|Q]; [lia|]. specialize (K4 _ Q). lia. }
    unfold whole. split; [apply (F (FAscii k')); [exact Hn|reflexivity]|]. split; [apply (F (FHead k')); [exact Hn|reflexivity]|]. split; [apply (F (FConHead k')); [exact Hn|reflexivity]|].
    intros r Hr. split; [apply (F (FPiece r k')); [exact Hr|reflexivity]|apply (F (FConPiece r k')); [exact Hr|reflexivity]].
  - intros Hset.
    assert (NoOp : forall p o, In p rest -> In o p -> opSnap o <> Some k).
    { apply Hset. intros o Ho. rewrite (nth_error_nth _ _ _ R0) in Ho. rewrite Forall_forall in Hw2. specialize (Hw2 o Ho).
      destruct o as [g|g x|]; cbn [within opSnap] in *; try discriminate; (destruct Hw2 as [->|(_ & j & Ej & Hj)]; [discriminate|]); rewrite Ej; specialize (K4 _ Hj); intros Q; injection Q as <-; lia. }
    assert (F : forall f, (owner f < n)%nat -> snapOf f = Some k -> s f = Some (expected (data k) f)).
    { intros f Ho Hk. rewrite HF. destruct (Nat.ltb_spec (owner f) n); [|lia]. destruct (HD (owner f) Ho) as (rs & Rr & B & _).
      rewrite <- (steps_after (owner f) seed data steps s0 f k); [|reflexivity|exact Hk|rewrite Es, snaps_app; apply in_or_app; right; left; reflexivity].
      rewrite <- B, after_app. symmetry. apply after_other. apply Forall_forall. intros o Hoin. specialize (NoOp rs o (nth_error_In _ _ Rr) Hoin).
      destruct o as [g|g x|]; cbn [touches opSnap] in *; try reflexivity; (destruct (fileEqb_ok f g); [subst; contradiction|reflexivity]). }
    unfold whole. split; [apply (F (FAscii k)); [exact Hn|reflexivity]|]. split; [apply (F (FHead k)); [exact Hn|reflexivity]|]. split; [apply (F (FConHead k)); [exact Hn|reflexivity]|].
    intros r Hr. split; [apply (F (FPiece r k)); [exact Hr|reflexivity]|apply (F (FConPiece r k)); [exact Hr|reflexivity]].
Qed.

Lemma single_settled : forall seed data steps sched s0 s rest, crashedRun 1 seed data steps sched s0 = (s, rest) -> settled rest.
Proof.
  intros seed data steps sched s0 s rest E snap H p o Hp Ho.
  assert (L : length rest = 1%nat).
  { unfold crashedRun in E. destruct (schedule_inv (map (rankProgram seed data steps) (seq 0 1))) with (2 := E) as (L & _); [|exact L].
    intros [|r] q Hq; [injection Hq as <-; apply program_mine|destruct r; discriminate Hq]. }
  destruct rest as [|p0 [|? ?]]; try discriminate L. destruct Hp as [<-|[]]. apply H, Ho.
Qed.

(** * Histories *)
Lemma loop_inv timeSnap dt T : forall fuel step snap steps fin, mainLoop fuel timeSnap dt T step snap = Done (steps, fin) -> 0 <= step <= INT_MAX -> 0 <= snap <= INT_MAX ->
  numbered snap steps /\ forall st k, In (st, Some k) steps -> 0 <= st < INT_MAX /\ 0 <= k < INT_MAX.
Proof.
  induction fuel as [|fuel IH]; intros step snap steps fin E Hs Hk; cbn [mainLoop] in E.
  - destruct (goesOn dt T step); [discriminate E|]. injection E as <- _. split; [exact I|intros ? ? []].
  - destruct (goesOn dt T step); [|injection E as <- _; split; [exact I|intros ? ? []]].
    destruct (ifWriteResult timeSnap dt step) as [b| |]; cbn [obind] in E; try discriminate E.
    destruct b; unfold incr in E; [destruct (Z.eqb_spec snap INT_MAX); [discriminate E|]|]; cbn [obind] in E; (destruct (Z.eqb_spec step INT_MAX); [discriminate E|]); cbn [obind] in E;
      match type of E with context [mainLoop ?F ?A ?B ?C ?D ?G] => destruct (mainLoop F A B C D G) as [(r, f)| |] eqn:R end; cbn [obind fst snd] in E; try discriminate E; injection E as <- <-;
      (destruct (IH _ _ _ _ R) as (A & B); [lia|lia|]).
    + split; [cbn [numbered]; split; [reflexivity|exact A]|]. intros st k [Q|Q]; [injection Q as <- <-; lia|apply B, Q].
    + split; [exact A|]. intros st k [Q|Q]; [discriminate Q|apply B, Q].
Qed.

Lemma whole_same n s s' k d : (forall f, snapOf f = Some k -> s' f = s f) -> whole n s k d -> whole n s' k d.
Proof.
  intros H (A & B & C & D). unfold whole. rewrite !H by reflexivity. split; [exact A|]. split; [exact B|]. split; [exact C|]. intros r Hr. rewrite !H by reflexivity. apply D, Hr.
Qed.

Lemma run_intact n seed data steps sched s0 n0 s rest : (0 < n)%nat -> 0 <= n0 -> numbered n0 steps -> (forall st k, In (st, Some k) steps -> 0 <= st < INT_MAX /\ 0 <= k < INT_MAX) ->
  0 <= seed <= 4294967295 -> intact n s0 n0 -> crashedRun n seed data steps sched s0 = (s, rest) -> settled rest -> exists k, n0 <= k /\ intact n s k.
Proof.
  intros Hn H0 Hnum Hrange Hseed (Hwhole & Hinfo) E Hset. destruct (crash_ok n seed data steps sched s0 n0 s rest Hn Hnum E) as (Keep & [Same|(pre & st & snap & post & t & Es & Ht & Hp & Hr & Hpre & Hsn)]).
  - exists n0. split; [lia|]. split.
    + intros j Hj. destruct (Hwhole j Hj) as (d & Hd). exists d. eapply whole_same; [|exact Hd]. intros f Hf. apply (Keep f j Hf). lia.
    + rewrite Same. exact Hinfo.
  - destruct (numbered_range n0 steps Hnum pre st snap post Es) as (K1 & K2 & K3 & K4).
    destruct (Hrange st snap) as (R1 & R2). { rewrite Es. apply in_or_app. right. left. reflexivity. }
    exists (snap + 1). split; [lia|]. split.
    + intros j Hj. destruct (Z.lt_ge_cases j n0).
      * destruct (Hwhole j ltac:(lia)) as (d & Hd). exists d. eapply whole_same; [|exact Hd]. intros f Hf. apply (Keep f j Hf). lia.
      * destruct (Z.eq_dec j snap) as [->|]; [exists (data snap); apply Hsn, Hset|].
        assert (Q : In j (snaps pre)) by (apply K2; lia). unfold snaps in Q. apply in_flat_map in Q. destruct Q as ((st', [k'|]) & Q1 & Q2); [|destruct Q2].
        destruct Q2 as [->|[]]. exists (data j). apply (Hpre st' j Q1).
    + right. exists t, seed, st. split; [exact Ht|]. split; [lia|]. replace (snap + 1 - 1) with snap by ring. split; [exact Hp|]. split; [exact Hseed|]. split; lia.
Qed.

Lemma readWord_full snap : 0 <= snap -> readWord (fileName (FHead snap)) = Some (fileName (FHead snap)).
Proof. intros H. rewrite <- (app_nil_r (fileName (FHead snap))) at 1. apply readWord_solid; [apply head_solid, H|discriminate|exact I]. Qed.

Lemma readInfo_cut : forall seed step snap t v, 0 <= seed <= 4294967295 -> 0 <= step <= INT_MAX -> 0 <= snap <= INT_MAX ->
  infoText seed step snap = t ++ v -> (length v < 2)%nat -> readInfo t = Some (seed, step, snap, fileName (FHead snap)).
Proof.
  intros seed step snap t v H1 H2 H3 E L. destruct v as [|c [|? ?]]; [|clear L|cbn in L; lia].
  - rewrite app_nil_r in E. subst t. apply readInfo_ok; assumption.
  - assert (Et : t = dec seed ++ nl :: dec step ++ nl :: dec snap ++ nl :: fileName (FHead snap)).
    { assert (X : infoText seed step snap = (dec seed ++ nl :: dec step ++ nl :: dec snap ++ nl :: fileName (FHead snap)) ++ [nl]).
      { unfold infoText. cbn [app]. repeat (rewrite <- ?app_assoc; cbn [app]). reflexivity. }
      rewrite X in E. apply app_inj_tail in E. destruct E as (E & _). symmetry. exact E. }
    rewrite Et. unfold readInfo.
    rewrite readNum_dec by (assumption || reflexivity). rewrite readNum_nl, readNum_dec by (assumption || reflexivity).
    rewrite readNum_nl, readNum_dec by (assumption || reflexivity). rewrite readWord_nl, readWord_full by lia. reflexivity.
Qed.

Lemma history_ok : forall n rngSeed timeSnap dt T s, (0 < n)%nat -> 0 <= rngSeed <= 4294967295 -> history n rngSeed timeSnap dt T s -> exists k, 0 <= k /\ intact n s k.
Proof.
  intros n rngSeed timeSnap dt T s Hn Hseed H.
  induction H as [|s seed step snap fuel steps fin data sched s' rest H IH Hstart Hloop Hcrash Hset].
  - exists 0. split; [lia|]. split; [lia|]. left. split; reflexivity.
  - destruct IH as (k & Hk & Hint).
    assert (X : 0 <= seed <= 4294967295 /\ 0 <= step <= INT_MAX /\ snap = k /\ k <= INT_MAX).
    { destruct Hint as (_ & [(N & ->)|(t & sd & st & Ht & Hk0 & (v & Hv) & R1 & R2 & R3)]).
      - destruct Hstart as [(_ & Q)|(t & f1 & f2 & h & Q & _)]; [|rewrite N in Q; discriminate Q]. injection Q as -> -> ->. split; [exact Hseed|]. unfold INT_MAX. lia.
      - destruct Hstart as [(Q & _)|(t' & f1 & f2 & h & Q & R & Hh & Hf1)]; [rewrite Ht in Q; discriminate Q|]. rewrite Ht in Q. injection Q as <-.
        assert (Y : readInfo t = Some (sd, st, k - 1, fileName (FHead (k - 1)))).
        { destruct (Nat.lt_ge_cases (length v) 2) as [Lv|Lv]; [apply (readInfo_cut sd st (k - 1) t v); (assumption || lia)|]. exfalso.
          unfold reinit in R. destruct (torn_ok sd st (k - 1) t v) as [Y|(x & y & z & name & Y & Nn)]; try assumption; try lia; rewrite Y in R; [discriminate R|].
          destruct (replaceLast "." 5 (txt ".dat") name) as [a1|]; [|discriminate R]. destruct (replaceLast "_" 1 (txt "Ascii_") a1) as [a2|]; [|discriminate R].
          destruct (resultFolder (Z.of_nat n) z) as [fo| |] eqn:Ef; cbn [obind] in R; try discriminate R.
          unfold incr in R. destruct (y =? INT_MAX); [discriminate R|]. cbn [obind] in R. destruct (z =? INT_MAX); [discriminate R|]. cbn [obind] in R.
          injection R as Q1 Q2 Q3 Q4 Q5. subst snap. replace (z + 1 - 1) with z in Hf1 by ring. rewrite Ef in Hf1. injection Hf1 as <-.
          apply app_inv_head in Q4. exact (Nn h Hh Q4). }
        unfold reinit in R. rewrite Y in R.
        destruct (replaceLast "." 5 (txt ".dat") _) as [a1|]; [|discriminate R]. destruct (replaceLast "_" 1 (txt "Ascii_") a1) as [a2|]; [|discriminate R].
        destruct (resultFolder (Z.of_nat n) (k - 1)) as [fo| |] eqn:Ef; cbn [obind] in R; try discriminate R.
        unfold incr in R. destruct (st =? INT_MAX); [discriminate R|]. cbn [obind] in R. destruct (k - 1 =? INT_MAX); [discriminate R|]. cbn [obind] in R.
        injection R as Q1 Q2 Q3 Q4 Q5. subst. pose proof (Z.mod_pos_bound (sd + 1) 4294967296 ltac:(lia)). lia. }
    destruct X as (X1 & X2 & -> & X4).
    destruct (loop_inv _ _ _ _ _ _ _ _ Hloop X2 ltac:(lia)) as (Hnum & Hrange).
    destruct (run_intact n seed data steps sched s k s' rest Hn Hk Hnum Hrange X1 Hint Hcrash Hset) as (k' & K1 & K2). exists k'. split; [lia|exact K2].
Qed.

Lemma interval_range : forall timeSnap dt k, snapInterval timeSnap dt = Done k <->
  is_finite (fdiv timeSnap dt) = true /\ k = Ztrunc (B2R (fdiv timeSnap dt)) /\ -2147483648 <= k <= 2147483647.
Proof.
  intros ts dt k. unfold snapInterval. cbv zeta. rewrite f_trunc_R. change (f_finite (fdiv ts dt)) with (is_finite (fdiv ts dt)). set (q := fdiv ts dt). clearbody q. unfold INT_MAX. split.
  - destruct (is_finite q); [|intros [=]]. destruct (Z.leb_spec (- (2147483647) - 1) (Ztrunc (B2R q))); [|intros [=]].
    destruct (Z.leb_spec (Ztrunc (B2R q)) 2147483647); [|intros [=]]. cbn [andb]. intros E. injection E as <-. split; [reflexivity|]. split; [reflexivity|]. lia.
  - intros (-> & -> & H). rewrite (proj2 (Z.leb_le _ _)), (proj2 (Z.leb_le _ _)) by lia. reflexivity.
Qed.
Definition whites (ws : text) : Prop := Forall (fun c => let n := nat_of_ascii c in (9 <= n <= 13)%nat \/ n = 32%nat) ws.
Lemma whites_space ws : whites ws -> Forall (fun c => isSpace c = true) ws.
Proof.
  apply Forall_impl. intros c H. unfold isSpace. cbv zeta in *. destruct (Nat.eqb_spec (nat_of_ascii c) 32); [reflexivity|]. cbn [orb].
  rewrite (proj2 (Nat.leb_le _ _)), (proj2 (Nat.leb_le _ _)) by lia. reflexivity.
Qed.
Lemma number_ok : forall lim ws z b, 0 <= z <= lim -> whites ws ->
  match b with c :: _ => let n := nat_of_ascii c in (n < 48)%nat \/ (57 < n)%nat | [] => True end -> readNum lim (ws ++ dec z ++ b)%list = Some (z, b).
Proof.
  intros lim ws z b Hz Hw Hb.
  assert (Eb : ends b). { destruct b as [|c b]; [exact I|]. cbn. unfold isDigit. cbv zeta. destruct (Nat.leb_spec 48 (nat_of_ascii c)); [|reflexivity]. destruct (Nat.leb_spec (nat_of_ascii c) 57); [|reflexivity]. cbv zeta in Hb. lia. }
  etransitivity; [|exact (readNum_dec lim z b Hz Eb)]. unfold readNum.
  rewrite (span_app isSpace ws (dec z ++ b) (whites_space ws Hw)).
  - rewrite (span_space_digits z b) by (lia || exact Eb). reflexivity.
  - pose proof (dec_digits z ltac:(lia)) as D. pose proof (dec_nonnil z) as N. destruct (dec z) as [|c t]; [contradiction|]. inversion D as [|? ? (A & B)]; subst. exact B.
Qed.
Lemma no_number_ok : forall lim ws b, whites ws ->
  match b with c :: _ => let n := nat_of_ascii c in (n < 9 \/ 13 < n < 32 \/ 32 < n < 48 \/ 57 < n)%nat | [] => True end -> readNum lim (ws ++ b)%list = None.
Proof.
  intros lim ws b Hw Hb. unfold readNum. rewrite (span_app isSpace ws b (whites_space ws Hw)).
  - cbn [snd]. destruct b as [|c b]; [reflexivity|]. cbn [span]. assert (isDigit c = false) as ->; [|reflexivity].
    unfold isDigit. cbv zeta in *. destruct (Nat.leb_spec 48 (nat_of_ascii c)); [|reflexivity]. destruct (Nat.leb_spec (nat_of_ascii c) 57); [lia|reflexivity].
  - destruct b as [|c b]; [exact I|]. unfold isSpace. cbv zeta in *. destruct (Nat.eqb_spec (nat_of_ascii c) 32); [lia|].
    destruct (Nat.leb_spec 9 (nat_of_ascii c)); [|reflexivity]. destruct (Nat.leb_spec (nat_of_ascii c) 13); [lia|reflexivity].
Qed.
