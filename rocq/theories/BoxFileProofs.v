(** Reading the file of the simulation box. *)
From Coq Require Import List ZArith Reals Bool Lia Lra String.
From Flocq Require Import Core BinarySingleNaN Relative.
From Verif Require Import Outcome F64 IndexModel IndexProofs ParticleModel VecModel AscModel AscSpec AscNum AscText BoxFileModel BoxFileSpec.
Import ListNotations.
Local Notation length := List.length.
Local Open Scope Z_scope.

Lemma dec6_ok n d : 0 < n -> 0 < d -> let (M, X) := dec6 n d in
  10 ^ 5 <= M < 10 ^ 6 /\ decExp n d <= X <= decExp n d + 1 /\ (IZR M - / 2 <= IZR n / IZR d * p10 (5 - X))%R /\
  (Rabs (IZR M * p10 (X - 5) - IZR n / IZR d) <= IZR n / IZR d / 200000)%R.
Proof.
  intros Hn Hd. pose proof (decExp_ok n d Hn Hd) as [A B]. unfold dec6. cbv zeta.
  pose proof (scaledInt_err n d (5 - decExp n d) Hn Hd) as E. set (X := decExp n d) in *. set (x := (IZR n / IZR d)%R) in *.
  set (M := scaledInt n d (5 - X)) in *.
  assert (P7 : p10 5 = 100000%R) by reflexivity. assert (P8 : p10 6 = 1000000%R) by reflexivity.
  assert (Q1 : (100000 <= x * p10 (5 - X))%R).
  { rewrite <- P7. replace 5 with (X + (5 - X)) at 1 by lia. rewrite bpow_plus. apply Rmult_le_compat_r; [apply bpow_ge_0|exact A]. }
  assert (Q2 : (x * p10 (5 - X) < 1000000)%R).
  { rewrite <- P8. replace 6 with ((X + 1) + (5 - X)) at 1 by lia. rewrite bpow_plus. apply Rmult_lt_compat_r; [apply bpow_gt_0|exact B]. }
  apply Rabs_le_inv in E.
  assert (M1 : 100000 <= M). { assert (99999 < M); [|lia]. apply lt_IZR. lra. }
  assert (M2 : M <= 1000000). { assert (M < 1000001); [|lia]. apply lt_IZR. lra. }
  assert (XE : (Rabs (IZR M * p10 (X - 5) - x) <= x / 200000)%R).
  { replace (IZR M * p10 (X - 5) - x)%R with ((IZR M - x * p10 (5 - X)) * p10 (X - 5))%R.
    2:{ rewrite Rmult_minus_distr_r, Rmult_assoc, <- bpow_plus. replace (5 - X + (X - 5)) with 0 by lia. cbn [bpow]. ring. }
    rewrite Rabs_mult, (Rabs_pos_eq (p10 _)) by apply bpow_ge_0.
    apply Rle_trans with (/ 2 * p10 (X - 5))%R; [apply Rmult_le_compat_r; [apply bpow_ge_0|apply Rabs_le; lra]|].
    assert (p10 (X - 5) <= x / 100000)%R; [|lra].
    replace (X - 5) with (X + - (5)) by lia. rewrite bpow_plus, bpow_opp, P7. unfold Rdiv. apply Rmult_le_compat_r; lra. }
  destruct (Z.eqb_spec M (10 ^ 6)) as [Z|Z].
  - split; [lia|]. split; [lia|]. split.
    { replace (5 - (X + 1)) with ((5 - X) + (-1)) by lia. rewrite bpow_plus. change (p10 (-1)) with (/ 10)%R. rewrite Z in E. change (10 ^ 6) with 1000000 in E. change (10 ^ 5) with 100000.
      rewrite <- Rmult_assoc. lra. }
    rewrite Z in XE. replace (IZR (10 ^ 5) * p10 (X + 1 - 5))%R with (IZR (10 ^ 6) * p10 (X - 5))%R; [exact XE|].
    replace (X + 1 - 5) with (1 + (X - 5)) by lia. rewrite bpow_plus. change (p10 1) with 10%R. change (10 ^ 6) with (10 ^ 5 * 10). rewrite mult_IZR. ring.
  - change (10 ^ 6) with 1000000 in *. split; [change (10 ^ 5) with 100000; lia|]. split; [lia|]. split; [lra|]. exact XE.
Qed.
Lemma fmtDec6_shape M X : 10 ^ 5 <= M < 10 ^ 6 -> Z.abs X < 1000 ->
  exists ip fp ext ex, fmtDec6 M X = pointed ip fp ++ ext /\ ip <> [] /\ Forall dig ip /\ Forall dig fp /\ expPart ext ex /\
    (IZR (digitsValue (ip ++ fp)) * p10 (ex - Z.of_nat (length fp)) = IZR M * p10 (X - 5))%R.
Proof.
  intros HM HX. unfold fmtDec6. cbv zeta. set (ds := digitsN 6 M).
  assert (L : length ds = 6%nat) by apply digitsN_length. assert (D : Forall dig ds) by apply digitsN_dig.
  assert (V : digitsValue ds = M) by (apply digitsN_value; change (10 ^ Z.of_nat 6) with (10 ^ 6); lia).
  clearbody ds. assert (FS : forall k, Forall dig (firstn k ds) /\ Forall dig (skipn k ds)).
  { intros k. rewrite <- (firstn_skipn k ds) in D. apply Forall_app in D. exact D. }
  destruct (Z.leb_spec (-4) X) as [H1|H1]; cbn [andb]; [destruct (Z.ltb_spec X 6) as [H2|H2]|].
  - destruct (Z.ltb_spec X 0) as [H3|H3].
    + exists [48], (repeat 48 (Z.to_nat (- X - 1)) ++ ds), [], 0. rewrite app_nil_r. split; [reflexivity|]. split; [discriminate|].
      split; [constructor; [unfold dig; lia|constructor]|]. split.
      { apply Forall_app. split; [|exact D]. apply Forall_forall. intros c Hc. apply repeat_spec in Hc. subst. unfold dig. lia. }
      split; [left; split; reflexivity|].
      change ([48] ++ repeat 48 (Z.to_nat (- X - 1)) ++ ds) with (repeat 48 (S (Z.to_nat (- X - 1))) ++ ds).
      rewrite digitsValue_app, zeros_value, V, app_length, repeat_length, L. f_equal; f_equal; lia.
    + exists (firstn (Z.to_nat (X + 1)) ds), (skipn (Z.to_nat (X + 1)) ds), [], 0. rewrite app_nil_r. split; [reflexivity|]. split.
      { intros E. apply (f_equal (@length Z)) in E. rewrite firstn_length, L in E. cbn [length] in E. lia. }
      destruct (FS (Z.to_nat (X + 1))) as [F1 F2]. split; [exact F1|]. split; [exact F2|]. split; [left; split; reflexivity|].
      rewrite firstn_skipn, V, skipn_length, L. f_equal; f_equal; lia.
  - exists (firstn 1 ds), (skipn 1 ds), (101 :: (if X <? 0 then 45 else 43) :: digitsN (if Z.abs X <? 100 then 2 else 3) (Z.abs X)), X.
    split; [reflexivity|]. destruct (FS 1%nat) as [F1 F2].
    split; [intros E; apply (f_equal (@length Z)) in E; rewrite firstn_length, L in E; discriminate E|]. split; [exact F1|]. split; [exact F2|]. split.
    { right. do 2 eexists. split; [reflexivity|]. split; [destruct (Z.abs X <? 100); intros E; apply (f_equal (@length Z)) in E; rewrite digitsN_length in E; discriminate E|].
      split; [apply digitsN_dig|]. right. destruct (Z.ltb_spec X 0); [lia|]. split; [reflexivity|]. rewrite digitsN_value; [lia|].
      destruct (Z.ltb_spec (Z.abs X) 100); [change (10 ^ Z.of_nat 2) with 100|change (10 ^ Z.of_nat 3) with 1000]; lia. }
    rewrite firstn_skipn, V, skipn_length, L. f_equal; f_equal; lia.
  - exists (firstn 1 ds), (skipn 1 ds), (101 :: (if X <? 0 then 45 else 43) :: digitsN (if Z.abs X <? 100 then 2 else 3) (Z.abs X)), X.
    split; [reflexivity|]. destruct (FS 1%nat) as [F1 F2].
    split; [intros E; apply (f_equal (@length Z)) in E; rewrite firstn_length, L in E; discriminate E|]. split; [exact F1|]. split; [exact F2|]. split.
    { right. do 2 eexists. split; [reflexivity|]. split; [destruct (Z.abs X <? 100); intros E; apply (f_equal (@length Z)) in E; rewrite digitsN_length in E; discriminate E|].
      split; [apply digitsN_dig|]. left. destruct (Z.ltb_spec X 0); [|lia]. split; [reflexivity|]. rewrite digitsN_value; [lia|].
      destruct (Z.ltb_spec (Z.abs X) 100); [change (10 ^ Z.of_nat 2) with 100|change (10 ^ Z.of_nat 3) with 1000]; lia. }
    rewrite firstn_skipn, V, skipn_length, L. f_equal; f_equal; lia.
Qed.
Lemma printed_range6 n d : 0 < n -> 0 < d -> (bpow radix2 (-1074) <= IZR n / IZR d <= B2R dblMax)%R -> let (M, X) := dec6 n d in
  Z.abs X < 1000 /\ (Rabs (rnd64 (IZR M * p10 (X - 5))) < bpow radix2 emax64)%R.
Proof.
  intros Hn Hd [A B]. pose proof (dec6_ok n d Hn Hd) as K. pose proof (decExp_ok n d Hn Hd) as [D1 D2].
  destruct (dec6 n d) as [M X]. destruct K as (HM & HX & Hh & HE). set (x := (IZR n / IZR d)%R) in *.
  change (10 ^ 5) with 100000 in HM. change (10 ^ 6) with 1000000 in HM.
  rewrite B2R_dblMax, <- (IZR_Zpower radix2 971), <- mult_IZR in B by lia.
  assert (B1 : (x < p10 309)%R). { eapply Rle_lt_trans; [exact B|]. rewrite p10_Z by lia. apply IZR_lt. vm_compute. reflexivity. }
  assert (B2 : (p10 (-324) < x)%R).
  { eapply Rlt_le_trans; [|exact A]. change (-324) with (- (324)). rewrite p10_neg by lia. change (-1074) with (- (1074)). rewrite bpow_opp, <- (IZR_Zpower radix2 1074) by lia.
    apply Rinv_lt_contravar; [|apply IZR_lt; vm_compute; reflexivity]. apply Rmult_lt_0_compat; apply IZR_lt; vm_compute; reflexivity. }
  pose proof (p10_lt_inv _ _ (Rle_lt_trans _ _ _ D1 B1)). pose proof (p10_lt_inv _ _ (Rlt_trans _ _ _ B2 D2)).
  split; [lia|].
  assert (BD : (IZR M * p10 (X - 5) <= IZR (179769 * 10 ^ 303))%R).
  { assert (MR1 : (100000 <= IZR M)%R) by (apply IZR_le; lia). assert (MR2 : (IZR M <= 999999)%R) by (apply IZR_le; lia).
    assert (C : X <= 307 \/ X = 308 \/ X = 309) by lia. destruct C as [C|[C|C]].
    - apply Rle_trans with (p10 6 * p10 (X - 5))%R; [apply Rmult_le_compat_r; [apply bpow_ge_0|change (p10 6) with 1000000%R; lra]|].
      rewrite <- bpow_plus. apply Rle_trans with (p10 308); [apply bpow_le; lia|]. rewrite p10_Z by lia. apply IZR_le. vm_compute. discriminate.
    - subst X. change (308 - 5) with 303. rewrite mult_IZR, <- p10_Z by lia. apply Rmult_le_compat_r; [apply bpow_ge_0|]. apply IZR_le.
      assert (M < 179770); [|lia]. apply lt_IZR.
      assert (x * p10 (5 - 308) < 179769 + / 2)%R; [|lra]. change (5 - 308) with (- (303)). rewrite p10_neg by lia.
      assert (P : (0 < IZR (10 ^ 303))%R) by (apply IZR_lt; vm_compute; reflexivity).
      apply (Rmult_lt_reg_r (IZR (10 ^ 303))); [exact P|]. rewrite Rmult_assoc, Rinv_l, Rmult_1_r by lra.
      eapply Rle_lt_trans; [exact B|]. replace ((179769 + / 2) * IZR (10 ^ 303))%R with (IZR (359539 * 10 ^ 303) / 2)%R by (rewrite mult_IZR; lra).
      apply (Rmult_lt_reg_r 2); [lra|]. unfold Rdiv. rewrite Rmult_assoc, Rinv_l, Rmult_1_r by lra. rewrite <- mult_IZR. apply IZR_lt. vm_compute. reflexivity.
    - exfalso. subst X. change (5 - 309) with (- (304)) in Hh. rewrite p10_neg in Hh by lia.
      assert (P : (0 < IZR (10 ^ 304))%R) by (apply IZR_lt; vm_compute; reflexivity).
      assert (x * / IZR (10 ^ 304) < 99999)%R; [|lra].
      apply (Rmult_lt_reg_r (IZR (10 ^ 304))); [exact P|]. rewrite Rmult_assoc, Rinv_l, Rmult_1_r by lra.
      eapply Rle_lt_trans; [exact B|]. rewrite <- mult_IZR. apply IZR_lt. vm_compute. reflexivity. }
  assert (MP : (0 <= IZR M)%R) by (apply IZR_le; lia).
  rewrite Rabs_pos_eq.
  2:{ replace 0%R with (rnd64 0) by apply rnd64_id, generic_format_0. apply rnd64_mono. apply Rmult_le_pos; [exact MP|apply bpow_ge_0]. }
  apply Rle_lt_trans with (B2R dblMax).
  - rewrite <- (rnd64_id (B2R dblMax)) by apply f_format. apply rnd64_mono. eapply Rle_trans; [exact BD|].
    rewrite B2R_dblMax, <- (IZR_Zpower radix2 971), <- mult_IZR by lia. apply IZR_le. vm_compute. discriminate.
  - rewrite B2R_dblMax, <- (IZR_Zpower radix2 971), <- mult_IZR by lia. unfold emax64. rewrite <- (IZR_Zpower radix2 1024) by lia. apply IZR_lt. vm_compute. reflexivity.
Qed.
Lemma read_printed6 s m e H rest : stops rest -> let v := B754_finite s m e H : f64 in let (n, d) := ratio m e in let (M, X) := dec6 n d in
  exists v', readDouble (32 :: fmtG6 v ++ rest) = (Some v', true, rest) /\ is_finite v' = true /\
    B2R v' = (if s then - rnd64 (IZR M * p10 (X - 5)) else rnd64 (IZR M * p10 (X - 5)))%R.
Proof.
  intros HR v. unfold v, fmtG6. pose proof (ratio_ok m e) as RO. destruct (ratio m e) as [n d]. destruct RO as (Hn & Hd & RE).
  pose proof (dec6_ok n d Hn Hd) as K. pose proof (printed_range6 n d Hn Hd) as PR. rewrite RE in PR. specialize (PR (proj1 (finite_range s m e H))).
  destruct (dec6 n d) as [M X]. destruct K as (HM & _). destruct PR as [HX HO].
  destruct (fmtDec6_shape M X HM HX) as (ip & fp & ext & ex & E1 & E2 & E3 & E4 & E5 & E6).
  rewrite E1. rewrite <- app_assoc. pose proof (strip_value ip fp ex) as SV. rewrite E6 in SV.
  assert (NP : 0 < digitsValue (ip ++ stripZeros fp)).
  { apply lt_IZR. apply (Rmult_lt_reg_r (p10 (ex - Z.of_nat (length (stripZeros fp))))); [apply bpow_gt_0|]. rewrite SV, Rmult_0_l.
    apply Rmult_lt_0_compat; [apply IZR_lt; lia|apply bpow_gt_0]. }
  pose proof (strtod_ok s _ (ex - Z.of_nat (length (stripZeros fp))) NP) as SO. cbv zeta in SO. rewrite SV in SO. specialize (SO HO). destruct SO as [S1 S2].
  eexists. split; [|split; [exact S1|exact S2]]. apply read_pointed; assumption.
Qed.
Lemma read_zero6 s rest : stops rest -> readDouble (32 :: fmtG6 (B754_zero s) ++ rest) = (Some (B754_zero s), true, rest).
Proof.
  intros HR. pose proof (read_pointed s [48] [] [] 0 rest) as K. cbn [fmtG6]. rewrite <- app_assoc.
  apply K; try reflexivity; try discriminate; [repeat constructor; unfold dig; lia|constructor|left; split; reflexivity|exact HR].
Qed.

(** the digits printed are the nearest ones *)
Lemma nearestInt_E n d : 0 < d -> nearestInt n d = ZnearestE (IZR n / IZR d).
Proof.
  intros Hd. assert (HD : (0 < IZR d)%R) by (apply IZR_lt; lia).
  pose proof (Z.div_mod n d ltac:(lia)) as E. pose proof (Z.mod_pos_bound n d Hd) as B.
  assert (F : (IZR n / IZR d - IZR (n / d) = IZR (n mod d) / IZR d)%R).
  { rewrite E at 1. rewrite plus_IZR, mult_IZR. field. lra. }
  unfold Znearest, nearestInt. rewrite Zfloor_div by lia. cbv zeta. rewrite F. set (q := n / d) in *. set (r := n mod d) in *.
  assert (K : forall a b : Z, (IZR a / IZR d < IZR b / 2)%R -> 2 * a < b * d).
  { intros a b H. apply lt_IZR. rewrite !mult_IZR. apply (Rmult_lt_compat_r (IZR d)) in H; [|exact HD].
    unfold Rdiv in H. rewrite Rmult_assoc, Rinv_l, Rmult_1_r in H by lra. lra. }
  assert (K' : forall a b : Z, (IZR b / 2 < IZR a / IZR d)%R -> b * d < 2 * a).
  { intros a b H. apply lt_IZR. rewrite !mult_IZR. apply (Rmult_lt_compat_r (IZR d)) in H; [|exact HD].
    unfold Rdiv in H. rewrite (Rmult_assoc (IZR a)), Rinv_l, Rmult_1_r in H by lra. lra. }
  assert (UP : (IZR r / IZR d > 0)%R -> Zceil (IZR n / IZR d) = q + 1).
  { intros P. apply Zceil_imp. rewrite plus_IZR. replace (q + 1 - 1) with q by lia.
    assert (IZR n / IZR d = IZR q + IZR r / IZR d)%R by lra.
    assert (IZR r / IZR d < 1)%R. { apply (Rmult_lt_reg_r (IZR d)); [exact HD|]. unfold Rdiv. rewrite Rmult_assoc, Rinv_l, Rmult_1_r by lra. rewrite Rmult_1_l. apply IZR_lt. lia. }
    split; lra. }
  destruct (Rcompare_spec (IZR r / IZR d) (/ 2)) as [H|H|H].
  - specialize (K r 1 ltac:(lra)). destruct (Z.ltb_spec (2 * r) d); [reflexivity|lia].
  - assert (H2 : 2 * r = d). { apply eq_IZR. rewrite mult_IZR. apply (Rmult_eq_compat_r (IZR d)) in H. unfold Rdiv in H. rewrite Rmult_assoc, Rinv_l in H by lra. lra. }
    destruct (Z.ltb_spec (2 * r) d); [lia|]. destruct (Z.ltb_spec d (2 * r)); [lia|]. rewrite UP by lra. destruct (Z.even q); reflexivity.
  - specialize (K' r 1 ltac:(lra)). destruct (Z.ltb_spec (2 * r) d); [lia|]. destruct (Z.ltb_spec d (2 * r)); [|lia]. rewrite UP by lra. reflexivity.
Qed.
Lemma scaledInt_E n d s : 0 < n -> 0 < d -> scaledInt n d s = ZnearestE (IZR n / IZR d * p10 s).
Proof.
  intros Hn Hd. assert (HD : (0 < IZR d)%R) by (apply IZR_lt; lia). unfold scaledInt. destruct (Z.leb_spec 0 s) as [H|H].
  - rewrite p10_Z by exact H. rewrite nearestInt_E by exact Hd. f_equal. rewrite mult_IZR. field. lra.
  - assert (P : 0 < 10 ^ (- s)) by (apply Z.pow_pos_nonneg; lia). assert (PR : (0 < IZR (10 ^ (- s)))%R) by (apply IZR_lt; lia).
    replace s with (- - s) at 2 by lia. rewrite p10_neg by lia. rewrite nearestInt_E by nia. f_equal. rewrite mult_IZR. field. lra.
Qed.
Lemma dec6_value n d : 0 < n -> 0 < d -> let (M, X) := dec6 n d in (IZR M * p10 (X - 5) = sixDigits (IZR n / IZR d))%R.
Proof.
  intros Hn Hd. destruct (decExp_ok n d Hn Hd) as [A B]. unfold dec6. cbv zeta. set (X := decExp n d) in *.
  assert (X0 : (0 < IZR n / IZR d)%R) by (apply Rdiv_lt_0_compat; apply IZR_lt; lia).
  assert (MG : mag radix10 (IZR n / IZR d) = X + 1 :> Z).
  { apply mag_unique. rewrite Rabs_pos_eq by lra. replace (X + 1 - 1) with X by lia. split; assumption. }
  assert (SD : sixDigits (IZR n / IZR d) = (IZR (scaledInt n d (5 - X)) * p10 (X - 5))%R).
  { unfold sixDigits, round, scaled_mantissa, cexp, F2R, FLX_exp. cbn [Fnum Fexp]. rewrite MG. rewrite scaledInt_E by assumption.
    replace (X + 1 - 6) with (X - 5) by lia. replace (- (X - 5)) with (5 - X) by lia. reflexivity. }
  rewrite SD. destruct (Z.eqb_spec (scaledInt n d (5 - X)) (10 ^ 6)) as [E|E]; [|reflexivity].
  rewrite E. replace (X + 1 - 5) with (1 + (X - 5)) by lia. rewrite bpow_plus. change (p10 1) with 10%R. change (10 ^ 6) with (10 ^ 5 * 10). rewrite mult_IZR. ring.
Qed.
Local Instance six_pos : Prec_gt_0 6. Proof. reflexivity. Qed.
Lemma sixDigits_opp x : sixDigits (- x) = (- sixDigits x)%R. Proof. apply round_NE_opp. Qed.
Lemma sixDigits_0 : sixDigits 0 = 0%R. Proof. apply round_0. typeclasses eauto. Qed.
Lemma sixDigits_mono x y : (x <= y)%R -> (sixDigits x <= sixDigits y)%R. Proof. apply round_le; typeclasses eauto. Qed.
Lemma sixDigits_err x : (Rabs (sixDigits x - x) <= Rabs x / 200000)%R.
Proof.
  pose proof (relative_error_N_FLX radix10 6 ltac:(lia) (fun z => negb (Z.even z)) x) as H.
  unfold sixDigits. eapply Rle_trans; [exact H|]. change (bpow radix10 (Z.opp 6 + 1)) with (/ 100000)%R. pose proof (Rabs_pos x). lra.
Qed.

Lemma read_ok v rest : is_finite v = true -> stops rest -> exists v', readDouble (32 :: fmtG6 v ++ rest) = (Some v', true, rest) /\ shown v v'.
Proof.
  intros HF HR. destruct v as [s|s| |s m e H]; try discriminate HF.
  - exists (B754_zero s). split; [apply read_zero6, HR|]. split; [reflexivity|]. cbn [B2R]. rewrite sixDigits_0. symmetry. apply rnd64_id, generic_format_0.
  - pose proof (read_printed6 s m e H rest HR) as K. cbv zeta in K. pose proof (ratio_ok m e) as RO. destruct (ratio m e) as [n d]. destruct RO as (Hn & Hd & RE).
    pose proof (dec6_value n d Hn Hd) as D. destruct (dec6 n d) as [M X]. rewrite RE in D.
    destruct K as (v' & E1 & E2 & E3). exists v'. split; [exact E1|]. split; [exact E2|].
    destruct (finite_range s m e H) as (_ & R2). rewrite R2, E3, D. destruct s; [|reflexivity]. rewrite sixDigits_opp. symmetry. apply round_NE_opp.
Qed.
Lemma stops_space r : stops (32 :: r). Proof. cbn. repeat split; try lia; reflexivity. Qed.
Lemma stops_nl r : stops (10 :: r). Proof. cbn. repeat split; try lia; reflexivity. Qed.
Lemma two_ok a b rest : is_finite a = true -> is_finite b = true ->
  exists a' b', twoNumbers (10 :: boundsLine a b ++ rest) = Some (a', b', rest) /\ shown a a' /\ shown b b'.
Proof.
  intros HA HB. destruct (read_ok a (32 :: fmtG6 b ++ 10 :: rest) HA (stops_space _)) as (a' & EA & SA).
  destruct (read_ok b (10 :: rest) HB (stops_nl _)) as (b' & EB & SB). exists a', b'. split; [|split; assumption].
  unfold twoNumbers, boundsLine.
  replace (10 :: (fmtG6 a ++ 32 :: fmtG6 b ++ [10]) ++ rest) with (10 :: fmtG6 a ++ 32 :: fmtG6 b ++ 10 :: rest).
  2:{ f_equal. rewrite <- app_assoc. f_equal. cbn [app]. f_equal. rewrite <- app_assoc. reflexivity. }
  change (readDouble (10 :: fmtG6 a ++ 32 :: fmtG6 b ++ 10 :: rest)) with (readDouble (32 :: fmtG6 a ++ 32 :: fmtG6 b ++ 10 :: rest)).
  rewrite EA, EB. reflexivity.
Qed.
Lemma expect_app t l : expect t (t ++ l) = Some l.
Proof. induction t as [|c t IH]; [reflexivity|]. cbn [app expect]. rewrite Z.eqb_refl. exact IH. Qed.
Lemma axis_ok name a b rest : is_finite a = true -> is_finite b = true ->
  exists a' b', axisOf name (codes name ++ codes "_COORDINATES 2 float" ++ 10 :: boundsLine a b ++ rest) = Some (a', b', rest) /\ shown a a' /\ shown b b'.
Proof. intros HA HB. unfold axisOf. rewrite app_assoc, expect_app. cbn [bind]. apply two_ok; assumption. Qed.

Theorem box_ok low high : finite3 low -> finite3 high ->
  exists t low' high', writeBox true low high = Done t /\ readVtk t = Some (low', high') /\ shown3 low low' /\ shown3 high high'.
Proof.
  intros (LX & LY & LZ) (HX & HY & HZ). unfold writeBox. eexists.
  set (tail := codes "CELL_DATA 1" ++ (10 :: codes "POINT_DATA 8") ++ [10] ++ []).
  destruct (axis_ok "Z" (vz low) (vz high) tail LZ HZ) as (z0 & z1 & EZ & SZ0 & SZ1).
  destruct (axis_ok "Y" (vy low) (vy high) (codes "Z" ++ codes "_COORDINATES 2 float" ++ 10 :: boundsLine (vz low) (vz high) ++ tail) LY HY) as (y0 & y1 & EY & SY0 & SY1).
  destruct (axis_ok "X" (vx low) (vx high) (codes "Y" ++ codes "_COORDINATES 2 float" ++ 10 :: boundsLine (vy low) (vy high) ++ codes "Z" ++ codes "_COORDINATES 2 float" ++ 10 :: boundsLine (vz low) (vz high) ++ tail) LX HX) as (x0 & x1 & EX & SX0 & SX1).
  exists (Vec x0 y0 z0), (Vec x1 y1 z1). split; [reflexivity|]. split; [|split; repeat split; cbn [vx vy vz]; first [apply SX0|apply SX1|apply SY0|apply SY1|apply SZ0|apply SZ1]].
  set (b1 := boundsLine (vx low) (vx high)) in *. set (b2 := boundsLine (vy low) (vy high)) in *. set (b3 := boundsLine (vz low) (vz high)) in *. clearbody b1 b2 b3.
  match goal with |- readVtk ?t = _ => replace t with (codes "# vtk DataFile Version " ++ codes "3.0" ++ 10 :: codes "vtk file" ++ 10 :: codes "ASCII" ++ (10 :: codes "DATASET RECTILINEAR_GRID") ++
    (10 :: codes "DIMENSIONS 2 2 2") ++ [10] ++ codes "X" ++ codes "_COORDINATES 2 float" ++ 10 :: b1 ++ codes "Y" ++ codes "_COORDINATES 2 float" ++ 10 :: b2 ++ codes "Z" ++ codes "_COORDINATES 2 float" ++ 10 :: b3 ++ tail) end.
  2:{ unfold textLine, tail. cbn. reflexivity. }
  unfold readVtk. rewrite expect_app. cbn [bind].
  assert (N1 : forall l, nextLine (codes "3.0" ++ 10 :: l) = Some l) by reflexivity.
  assert (N2 : forall l, nextLine (codes "vtk file" ++ 10 :: l) = Some l) by reflexivity.
  rewrite N1. cbn [bind]. rewrite N2. cbn [bind]. rewrite expect_app. cbn [bind]. rewrite expect_app. cbn [bind]. rewrite expect_app. cbn [bind]. rewrite expect_app. cbn [bind].
  rewrite EX. cbn [bind]. rewrite EY. cbn [bind]. rewrite EZ. cbn [bind]. unfold tail. rewrite expect_app. cbn [bind]. rewrite expect_app. cbn [bind]. rewrite expect_app. reflexivity.
Qed.

Lemma shown_mono a b a' b' : shown a a' -> shown b b' -> (B2R a <= B2R b)%R -> (B2R a' <= B2R b')%R.
Proof. intros (_ & EA) (_ & EB) H. rewrite EA, EB. apply rnd64_mono, sixDigits_mono, H. Qed.
Lemma shown_err v v' : shown v v' -> (Rabs (B2R v' - B2R v) <= Rabs (B2R v) / 100000 + bpow radix2 (-1074))%R.
Proof.
  intros (_ & E). rewrite E. set (x := B2R v). pose proof (sixDigits_err x) as S. set (D := sixDigits x) in *.
  pose proof (rnd64_err D) as ER. pose proof (Rabs_pos x) as XP.
  assert (P53 : (bpow radix2 (-53) <= / 1000000000)%R).
  { change (-53) with (- (53)). rewrite bpow_opp, <- (IZR_Zpower radix2 53) by lia. apply Rinv_le; [lra|]. apply IZR_le. vm_compute. discriminate. }
  assert (P75 : (bpow radix2 (-1075) <= bpow radix2 (-1074))%R) by (apply bpow_le; lia).
  assert (AD : (Rabs D <= 2 * Rabs x)%R). { replace D with (x + (D - x))%R by ring. eapply Rle_trans; [apply Rabs_triang|]. lra. }
  assert (bpow radix2 (-53) * Rabs D <= / 1000000000 * (2 * Rabs x))%R by (apply Rmult_le_compat; [apply bpow_ge_0|apply Rabs_pos|exact P53|exact AD]).
  replace (rnd64 D - x)%R with ((rnd64 D - D) + (D - x))%R by ring. eapply Rle_trans; [apply Rabs_triang|]. lra.
Qed.

Lemma flat_box : exists low high t low' high', finite3 low /\ finite3 high /\ (B2R (vx low) + 1 = B2R (vx high))%R /\
  writeBox true low high = Done t /\ readVtk t = Some (low', high') /\ (B2R (vx low') = B2R (vx high'))%R.
Proof.
  set (a := f_lit 1000000 0). set (b := f_lit 1000001 0).
  assert (RA : B2R a = 1000000%R). { rewrite <- (SF2R_B2SF _ _ a). replace (B2SF a) with (SpecFloat.S754_finite false 8589934592000000 (-33)) by (vm_compute; reflexivity). unfold SF2R, F2R; cbn; lra. }
  assert (RB : B2R b = 1000001%R). { rewrite <- (SF2R_B2SF _ _ b). replace (B2SF b) with (SpecFloat.S754_finite false 8589943181934592 (-33)) by (vm_compute; reflexivity). unfold SF2R, F2R; cbn; lra. }
  assert (FA : is_finite a = true) by (vm_compute; reflexivity). assert (FB : is_finite b = true) by (vm_compute; reflexivity).
  destruct (box_ok (Vec a a a) (Vec b b b)) as (t & l & h & E1 & E2 & S1 & S2); [repeat split; exact FA|repeat split; exact FB|].
  exists (Vec a a a), (Vec b b b), t, l, h. split; [repeat split; exact FA|]. split; [repeat split; exact FB|]. cbn [vx] in *.
  split; [rewrite RA, RB; lra|]. split; [exact E1|]. split; [exact E2|].
  destruct S1 as ((_ & S1) & _). destruct S2 as ((_ & S2) & _). cbn [vx] in S1, S2. rewrite S1, S2. f_equal. rewrite RA, RB.
  pose proof (dec6_value 1000000 1 eq_refl eq_refl) as D1. pose proof (dec6_value 1000001 1 eq_refl eq_refl) as D2.
  replace (dec6 1000000 1) with (100000, 6) in D1 by (vm_compute; reflexivity). replace (dec6 1000001 1) with (100000, 6) in D2 by (vm_compute; reflexivity).
  unfold Rdiv in D1, D2. rewrite Rinv_1, Rmult_1_r in D1, D2. rewrite <- D1, <- D2. reflexivity.
Qed.
Lemma wide_box v w v' w' : shown v v' -> shown w w' ->
  ((Rabs (B2R v) + Rabs (B2R w)) / 100000 + 2 * bpow radix2 (-1074) < B2R w - B2R v)%R -> (B2R v' < B2R w')%R.
Proof. intros A B H. apply shown_err in A, B. apply Rabs_le_inv in A, B. lra. Qed.
