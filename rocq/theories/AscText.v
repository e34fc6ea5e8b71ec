(** Reading what was printed. *)
From Coq Require Import List ZArith Reals Bool Lia Lra.
From Flocq Require Import Core BinarySingleNaN Relative.
From Verif Require Import F64 IndexModel IndexProofs AscModel AscSpec AscNum.
Import ListNotations.
Local Open Scope Z_scope.

Definition stops (l : list Z) : Prop := match l with [] => True | c :: _ => isDigit c = false /\ c <> 46 /\ c <> 101 /\ c <> 69 end.
Definition stopsDigits (l : list Z) : Prop := match l with [] => True | c :: _ => isDigit c = false end.

Lemma dig_space c r : dig c -> skipWs (c :: r) = c :: r.
Proof.
  unfold dig. intros H. cbn [skipWs]. unfold isSpace. destruct (Z.eqb_spec c 32); [lia|].
  destruct (Z.leb_spec 9 c); [|lia]. destruct (Z.leb_spec c 13); [lia|]. reflexivity.
Qed.
Lemma dig_isDigit c : dig c -> isDigit c = true. Proof. apply isDigit_true. Qed.

(** the exponent part *)
Definition expPart (ext : list Z) (ex : Z) : Prop :=
  (ext = [] /\ ex = 0) \/
  exists c ds, ext = 101 :: c :: ds /\ ds <> [] /\ Forall dig ds /\ ((c = 45 /\ ex = - digitsValue ds) \/ (c = 43 /\ ex = digitsValue ds)).

Lemma takeExponent_ok ext ex rest : expPart ext ex -> stops rest -> takeExponent (ext ++ rest) = (Some ex, rest).
Proof.
  intros [(-> & ->)|(c & ds & -> & Hne & HD & Hc)] HR.
  - cbn [app]. destruct rest as [|c r]; [reflexivity|]. cbn in HR. destruct HR as (_ & _ & A & B). cbn [takeExponent].
    destruct (Z.eqb_spec c 101); [lia|]. destruct (Z.eqb_spec c 69); [lia|]. reflexivity.
  - assert (HR' : match rest with [] => True | c :: _ => isDigit c = false end) by (destruct rest; [exact I|apply HR]).
    cbn [app takeExponent]. change ((101 =? 101) || (101 =? 69)) with true. cbv iota.
    destruct Hc as [(-> & ->)|(-> & ->)]; cbn [takeSign].
    + change (45 =? 45) with true. cbv iota. rewrite (takeDigits_app ds rest HD HR'). destruct ds; [contradiction|reflexivity].
    + change (43 =? 45) with false. change (43 =? 43) with true. cbv iota. rewrite (takeDigits_app ds rest HD HR'). destruct ds; [contradiction|reflexivity].
Qed.

Lemma takeSign_digit c r : dig c -> takeSign (c :: r) = (false, c :: r).
Proof. unfold dig. intros H. cbn [takeSign]. destruct (Z.eqb_spec c 45); [lia|]. destruct (Z.eqb_spec c 43); [lia|]. reflexivity. Qed.

Lemma read_pointed s ip fp ext ex rest : ip <> [] -> Forall dig ip -> Forall dig fp -> expPart ext ex -> stops rest ->
  let f := stripZeros fp in let v := strtod s (digitsValue (ip ++ f)) (ex - Z.of_nat (length f)) in
  is_finite v = true -> readDouble (32 :: fmtSign s ++ (pointed ip fp ++ ext) ++ rest) = (Some v, true, rest).
Proof.
  intros Hne HI HF HE HR f v Hv. pose proof (takeExponent_ok ext ex rest HE HR) as TE.
  assert (HFs : Forall dig f) by (apply strip_dig, HF).
  assert (HT : match ext ++ rest with [] => True | c :: _ => isDigit c = false /\ c <> 46 end).
  { destruct HE as [(-> & _)|(c & ds & -> & _)]; cbn [app]; [destruct rest; [exact I|]; cbn in HR; tauto|]. split; [reflexivity|lia]. }
  destruct ip as [|c ip]; [contradiction|]. pose proof (Forall_inv HI) as Hc.
  (* the text after the sign *)
  set (tail := match f with [] => [] | g => 46 :: g end ++ ext ++ rest).
  assert (ET : (pointed (c :: ip) fp ++ ext) ++ rest = (c :: ip) ++ tail).
  { unfold pointed, tail. fold f. rewrite <- !app_assoc. destruct f; reflexivity. }
  assert (TD : takeDigits ((c :: ip) ++ tail) = (c :: ip, tail)).
  { apply takeDigits_app; [exact HI|]. unfold tail. destruct f as [|g f']; cbn [app]; [destruct (ext ++ rest); [exact I|apply HT]|reflexivity]. }
  assert (TF : match tail with c :: r => if c =? 46 then takeDigits r else ([], tail) | [] => ([], []) end = (f, ext ++ rest)).
  { unfold tail. destruct f as [|g f'] eqn:Ef; cbn [app].
    - destruct (ext ++ rest) as [|c' r]; [reflexivity|]. destruct HT as [_ HT]. destruct (Z.eqb_spec c' 46); [lia|]. reflexivity.
    - change (46 =? 46) with true. cbv iota. change (g :: f' ++ ext ++ rest) with ((g :: f') ++ ext ++ rest). apply takeDigits_app; [exact HFs|].
      destruct (ext ++ rest); [exact I|apply HT]. }
  unfold readDouble. rewrite ET.
  assert (SW : skipWs (32 :: fmtSign s ++ (c :: ip) ++ tail) = fmtSign s ++ (c :: ip) ++ tail).
  { change (skipWs (fmtSign s ++ (c :: ip) ++ tail) = fmtSign s ++ (c :: ip) ++ tail). destruct s; [reflexivity|]. apply dig_space, Hc. }
  assert (TS : takeSign (fmtSign s ++ (c :: ip) ++ tail) = (s, (c :: ip) ++ tail)).
  { destruct s; [reflexivity|]. apply takeSign_digit, Hc. }
  rewrite SW. clear SW. destruct (fmtSign s ++ (c :: ip) ++ tail) as [|c0 l0] eqn:E0; [destruct s; discriminate E0|].
  rewrite TS, TD. rewrite TF. cbn [app]. change (c :: ip ++ f) with ((c :: ip) ++ f). rewrite TE. fold v. rewrite Hv. reflexivity.
Qed.

(** the text of eight digits is a decimal number of that value *)
Lemma fmtDec_shape M X : 10 ^ 7 <= M < 10 ^ 8 -> Z.abs X < 1000 ->
  exists ip fp ext ex, fmtDec M X = pointed ip fp ++ ext /\ ip <> [] /\ Forall dig ip /\ Forall dig fp /\ expPart ext ex /\
    (IZR (digitsValue (ip ++ fp)) * p10 (ex - Z.of_nat (length fp)) = IZR M * p10 (X - 7))%R.
Proof.
  intros HM HX. unfold fmtDec. cbv zeta. set (ds := digitsN 8 M).
  assert (L : length ds = 8%nat) by apply digitsN_length. assert (D : Forall dig ds) by apply digitsN_dig.
  assert (V : digitsValue ds = M) by (apply digitsN_value; change (10 ^ Z.of_nat 8) with (10 ^ 8); lia).
  clearbody ds. assert (FS : forall k, Forall dig (firstn k ds) /\ Forall dig (skipn k ds)).
  { intros k. rewrite <- (firstn_skipn k ds) in D. apply Forall_app in D. exact D. }
  destruct (Z.leb_spec (-4) X) as [H1|H1]; cbn [andb]; [destruct (Z.ltb_spec X 8) as [H2|H2]|].
  - destruct (Z.ltb_spec X 0) as [H3|H3].
    + exists [48], (repeat 48 (Z.to_nat (- X - 1)) ++ ds), [], 0. rewrite app_nil_r. split; [reflexivity|]. split; [discriminate|].
      split; [constructor; [unfold dig; lia|constructor]|]. split.
      { apply Forall_app. split; [|exact D]. apply Forall_forall. intros c Hc. apply repeat_spec in Hc. subst. unfold dig. lia. }
      split; [left; split; reflexivity|].
      change ([48] ++ repeat 48 (Z.to_nat (- X - 1)) ++ ds) with (repeat 48 (S (Z.to_nat (- X - 1))) ++ ds).
      rewrite digitsValue_app, zeros_value, V, app_length, repeat_length, L. f_equal; f_equal; lia.
    + exists (firstn (Z.to_nat (X + 1)) ds), (skipn (Z.to_nat (X + 1)) ds), [], 0. rewrite app_nil_r. split; [reflexivity|]. split.
      { intros E. apply (f_equal (@length Z)) in E. rewrite firstn_length, L in E. cbn [length] in E. lia. }
      destruct (FS (Z.to_nat (X + 1))) as [F1 F2]. split; [exact F1|]. split; [exact F2|]. split; [left; split; reflexivity|].
      rewrite firstn_skipn, V, skipn_length, L. f_equal; f_equal; lia.
  - exists (firstn 1 ds), (skipn 1 ds), (101 :: (if X <? 0 then 45 else 43) :: digitsN (if Z.abs X <? 100 then 2 else 3) (Z.abs X)), X.
    split; [reflexivity|]. destruct (FS 1%nat) as [F1 F2].
    split; [intros E; apply (f_equal (@length Z)) in E; rewrite firstn_length, L in E; discriminate E|]. split; [exact F1|]. split; [exact F2|]. split.
    { right. do 2 eexists. split; [reflexivity|]. split; [destruct (Z.abs X <? 100); intros E; apply (f_equal (@length Z)) in E; rewrite digitsN_length in E; discriminate E|].
      split; [apply digitsN_dig|]. right. destruct (Z.ltb_spec X 0); [lia|]. split; [reflexivity|]. rewrite digitsN_value; [lia|].
      destruct (Z.ltb_spec (Z.abs X) 100); [change (10 ^ Z.of_nat 2) with 100|change (10 ^ Z.of_nat 3) with 1000]; lia. }
    rewrite firstn_skipn, V, skipn_length, L. f_equal; f_equal; lia.
  - exists (firstn 1 ds), (skipn 1 ds), (101 :: (if X <? 0 then 45 else 43) :: digitsN (if Z.abs X <? 100 then 2 else 3) (Z.abs X)), X.
    split; [reflexivity|]. destruct (FS 1%nat) as [F1 F2].
    split; [intros E; apply (f_equal (@length Z)) in E; rewrite firstn_length, L in E; discriminate E|]. split; [exact F1|]. split; [exact F2|]. split.
    { right. do 2 eexists. split; [reflexivity|]. split; [destruct (Z.abs X <? 100); intros E; apply (f_equal (@length Z)) in E; rewrite digitsN_length in E; discriminate E|].
      split; [apply digitsN_dig|]. left. destruct (Z.ltb_spec X 0); [|lia]. split; [reflexivity|]. rewrite digitsN_value; [lia|].
      destruct (Z.ltb_spec (Z.abs X) 100); [change (10 ^ Z.of_nat 2) with 100|change (10 ^ Z.of_nat 3) with 1000]; lia. }
    rewrite firstn_skipn, V, skipn_length, L. f_equal; f_equal; lia.
Qed.

Lemma ratio_ok m e : let (n, d) := ratio m e in 0 < n /\ 0 < d /\ (IZR n / IZR d = IZR (Zpos m) * bpow radix2 e)%R.
Proof.
  unfold ratio. destruct (Z.leb_spec 0 e) as [H|H].
  - assert (0 < 2 ^ e) by (apply Z.pow_pos_nonneg; lia). repeat split; try nia. rewrite mult_IZR.
    rewrite <- (IZR_Zpower radix2 e H). change (Zpower radix2 e) with (2 ^ e). field.
  - assert (0 < 2 ^ (- e)) by (apply Z.pow_pos_nonneg; lia). repeat split; try lia.
    replace e with (- - e) at 2 by lia. rewrite bpow_opp, <- (IZR_Zpower radix2 (- e)) by lia. reflexivity.
Qed.

Lemma rnd64_err x : (Rabs (rnd64 x - x) <= bpow radix2 (-53) * Rabs x + bpow radix2 (-1075))%R.
Proof.
  destruct (Rle_or_lt (bpow radix2 (-1022)) (Rabs x)) as [H|H].
  - pose proof (rnd64_rel x H). pose proof (bpow_gt_0 radix2 (-1075)). lra.
  - pose proof (error_le_half_ulp radix2 fexp64 (fun z => negb (Z.even z)) x) as E.
    pose proof (ulp_FLT_small radix2 (-1074) 53 x) as U. change (-1074 + 53) with (-1021) in U.
    specialize (U ltac:(eapply Rlt_trans; [exact H|apply bpow_lt; lia])).
    change (ulp radix2 fexp64 x) with (ulp radix2 (FLT_exp (-1074) 53) x) in E. rewrite U in E.
    replace (/ 2 * bpow radix2 (-1074))%R with (bpow radix2 (-1075)) in E.
    2:{ change (-1075) with (-1 + -1074). rewrite bpow_plus. reflexivity. }
    unfold rnd64. pose proof (bpow_ge_0 radix2 (-53)). pose proof (Rabs_pos x). pose proof (Rmult_le_pos _ _ H0 H1). lra.
Qed.

Lemma B2R_dblMax : B2R dblMax = (IZR 9007199254740991 * bpow radix2 971)%R.
Proof. rewrite <- SF2R_B2SF. replace (B2SF dblMax) with (SpecFloat.S754_finite false 9007199254740991 971) by (vm_compute; reflexivity). reflexivity. Qed.

(** the decimal number printed for a double is not too large for a double *)
Lemma printed_range n d : 0 < n -> 0 < d -> (bpow radix2 (-1074) <= IZR n / IZR d <= B2R dblMax)%R -> let (M, X) := dec8 n d in
  Z.abs X < 1000 /\ (Rabs (rnd64 (IZR M * p10 (X - 7))) < bpow radix2 emax64)%R.
Proof.
  intros Hn Hd [A B]. pose proof (dec8_ok n d Hn Hd) as K. pose proof (decExp_ok n d Hn Hd) as [D1 D2].
  destruct (dec8 n d) as [M X]. destruct K as (HM & HX & Hh & HE). set (x := (IZR n / IZR d)%R) in *.
  change (10 ^ 7) with 10000000 in HM. change (10 ^ 8) with 100000000 in HM.
  rewrite B2R_dblMax, <- (IZR_Zpower radix2 971), <- mult_IZR in B by lia.
  assert (B1 : (x < p10 309)%R). { eapply Rle_lt_trans; [exact B|]. rewrite p10_Z by lia. apply IZR_lt. vm_compute. reflexivity. }
  assert (B2 : (p10 (-324) < x)%R).
  { eapply Rlt_le_trans; [|exact A]. change (-324) with (- (324)). rewrite p10_neg by lia. change (-1074) with (- (1074)). rewrite bpow_opp, <- (IZR_Zpower radix2 1074) by lia.
    apply Rinv_lt_contravar; [|apply IZR_lt; vm_compute; reflexivity]. apply Rmult_lt_0_compat; apply IZR_lt; vm_compute; reflexivity. }
  pose proof (p10_lt_inv _ _ (Rle_lt_trans _ _ _ D1 B1)). pose proof (p10_lt_inv _ _ (Rlt_trans _ _ _ B2 D2)).
  split; [lia|].
  assert (BD : (IZR M * p10 (X - 7) <= IZR (17976931 * 10 ^ 301))%R).
  { assert (MR1 : (10000000 <= IZR M)%R) by (apply IZR_le; lia). assert (MR2 : (IZR M <= 99999999)%R) by (apply IZR_le; lia).
    assert (C : X <= 307 \/ X = 308 \/ X = 309) by lia. destruct C as [C|[C|C]].
    - apply Rle_trans with (p10 8 * p10 (X - 7))%R; [apply Rmult_le_compat_r; [apply bpow_ge_0|change (p10 8) with 100000000%R; lra]|].
      rewrite <- bpow_plus. apply Rle_trans with (p10 308); [apply bpow_le; lia|]. rewrite p10_Z by lia. apply IZR_le. vm_compute. discriminate.
    - subst X. change (308 - 7) with 301. rewrite mult_IZR, <- p10_Z by lia. apply Rmult_le_compat_r; [apply bpow_ge_0|]. apply IZR_le.
      assert (M < 17976932); [|lia]. apply lt_IZR.
      assert (x * p10 (7 - 308) < 17976931 + / 2)%R; [|lra]. change (7 - 308) with (- (301)). rewrite p10_neg by lia.
      assert (P : (0 < IZR (10 ^ 301))%R) by (apply IZR_lt; vm_compute; reflexivity).
      apply (Rmult_lt_reg_r (IZR (10 ^ 301))); [exact P|]. rewrite Rmult_assoc, Rinv_l, Rmult_1_r by lra.
      eapply Rle_lt_trans; [exact B|]. replace ((17976931 + / 2) * IZR (10 ^ 301))%R with (IZR (35953863 * 10 ^ 301) / 2)%R by (rewrite mult_IZR; lra).
      apply (Rmult_lt_reg_r 2); [lra|]. unfold Rdiv. rewrite Rmult_assoc, Rinv_l, Rmult_1_r by lra. rewrite <- mult_IZR. apply IZR_lt. vm_compute. reflexivity.
    - exfalso. subst X. change (7 - 309) with (- (302)) in Hh. rewrite p10_neg in Hh by lia.
      assert (P : (0 < IZR (10 ^ 302))%R) by (apply IZR_lt; vm_compute; reflexivity).
      assert (x * / IZR (10 ^ 302) < 9999999)%R; [|lra].
      apply (Rmult_lt_reg_r (IZR (10 ^ 302))); [exact P|]. rewrite Rmult_assoc, Rinv_l, Rmult_1_r by lra.
      eapply Rle_lt_trans; [exact B|]. rewrite <- mult_IZR. apply IZR_lt. vm_compute. reflexivity. }
  assert (MP : (0 <= IZR M)%R) by (apply IZR_le; lia).
  rewrite Rabs_pos_eq.
  2:{ replace 0%R with (rnd64 0) by apply rnd64_id, generic_format_0. apply rnd64_mono. apply Rmult_le_pos; [exact MP|apply bpow_ge_0]. }
  apply Rle_lt_trans with (B2R dblMax).
  - rewrite <- (rnd64_id (B2R dblMax)) by apply f_format. apply rnd64_mono. eapply Rle_trans; [exact BD|].
    rewrite B2R_dblMax, <- (IZR_Zpower radix2 971), <- mult_IZR by lia. apply IZR_le. vm_compute. discriminate.
  - rewrite B2R_dblMax, <- (IZR_Zpower radix2 971), <- mult_IZR by lia. unfold emax64. rewrite <- (IZR_Zpower radix2 1024) by lia. apply IZR_lt. vm_compute. reflexivity.
Qed.

Lemma finite_range s m e H : (bpow radix2 (-1074) <= IZR (Zpos m) * bpow radix2 e <= B2R dblMax)%R /\
  B2R (B754_finite s m e H : f64) = (if s then - (IZR (Zpos m) * bpow radix2 e) else IZR (Zpos m) * bpow radix2 e)%R.
Proof.
  assert (EQ : B2R (B754_finite s m e H : f64) = (if s then - (IZR (Zpos m) * bpow radix2 e) else IZR (Zpos m) * bpow radix2 e)%R).
  { unfold B2R, F2R. destruct s; cbn [Fnum Fexp cond_Zopp]; [change (Zneg m) with (- Zpos m)|reflexivity].
    rewrite opp_IZR. ring. }
  split; [|exact EQ]. assert (P : (0 < IZR (Zpos m) * bpow radix2 e)%R) by (apply Rmult_lt_0_compat; [apply IZR_lt; lia|apply bpow_gt_0]).
  assert (AB : Rabs (B2R (B754_finite s m e H : f64)) = (IZR (Zpos m) * bpow radix2 e)%R).
  { rewrite EQ. destruct s; [rewrite Rabs_Ropp|]; apply Rabs_pos_eq; lra. }
  rewrite <- AB. split.
  - pose proof (abs_B2R_ge_emin prec64 emax64 (B754_finite s m e H) eq_refl) as Q. exact Q.
  - pose proof (abs_B2R_le_emax_minus_prec prec64 emax64 eq_refl (B754_finite s m e H)) as Q.
    eapply Rle_trans; [exact Q|]. rewrite B2R_dblMax. unfold emax64, prec64. change (1024 - 53) with 971.
    rewrite <- (IZR_Zpower radix2 1024), <- (IZR_Zpower radix2 971), <- mult_IZR, <- minus_IZR by lia. apply IZR_le. vm_compute. discriminate.
Qed.

(** reading the text of a number: a number with the decimal value printed *)
Lemma read_printed s m e H rest : stops rest -> let v := B754_finite s m e H : f64 in let (n, d) := ratio m e in let (M, X) := dec8 n d in
  exists v', readDouble (32 :: fmtG8 v ++ rest) = (Some v', true, rest) /\ is_finite v' = true /\
    B2R v' = (if s then - rnd64 (IZR M * p10 (X - 7)) else rnd64 (IZR M * p10 (X - 7)))%R.
Proof.
  intros HR v. unfold v, fmtG8. pose proof (ratio_ok m e) as RO. destruct (ratio m e) as [n d]. destruct RO as (Hn & Hd & RE).
  pose proof (dec8_ok n d Hn Hd) as K. pose proof (printed_range n d Hn Hd) as PR. rewrite RE in PR. specialize (PR (proj1 (finite_range s m e H))).
  destruct (dec8 n d) as [M X]. destruct K as (HM & _). destruct PR as [HX HO].
  destruct (fmtDec_shape M X HM HX) as (ip & fp & ext & ex & E1 & E2 & E3 & E4 & E5 & E6).
  rewrite E1. rewrite <- app_assoc. pose proof (strip_value ip fp ex) as SV. rewrite E6 in SV.
  assert (NP : 0 < digitsValue (ip ++ stripZeros fp)).
  { apply lt_IZR. apply (Rmult_lt_reg_r (p10 (ex - Z.of_nat (length (stripZeros fp))))); [apply bpow_gt_0|]. rewrite SV, Rmult_0_l.
    apply Rmult_lt_0_compat; [apply IZR_lt; lia|apply bpow_gt_0]. }
  pose proof (strtod_ok s _ (ex - Z.of_nat (length (stripZeros fp))) NP) as SO. cbv zeta in SO. rewrite SV in SO. specialize (SO HO). destruct SO as [S1 S2].
  eexists. split; [|split; [exact S1|exact S2]]. apply read_pointed; assumption.
Qed.

Lemma read_zero s rest : stops rest -> readDouble (32 :: fmtG8 (B754_zero s) ++ rest) = (Some (B754_zero s), true, rest).
Proof.
  intros HR. pose proof (read_pointed s [48] [] [] 0 rest) as K. cbn [fmtG8]. rewrite <- app_assoc.
  apply K; try reflexivity; try discriminate; [repeat constructor; unfold dig; lia|constructor|left; split; reflexivity|exact HR].
Qed.

Theorem reread_ok v rest : is_finite v = true -> stops rest -> exists v', readDouble (32 :: fmtG8 v ++ rest) = (Some v', true, rest) /\ reread v v'.
Proof.
  intros HF HR. destruct v as [s|s| |s m e H]; try discriminate HF.
  - exists (B754_zero s). split; [apply read_zero, HR|]. split; [reflexivity|]. cbn [B2R]. rewrite Rminus_0_r, Rabs_R0. pose proof (bpow_gt_0 radix2 (-1074)). lra.
  - pose proof (read_printed s m e H rest HR) as K. cbv zeta in K. pose proof (ratio_ok m e) as RO. destruct (ratio m e) as [n d]. destruct RO as (Hn & Hd & RE).
    pose proof (dec8_ok n d Hn Hd) as D. destruct (dec8 n d) as [M X]. destruct D as (HM & _ & _ & HE). rewrite RE in HE.
    destruct K as (v' & E1 & E2 & E3). exists v'. split; [exact E1|]. split; [exact E2|].
    destruct (finite_range s m e H) as ((R1 & _) & R2). rewrite R2, E3. set (x := (IZR (Zpos m) * bpow radix2 e)%R) in *. set (D := (IZR M * p10 (X - 7))%R) in *.
    pose proof (bpow_gt_0 radix2 (-1074)) as P0.
    assert (W : (Rabs (rnd64 D - x) <= x / 10000000 + bpow radix2 (-1074))%R).
    { pose proof (rnd64_err D) as ER. replace (rnd64 D - x)%R with ((rnd64 D - D) + (D - x))%R by ring. eapply Rle_trans; [apply Rabs_triang|].
      assert (P53 : (bpow radix2 (-53) <= / 1000000000)%R).
      { change (-53) with (- (53)). rewrite bpow_opp, <- (IZR_Zpower radix2 53) by lia. apply Rinv_le; [lra|]. apply IZR_le. vm_compute. discriminate. }
      assert (P75 : (bpow radix2 (-1075) <= bpow radix2 (-1074))%R) by (apply bpow_le; lia).
      assert (AD : (Rabs D <= 2 * x)%R). { replace D with (x + (D - x))%R by ring. eapply Rle_trans; [apply Rabs_triang|]. rewrite (Rabs_pos_eq x) by lra. lra. }
      assert (bpow radix2 (-53) * Rabs D <= / 1000000000 * (2 * x))%R by (apply Rmult_le_compat; [apply bpow_ge_0|apply Rabs_pos|exact P53|exact AD]).
      lra. }
    destruct s; [rewrite Rabs_Ropp; replace (- rnd64 D - - x)%R with (- (rnd64 D - x))%R by ring; rewrite Rabs_Ropp|]; rewrite (Rabs_pos_eq x) by lra; exact W.
Qed.

(** a number that was read from such a text is printed as the same text *)
Theorem reprint v rest v' l b : is_finite v = true -> (bpow radix2 (-1021) <= Rabs (B2R v))%R -> stops rest ->
  readDouble (32 :: fmtG8 v ++ rest) = (Some v', b, l) -> fmtG8 v' = fmtG8 v.
Proof.
  intros HF HB HR EQ. destruct v as [s|s| |s m e H]; try discriminate HF.
  - exfalso. cbn [B2R] in HB. rewrite Rabs_R0 in HB. pose proof (bpow_gt_0 radix2 (-1021)). lra.
  - pose proof (read_printed s m e H rest HR) as K. cbv zeta in K. destruct (finite_range s m e H) as ((R1 & _) & R2).
    pose proof (ratio_ok m e) as RO. cbn [fmtG8] in *. destruct (ratio m e) as [n d] eqn:ER. destruct RO as (Hn & Hd & RE).
    pose proof (dec8_ok n d Hn Hd) as D. destruct (dec8 n d) as [M X]. destruct D as (HM & _ & _ & HE). rewrite RE in HE.
    destruct K as (w & E1 & E2 & E3). rewrite EQ in E1. injection E1 as Ew _ _. subst w.
    rewrite R2 in HB. set (x := (IZR (Zpos m) * bpow radix2 e)%R) in *. set (D := (IZR M * p10 (X - 7))%R) in *.
    pose proof (bpow_gt_0 radix2 (-1074)) as P0.
    assert (XB : (bpow radix2 (-1021) <= x)%R). { destruct s; [rewrite Rabs_Ropp in HB|]; rewrite Rabs_pos_eq in HB by lra; exact HB. }
    apply Rabs_le_inv in HE. assert (DX : (x / 2 <= D)%R) by lra.
    assert (D0 : (bpow radix2 (-1022) <= D)%R). { change (-1021) with (1 + -1022) in XB. rewrite bpow_plus in XB. change (bpow radix2 1) with 2%R in XB. lra. }
    assert (DP : (0 < D)%R) by lra.
    pose proof (rnd64_rel D) as RR. rewrite (Rabs_pos_eq D) in RR by lra. specialize (RR D0).
    assert (P53 : (bpow radix2 (-53) <= / 1000000000000)%R).
    { change (-53) with (- (53)). rewrite bpow_opp, <- (IZR_Zpower radix2 53) by lia. apply Rinv_le; [lra|]. apply IZR_le. vm_compute. discriminate. }
    assert (RR' : (Rabs (rnd64 D - D) <= D / 1000000000000)%R).
    { eapply Rle_trans; [exact RR|]. unfold Rdiv. rewrite Rmult_comm. apply Rmult_le_compat_l; lra. }
    assert (RP : (0 < rnd64 D)%R) by (apply Rabs_le_inv in RR'; lra).
    destruct v' as [s'|s'| |s' m' e' H']; try discriminate E2.
    + exfalso. cbn [B2R] in E3. destruct s; lra.
    + destruct (finite_range s' m' e' H') as ((R1' & _) & R2'). rewrite R2' in E3. cbn [fmtG8]. pose proof (ratio_ok m' e') as RO'. destruct (ratio m' e') as [n' d'].
      destruct RO' as (Hn' & Hd' & RE'). set (x' := (IZR (Zpos m') * bpow radix2 e')%R) in *.
      assert (XP : (0 < x')%R) by lra.
      assert (SS : s' = s /\ x' = rnd64 D) by (destruct s, s'; try (exfalso; lra); split; try reflexivity; lra). destruct SS as [-> EX].
      rewrite (dec8_close n' d' M X Hn' Hd' HM); [reflexivity|]. rewrite RE', EX. fold D. exact RR'.
Qed.
