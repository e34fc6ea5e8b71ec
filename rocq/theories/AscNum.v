(** The text of a double with eight digits, and its value. *)
From Coq Require Import List ZArith Reals Bool Lia Lra.
From Flocq Require Import Core BinarySingleNaN Calc.Div Calc.Bracket Relative.
From Verif Require Import F64 IndexModel IndexProofs AscModel.
Import ListNotations.
Local Open Scope Z_scope.

Notation p10 := (bpow radix10).

Lemma p10_Z k : 0 <= k -> p10 k = IZR (10 ^ k).
Proof. intros H. rewrite <- (IZR_Zpower radix10) by exact H. reflexivity. Qed.
Lemma p10_neg k : 0 <= k -> p10 (- k) = (/ IZR (10 ^ k))%R.
Proof. intros H. rewrite bpow_opp, p10_Z by exact H. reflexivity. Qed.
Lemma p10_gt k : (0 < p10 k)%R. Proof. apply bpow_gt_0. Qed.

Lemma nearestInt_err n d : 0 < d -> (Rabs (IZR (nearestInt n d) - IZR n / IZR d) <= / 2)%R.
Proof.
  intros Hd. pose proof (Z.div_mod n d ltac:(lia)) as E. pose proof (Z.mod_pos_bound n d Hd) as B.
  assert (HD : (0 < IZR d)%R) by (apply IZR_lt; lia).
  assert (K : forall q, (-1 * d <= 2 * (q * d - n) <= d)%Z -> (Rabs (IZR q - IZR n / IZR d) <= / 2)%R).
  { intros q [H1 H2]. apply IZR_le in H1, H2. rewrite mult_IZR, ?mult_IZR, minus_IZR, mult_IZR in H1; rewrite mult_IZR, minus_IZR, mult_IZR in H2.
    replace (IZR q - IZR n / IZR d)%R with ((IZR q * IZR d - IZR n) * / IZR d)%R by (field; lra).
    apply Rabs_le. split.
    - apply (Rmult_le_reg_r (IZR d)); [exact HD|]. rewrite Rmult_assoc, Rinv_l by lra. lra.
    - apply (Rmult_le_reg_r (IZR d)); [exact HD|]. rewrite Rmult_assoc, Rinv_l by lra. lra. }
  unfold nearestInt. cbv zeta. set (q := n / d) in *. set (r := n mod d) in *.
  destruct (Z.ltb_spec (2 * r) d); [apply K; nia|]. destruct (Z.ltb_spec d (2 * r)); [apply K; nia|].
  destruct (Z.even q); apply K; nia.
Qed.
Lemma near_unique (a b : Z) (x : R) : (Rabs (IZR a - x) <= / 2)%R -> (Rabs (IZR b - x) < / 2)%R -> a = b.
Proof.
  intros A B. assert (H : (Rabs (IZR (a - b)) < 1)%R).
  { rewrite minus_IZR. replace (IZR a - IZR b)%R with ((IZR a - x) - (IZR b - x))%R by ring.
    eapply Rle_lt_trans; [apply Rabs_triang|]. rewrite Rabs_Ropp. lra. }
  rewrite <- abs_IZR in H. apply lt_IZR in H. lia.
Qed.
Lemma scaledInt_err n d s : 0 < n -> 0 < d -> (Rabs (IZR (scaledInt n d s) - IZR n / IZR d * p10 s) <= / 2)%R.
Proof.
  intros Hn Hd. assert (HD : (0 < IZR d)%R) by (apply IZR_lt; lia). unfold scaledInt. destruct (Z.leb_spec 0 s) as [H|H].
  - rewrite p10_Z by exact H. replace (IZR n / IZR d * IZR (10 ^ s))%R with (IZR (n * 10 ^ s) / IZR d)%R by (rewrite mult_IZR; field; lra).
    apply nearestInt_err, Hd.
  - assert (P : 0 < 10 ^ (- s)) by (apply Z.pow_pos_nonneg; lia). assert (PR : (0 < IZR (10 ^ (- s)))%R) by (apply IZR_lt; lia).
    replace s with (- - s) at 2 by lia. rewrite p10_neg by lia.
    replace (IZR n / IZR d * / IZR (10 ^ - s))%R with (IZR n / IZR (d * 10 ^ (- s)))%R by (rewrite mult_IZR; field; lra).
    apply nearestInt_err. nia.
Qed.
Lemma decExp_ok n d : 0 < n -> 0 < d -> (p10 (decExp n d) <= IZR n / IZR d < p10 (decExp n d + 1))%R.
Proof.
  intros Hn Hd. assert (HD : (0 < IZR d)%R) by (apply IZR_lt; lia). assert (HN : (0 < IZR n)%R) by (apply IZR_lt; lia).
  pose proof (Zdigits_correct radix10 n) as [N1 N2]. pose proof (Zdigits_correct radix10 d) as [D1 D2].
  rewrite Z.abs_eq in N1, N2, D1, D2 by lia.
  pose proof (Zdigits_gt_0 radix10 n ltac:(lia)). pose proof (Zdigits_gt_0 radix10 d ltac:(lia)).
  apply IZR_le in N1, D1. apply IZR_lt in N2, D2. rewrite IZR_Zpower in N1, N2, D1, D2 by lia.
  set (a := Zdigits radix10 n) in *. set (b := Zdigits radix10 d) in *.
  assert (L : (p10 (a - b - 1) <= IZR n / IZR d)%R).
  { apply (Rmult_le_reg_r (IZR d)); [exact HD|]. unfold Rdiv. rewrite Rmult_assoc, Rinv_l, Rmult_1_r by lra.
    apply Rle_trans with (p10 (a - b - 1) * p10 b)%R; [apply Rmult_le_compat_l; [apply bpow_ge_0|lra]|].
    rewrite <- bpow_plus. replace (a - b - 1 + b) with (a - 1) by lia. exact N1. }
  assert (U : (IZR n / IZR d < p10 (a - b + 1))%R).
  { apply (Rmult_lt_reg_r (IZR d)); [exact HD|]. unfold Rdiv. rewrite Rmult_assoc, Rinv_l, Rmult_1_r by lra.
    apply Rlt_le_trans with (p10 (a - b + 1) * p10 (b - 1))%R; [|apply Rmult_le_compat_l; [apply bpow_ge_0|lra]].
    rewrite <- bpow_plus. replace (a - b + 1 + (b - 1)) with a by lia. exact N2. }
  unfold decExp. cbv zeta. fold a b.
  assert (C : forall c, (if 0 <=? a - b then d * 10 ^ (a - b) <=? n else d <=? n * 10 ^ (- (a - b))) = c ->
    if c then (p10 (a - b) <= IZR n / IZR d)%R else (IZR n / IZR d < p10 (a - b))%R).
  { intros c Ec. set (k := a - b) in *. destruct (Z.leb_spec 0 k) as [Hk|Hk].
    - assert (Q : (p10 k * IZR d)%R = IZR (d * 10 ^ k)) by (rewrite p10_Z, mult_IZR by exact Hk; ring).
      destruct c; [apply Z.leb_le in Ec; apply IZR_le in Ec|apply Z.leb_gt in Ec; apply IZR_lt in Ec]; rewrite <- Q in Ec.
      + apply (Rmult_le_reg_r (IZR d)); [exact HD|]. unfold Rdiv. rewrite Rmult_assoc, Rinv_l by lra. lra.
      + apply (Rmult_lt_reg_r (IZR d)); [exact HD|]. unfold Rdiv. rewrite Rmult_assoc, Rinv_l by lra. lra.
    - assert (P : (0 < IZR (10 ^ (- k)))%R) by (apply IZR_lt, Z.pow_pos_nonneg; lia).
      replace k with (- - k) by lia. rewrite p10_neg by lia.
      destruct c; [apply Z.leb_le in Ec; apply IZR_le in Ec|apply Z.leb_gt in Ec; apply IZR_lt in Ec]; rewrite mult_IZR in Ec.
      + apply (Rmult_le_reg_r (IZR d * IZR (10 ^ (- k)))); [nra|]. field_simplify; [lra|lra|lra].
      + apply (Rmult_lt_reg_r (IZR d * IZR (10 ^ (- k)))); [nra|]. field_simplify; [lra|lra|lra]. }
  specialize (C _ eq_refl). destruct (if 0 <=? a - b then _ else _).
  - split; assumption.
  - replace (a - b - 1 + 1) with (a - b) by lia. split; assumption.
Qed.
Lemma p10_lt_inv a b : (p10 a < p10 b)%R -> a < b. Proof. apply lt_bpow. Qed.
Lemma decExp_unique n d X : 0 < n -> 0 < d -> (p10 X <= IZR n / IZR d < p10 (X + 1))%R -> decExp n d = X.
Proof.
  intros Hn Hd [A B]. destruct (decExp_ok n d Hn Hd) as [C D].
  pose proof (p10_lt_inv _ _ (Rle_lt_trans _ _ _ A D)). pose proof (p10_lt_inv _ _ (Rle_lt_trans _ _ _ C B)). lia.
Qed.

(** eight digits: size and error *)
Lemma dec8_ok n d : 0 < n -> 0 < d -> let (M, X) := dec8 n d in
  10 ^ 7 <= M < 10 ^ 8 /\ decExp n d <= X <= decExp n d + 1 /\ (IZR M - / 2 <= IZR n / IZR d * p10 (7 - X))%R /\
  (Rabs (IZR M * p10 (X - 7) - IZR n / IZR d) <= IZR n / IZR d / 20000000)%R.
Proof.
  intros Hn Hd. pose proof (decExp_ok n d Hn Hd) as [A B]. unfold dec8. cbv zeta.
  pose proof (scaledInt_err n d (7 - decExp n d) Hn Hd) as E. set (X := decExp n d) in *. set (x := (IZR n / IZR d)%R) in *.
  set (M := scaledInt n d (7 - X)) in *.
  assert (P7 : p10 7 = 10000000%R) by reflexivity. assert (P8 : p10 8 = 100000000%R) by reflexivity.
  assert (Q1 : (10000000 <= x * p10 (7 - X))%R).
  { rewrite <- P7. replace 7 with (X + (7 - X)) at 1 by lia. rewrite bpow_plus. apply Rmult_le_compat_r; [apply bpow_ge_0|exact A]. }
  assert (Q2 : (x * p10 (7 - X) < 100000000)%R).
  { rewrite <- P8. replace 8 with ((X + 1) + (7 - X)) at 1 by lia. rewrite bpow_plus. apply Rmult_lt_compat_r; [apply bpow_gt_0|exact B]. }
  apply Rabs_le_inv in E.
  assert (M1 : 10000000 <= M). { assert (9999999 < M); [|lia]. apply lt_IZR. lra. }
  assert (M2 : M <= 100000000). { assert (M < 100000001); [|lia]. apply lt_IZR. lra. }
  assert (XE : (Rabs (IZR M * p10 (X - 7) - x) <= x / 20000000)%R).
  { replace (IZR M * p10 (X - 7) - x)%R with ((IZR M - x * p10 (7 - X)) * p10 (X - 7))%R.
    2:{ rewrite Rmult_minus_distr_r, Rmult_assoc, <- bpow_plus. replace (7 - X + (X - 7)) with 0 by lia. cbn [bpow]. ring. }
    rewrite Rabs_mult, (Rabs_pos_eq (p10 _)) by apply bpow_ge_0.
    apply Rle_trans with (/ 2 * p10 (X - 7))%R; [apply Rmult_le_compat_r; [apply bpow_ge_0|apply Rabs_le; lra]|].
    assert (p10 (X - 7) <= x / 10000000)%R; [|lra].
    replace (X - 7) with (X + - (7)) by lia. rewrite bpow_plus, bpow_opp, P7. unfold Rdiv. apply Rmult_le_compat_r; lra. }
  destruct (Z.eqb_spec M (10 ^ 8)) as [Z|Z].
  - split; [lia|]. split; [lia|]. split.
    { replace (7 - (X + 1)) with ((7 - X) + (-1)) by lia. rewrite bpow_plus. change (p10 (-1)) with (/ 10)%R. rewrite Z in E. change (10 ^ 8) with 100000000 in E. change (10 ^ 7) with 10000000.
      rewrite <- Rmult_assoc. lra. }
    rewrite Z in XE. replace (IZR (10 ^ 7) * p10 (X + 1 - 7))%R with (IZR (10 ^ 8) * p10 (X - 7))%R; [exact XE|].
    replace (X + 1 - 7) with (1 + (X - 7)) by lia. rewrite bpow_plus. change (p10 1) with 10%R. change (10 ^ 8) with (10 ^ 7 * 10). rewrite mult_IZR. ring.
  - change (10 ^ 8) with 100000000 in *. split; [change (10 ^ 7) with 10000000; lia|]. split; [lia|]. split; [lra|]. exact XE.
Qed.

(** a number close to eight digits has these digits *)
Lemma dec8_close n d M X : 0 < n -> 0 < d -> 10 ^ 7 <= M < 10 ^ 8 ->
  (Rabs (IZR n / IZR d - IZR M * p10 (X - 7)) <= IZR M * p10 (X - 7) / 1000000000000)%R -> dec8 n d = (M, X).
Proof.
  intros Hn Hd HM E. change (10 ^ 7) with 10000000 in HM. change (10 ^ 8) with 100000000 in HM.
  set (x := (IZR n / IZR d)%R) in *. set (y := (x * p10 (7 - X))%R).
  assert (M1 : (10000000 <= IZR M)%R) by (apply IZR_le; lia). assert (M2 : (IZR M <= 99999999)%R) by (apply IZR_le; lia).
  assert (EY : (Rabs (y - IZR M) <= IZR M / 1000000000000)%R).
  { apply (Rmult_le_reg_r (p10 (X - 7))); [apply bpow_gt_0|]. rewrite <- (Rabs_pos_eq (p10 (X - 7))) at 1 by apply bpow_ge_0.
    rewrite <- Rabs_mult. unfold y. rewrite Rmult_minus_distr_r, Rmult_assoc, <- bpow_plus. replace (7 - X + (X - 7)) with 0 by lia.
    cbn [bpow]. rewrite Rmult_1_r. eapply Rle_trans; [exact E|]. lra. }
  apply Rabs_le_inv in EY.
  assert (XY : x = (y * p10 (X - 7))%R).
  { unfold y. rewrite Rmult_assoc, <- bpow_plus. replace (7 - X + (X - 7)) with 0 by lia. cbn [bpow]. ring. }
  assert (P7 : p10 7 = 10000000%R) by reflexivity. assert (P8 : p10 8 = 100000000%R) by reflexivity.
  unfold dec8. cbv zeta. destruct (Rle_or_lt 10000000 y) as [Y|Y].
  - assert (EX : decExp n d = X).
    { apply decExp_unique; try assumption. fold x. rewrite XY. split.
      - replace X with (7 + (X - 7)) at 1 by lia. rewrite bpow_plus, P7. apply Rmult_le_compat_r; [apply bpow_ge_0|exact Y].
      - replace (X + 1) with (8 + (X - 7)) by lia. rewrite bpow_plus, P8. apply Rmult_lt_compat_r; [apply bpow_gt_0|]. lra. }
    rewrite EX. assert (EM : scaledInt n d (7 - X) = M).
    { apply (near_unique _ _ y); [apply (scaledInt_err n d (7 - X) Hn Hd)|]. apply Rabs_def1; lra. }
    rewrite EM. destruct (Z.eqb_spec M (10 ^ 8)); [change (10 ^ 8) with 100000000 in *; lia|reflexivity].
  - assert (M = 10000000). { assert (M < 10000001); [|lia]. apply lt_IZR. lra. }
    assert (EX : decExp n d = X - 1).
    { apply decExp_unique; try assumption. fold x. rewrite XY. replace (X - 1 + 1) with X by lia. split.
      - replace (X - 1) with (6 + (X - 7)) at 1 by lia. rewrite bpow_plus. change (p10 6) with 1000000%R. apply Rmult_le_compat_r; [apply bpow_ge_0|]. lra.
      - replace X with (7 + (X - 7)) at 2 by lia. rewrite bpow_plus, P7. apply Rmult_lt_compat_r; [apply bpow_gt_0|exact Y]. }
    rewrite EX. assert (EM : scaledInt n d (7 - (X - 1)) = 100000000).
    { apply (near_unique _ _ (y * 10)).
      - replace (y * 10)%R with (x * p10 (7 - (X - 1)))%R; [apply (scaledInt_err n d _ Hn Hd)|].
        unfold y. replace (7 - (X - 1)) with ((7 - X) + 1) by lia. rewrite bpow_plus. change (p10 1) with 10%R. ring.
      - assert (IZR M = 10000000%R) by (f_equal; assumption). apply Rabs_def1; lra. }
    rewrite EM. destruct (Z.eqb_spec 100000000 (10 ^ 8)) as [_|Q]; [|exfalso; apply Q; reflexivity]. f_equal; [change (10 ^ 7) with 10000000; lia|lia].
Qed.

(** ** digits *)
Definition dig (c : Z) : Prop := 48 <= c <= 57.
Lemma digitsN_length n : forall z, length (digitsN n z) = n.
Proof. induction n as [|n IH]; intros z; cbn [digitsN]; [reflexivity|]. rewrite app_length, IH. cbn. lia. Qed.
Lemma digitsN_dig n : forall z, Forall dig (digitsN n z).
Proof.
  induction n as [|n IH]; intros z; cbn [digitsN]; [constructor|]. apply Forall_app. split; [apply IH|].
  constructor; [|constructor]. unfold dig. pose proof (Z.mod_pos_bound z 10 ltac:(lia)). lia.
Qed.
Lemma digitsValue_app a b : digitsValue (a ++ b) = digitsValue a * 10 ^ Z.of_nat (length b) + digitsValue b.
Proof.
  unfold digitsValue. rewrite fold_left_app. generalize (fold_left (fun acc c => 10 * acc + (c - 48)) a 0). clear a.
  assert (K : forall b x y, fold_left (fun acc c => 10 * acc + (c - 48)) b (x + y) = x * 10 ^ Z.of_nat (length b) + fold_left (fun acc c => 10 * acc + (c - 48)) b y).
  { clear b. induction b as [|c b IH]; intros x y; cbn [fold_left length]; [cbn; lia|].
    replace (10 * (x + y) + (c - 48)) with (10 * x + (10 * y + (c - 48))) by lia. rewrite IH, Nat2Z.inj_succ, Z.pow_succ_r by lia. ring. }
  intros x. rewrite <- (Z.add_0_r x) at 1. apply K.
Qed.
Lemma digitsN_value n : forall z, 0 <= z < 10 ^ Z.of_nat n -> digitsValue (digitsN n z) = z.
Proof.
  induction n as [|n IH]; intros z Hz; cbn [digitsN].
  - cbn in Hz. cbn. lia.
  - rewrite Nat2Z.inj_succ, Z.pow_succ_r in Hz by lia. rewrite digitsValue_app. cbn [length].
    rewrite IH by (split; [apply Z.div_pos; lia|apply Z.div_lt_upper_bound; lia]).
    change (digitsValue [48 + z mod 10]) with (10 * 0 + (48 + z mod 10 - 48)). change (10 ^ Z.of_nat 1) with 10.
    pose proof (Z.div_mod z 10 ltac:(lia)). lia.
Qed.
Lemma stripZeros_spec l : exists k, l = stripZeros l ++ repeat 48 k.
Proof.
  induction l as [|c r (k & IH)]; [exists 0%nat; reflexivity|]. cbn [stripZeros]. destruct (stripZeros r) as [|a b] eqn:E.
  - destruct (Z.eqb_spec c 48) as [->|H].
    + exists (S k). cbn in IH |- *. f_equal. exact IH.
    + exists k. cbn in IH |- *. f_equal. exact IH.
  - exists k. cbn in IH |- *. f_equal. exact IH.
Qed.
Lemma zeros_value k : digitsValue (repeat 48 k) = 0.
Proof. induction k as [|k IH]; [reflexivity|]. change (repeat 48 (S k)) with ([48] ++ repeat 48 k). rewrite digitsValue_app, IH. cbn [digitsValue fold_left]. lia. Qed.
Lemma digitsValue_bound l : Forall dig l -> 0 <= digitsValue l < 10 ^ Z.of_nat (length l).
Proof.
  induction 1 as [|c l Hc F IH]; [cbn; lia|]. change (c :: l) with ([c] ++ l). rewrite digitsValue_app. unfold dig in Hc.
  change (digitsValue [c]) with (10 * 0 + (c - 48)). rewrite app_length, Nat2Z.inj_add. cbn [length]. rewrite Z.pow_add_r by lia.
  change (10 ^ Z.of_nat 1) with 10. nia.
Qed.
Lemma strip_dig l : Forall dig l -> Forall dig (stripZeros l).
Proof. intros F. destruct (stripZeros_spec l) as (k & E). rewrite E in F. apply Forall_app in F. apply F. Qed.
(** removing zeros from the fraction does not change the number *)
Lemma strip_value ip fp X : (IZR (digitsValue (ip ++ stripZeros fp)) * p10 (X - Z.of_nat (length (stripZeros fp))) =
  IZR (digitsValue (ip ++ fp)) * p10 (X - Z.of_nat (length fp)))%R.
Proof.
  destruct (stripZeros_spec fp) as (k & E). set (f := stripZeros fp) in *. clearbody f. rewrite E.
  rewrite app_assoc, (digitsValue_app (ip ++ f)), zeros_value, app_length, repeat_length, Z.add_0_r, mult_IZR, Nat2Z.inj_add.
  rewrite <- p10_Z by lia. rewrite Rmult_assoc, <- bpow_plus. do 2 f_equal. lia.
Qed.

(** ** strtod *)
Lemma ofSF_valid z (H : SpecFloat.valid_binary prec64 emax64 z = true) : B2R (ofSF z) = SF2R radix2 z /\ is_finite (ofSF z) = is_finite_SF z.
Proof.
  unfold ofSF. destruct (bool_dec _ true) as [H'|H']; [|contradiction]. split; [apply B2R_SF2B|apply is_finite_SF2B].
Qed.
Lemma strtod_zero neg E : strtod neg 0 E = B754_zero neg. Proof. reflexivity. Qed.
Lemma strtod_ok neg N E : 0 < N -> let x := (IZR N * p10 E)%R in (Rabs (rnd64 x) < bpow radix2 emax64)%R ->
  is_finite (strtod neg N E) = true /\ B2R (strtod neg N E) = (if neg then - rnd64 x else rnd64 x)%R.
Proof.
  intros HN x Hx. unfold strtod. destruct (Z.eqb_spec N 0) as [Z0|_]; [lia|].
  assert (Q : exists n d, (if 0 <=? E then (N * 10 ^ E, 1) else (N, 10 ^ (- E))) = (n, d) /\ 0 < n /\ 0 < d /\ (IZR n / IZR d)%R = x).
  { destruct (Z.leb_spec 0 E) as [H|H].
    - assert (P : 0 < 10 ^ E) by (apply Z.pow_pos_nonneg; lia). do 2 eexists. split; [reflexivity|]. repeat split; try nia.
      rewrite mult_IZR, <- p10_Z by exact H. unfold x. field.
    - assert (P : 0 < 10 ^ (- E)) by (apply Z.pow_pos_nonneg; lia). do 2 eexists. split; [reflexivity|]. repeat split; try lia.
      unfold x. replace E with (- - E) at 2 by lia. rewrite p10_neg by lia. reflexivity. }
  destruct Q as (n & d & -> & Hn & Hd & Ex).
  pose proof (Fdiv_correct (beta := radix2) fexp64 (Float radix2 n 0) (Float radix2 d 0)) as F.
  assert (F2 : forall k, F2R (Float radix2 k 0) = IZR k) by (intros k; unfold F2R; cbn; ring).
  rewrite !F2 in F. rewrite Ex in F. specialize (F ltac:(apply IZR_lt; lia) ltac:(apply IZR_lt; lia)).
  destruct (Fdiv fexp64 (Float radix2 n 0) (Float radix2 d 0)) as [[m e] l]. destruct F as [F1 F3].
  assert (X0 : (0 < x)%R) by (rewrite <- Ex; apply Rdiv_lt_0_compat; apply IZR_lt; lia).
  set (y := if neg then (- x)%R else x).
  assert (Y1 : Rabs y = x) by (unfold y; destruct neg; [rewrite Rabs_Ropp|]; apply Rabs_pos_eq; lra).
  assert (Y2 : Rlt_bool y 0 = neg) by (unfold y; destruct neg; [apply Rlt_bool_true|apply Rlt_bool_false]; lra).
  assert (Y0 : y <> 0%R) by (unfold y; destruct neg; lra).
  pose proof (binary_round_aux_correct' prec64 emax64 eq_refl eq_refl mode_NE y m e l Y0) as B. rewrite Y1, Y2 in B. specialize (B F3).
  assert (CE : cexp radix2 fexp64 y = cexp radix2 fexp64 x) by (rewrite <- Y1; symmetry; apply cexp_abs).
  rewrite CE in B. specialize (B F1). cbv zeta in B. destruct B as [V B].
  assert (RY : round radix2 fexp64 (round_mode mode_NE) y = (if neg then - rnd64 x else rnd64 x)%R).
  { unfold y, rnd64. cbn [round_mode]. destruct neg; [apply round_NE_opp|reflexivity]. }
  rewrite RY in B. assert (RA : Rabs (if neg then - rnd64 x else rnd64 x)%R = Rabs (rnd64 x)) by (destruct neg; [apply Rabs_Ropp|reflexivity]).
  rewrite RA, Rlt_bool_true in B by exact Hx. destruct B as (B1 & B2 & _). destruct (ofSF_valid _ V) as [V1 V2]. rewrite V1, V2, B1, B2. split; reflexivity.
Qed.
