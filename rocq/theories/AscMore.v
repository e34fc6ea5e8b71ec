(** The time in the header, numbers with a plus sign, and other lines of the file. *)
From Coq Require Import String List ZArith Reals Bool Lia Lra Permutation.
From Flocq Require Import Core BinarySingleNaN Relative.
From Verif Require Import Outcome ListUtil F64 Arith IndexModel IndexProofs SylModel AscModel AscSpec AscNum AscText AscProofs.
Import ListNotations.
Local Open Scope Z_scope.

Lemma digitsN_mod n : forall z, digitsValue (digitsN n z) = z mod 10 ^ Z.of_nat n.
Proof.
  induction n as [|n IH]; intros z; cbn [digitsN]; [cbn; rewrite Z.mod_1_r; reflexivity|].
  rewrite digitsValue_app, IH. cbn [List.length]. change (digitsValue [48 + z mod 10]) with (10 * 0 + (48 + z mod 10 - 48)). change (10 ^ Z.of_nat 1) with 10.
  rewrite Nat2Z.inj_succ, Z.pow_succ_r by lia. rewrite Z.rem_mul_r by lia. lia.
Qed.

(** a number with a fraction, read *)
Lemma read_fixed s ip fp rest : ip <> [] -> Forall dig ip -> Forall dig fp -> stops rest ->
  let v := strtod s (digitsValue (ip ++ fp)) (- Z.of_nat (length fp)) in
  is_finite v = true -> readDouble (32 :: (fmtSign s ++ ip ++ 46 :: fp) ++ rest) = (Some v, true, rest).
Proof.
  intros Hne HI HF HR v Hv. destruct ip as [|c ip]; [contradiction|]. pose proof (Forall_inv HI) as Hc.
  rewrite <- !app_assoc. cbn [app].
  assert (HT : match rest with [] => True | c :: _ => isDigit c = false end) by (destruct rest; [exact I|apply HR]).
  assert (TD : takeDigits ((c :: ip) ++ 46 :: fp ++ rest) = (c :: ip, 46 :: fp ++ rest)) by (apply takeDigits_app; [exact HI|reflexivity]).
  assert (TF : takeDigits (fp ++ rest) = (fp, rest)) by (apply takeDigits_app; assumption).
  assert (SW : skipWs (32 :: fmtSign s ++ c :: ip ++ 46 :: fp ++ rest) = fmtSign s ++ c :: ip ++ 46 :: fp ++ rest).
  { change (skipWs (fmtSign s ++ c :: ip ++ 46 :: fp ++ rest) = fmtSign s ++ c :: ip ++ 46 :: fp ++ rest). destruct s; [reflexivity|]. apply dig_space, Hc. }
  assert (TS : takeSign (fmtSign s ++ c :: ip ++ 46 :: fp ++ rest) = (s, c :: ip ++ 46 :: fp ++ rest)) by (destruct s; [reflexivity|]; apply takeSign_digit, Hc).
  assert (TE : takeExponent rest = (Some 0, rest)) by (apply (takeExponent_ok [] 0 rest); [left; auto|exact HR]).
  unfold readDouble. rewrite SW. destruct (fmtSign s ++ c :: ip ++ 46 :: fp ++ rest) as [|c0 l0] eqn:E0; [destruct s; discriminate E0|]. rewrite TS. change (c :: ip ++ 46 :: fp ++ rest) with ((c :: ip) ++ 46 :: fp ++ rest). rewrite TD. change (46 =? 46) with true. cbv iota. rewrite TF. cbn [app].
  change (c :: ip ++ fp) with ((c :: ip) ++ fp). rewrite TE. change (0 - Z.of_nat (List.length fp)) with (- Z.of_nat (List.length fp)). fold v. rewrite Hv. reflexivity.
Qed.

(** "%lf" keeps six digits after the point *)
Theorem time_ok v rest : is_finite v = true -> (Rabs (B2R v) <= bpow radix2 1000)%R -> stops rest ->
  exists v', readDouble (32 :: fmtF6 v ++ rest) = (Some v', true, rest) /\ is_finite v' = true /\ (Rabs (B2R v' - B2R v) <= / 1000000 + Rabs (B2R v) * bpow radix2 (-52))%R.
Proof.
  intros F B HR. pose proof (bpow_gt_0 radix2 (-52)) as P52.
  destruct v as [s|s| |s m e H]; try discriminate F.
  - exists (B754_zero s). split; [|split; [reflexivity|cbn [B2R]; rewrite Rminus_0_r, Rabs_R0; lra]].
    cbn [fmtF6]. change ([48; 46] ++ repeat 48 6) with ([48] ++ 46 :: repeat 48 6). pose proof (read_fixed s [48] (repeat 48 6) rest) as K. apply K; try reflexivity; [discriminate| | |exact HR]; repeat constructor; unfold dig; lia.
  - unfold fmtF6. pose proof (ratio_ok m e) as RO. destruct (ratio m e) as [n d]. destruct RO as (Hn & Hd & RE). destruct (finite_range s m e H) as ((R1 & _) & R2). rewrite R2 in B |- *.
    set (x := (IZR (Zpos m) * bpow radix2 e)%R) in *. assert (X0 : (0 < x)%R) by (apply Rlt_le_trans with (2 := R1); apply bpow_gt_0).
    assert (B' : (x <= bpow radix2 1000)%R) by (destruct s; [rewrite Rabs_Ropp in B|]; rewrite Rabs_pos_eq in B; lra). clear B.
    pose proof (scaledInt_err n d 6 Hn Hd) as Q. rewrite RE in Q. fold x in Q. set (z := scaledInt n d 6) in *. rewrite p10_Z in Q by lia. change (10 ^ 6) with 1000000 in *.
    assert (Z0 : 0 <= z). { assert (-1 < z); [|lia]. apply lt_IZR. apply Rabs_le_inv in Q. lra. }
    assert (ZU : z < 10 ^ 400).
    { apply lt_IZR. apply Rabs_le_inv in Q. apply Rle_lt_trans with (bpow radix2 1000 * 1000000 + 1)%R; [lra|]. rewrite <- (IZR_Zpower radix2 1000) by lia. rewrite <- mult_IZR, <- plus_IZR. apply IZR_lt. vm_compute. reflexivity. }
    clearbody z. set (D := (IZR z * p10 (-6))%R). assert (ED : D = (IZR z / 1000000)%R) by (unfold D; change (-6) with (- (6)); rewrite p10_neg by lia; reflexivity).
    destruct (fmtDigits_spec 400 (z / 1000000)) as (A1 & A2 & A3); [split; [apply Z.div_pos; lia|]; apply Z.le_lt_trans with z; [apply Z.div_le_upper_bound; lia|exact ZU]|lia|].
    assert (V : digitsValue (fmtDigits 400 (z / 1000000) ++ digitsN 6 z) = z) by (rewrite digitsValue_app, A3, digitsN_length, digitsN_mod; change (10 ^ Z.of_nat 6) with 1000000; pose proof (Z.div_mod z 1000000 ltac:(lia)); lia).
    assert (SO : is_finite (strtod s z (-6)) = true /\ B2R (strtod s z (-6)) = (if s then - rnd64 D else rnd64 D)%R).
    { destruct (Z.eq_dec z 0) as [->|N].
      - unfold D. rewrite Rmult_0_l. replace (rnd64 0) with 0%R by (symmetry; apply (rnd64_int 0); lia). rewrite strtod_zero. split; [reflexivity|]. cbn [B2R]. destruct s; lra.
      - apply strtod_ok; [lia|]. fold D. apply Rle_lt_trans with (bpow radix2 1001); [|apply bpow_lt; unfold emax64; lia]. apply rnd64_bpow_le; [lia|]. rewrite ED. rewrite Rabs_pos_eq; [|apply Rmult_le_pos; [apply IZR_le; exact Z0|lra]].
        apply Rabs_le_inv in Q. change 1001 with (1 + 1000). rewrite bpow_plus. change (bpow radix2 1) with 2%R. assert (1 <= bpow radix2 1000)%R by (change 1%R with (bpow radix2 0); apply bpow_le; lia). lra. }
    destruct SO as (S1 & S2). exists (strtod s z (-6)). split; [|split; [exact S1|]].
    + pose proof (read_fixed s (fmtDigits 400 (z / 1000000)) (digitsN 6 z) rest) as K. rewrite V, digitsN_length in K. apply K; [exact A1|exact A2|apply digitsN_dig|exact HR|exact S1].
    + assert (W : (Rabs (rnd64 D - x) <= / 1000000 + x * bpow radix2 (-52))%R).
      { pose proof (rnd64_err D) as ER. assert (DX : (Rabs (D - x) <= / 2000000)%R) by (rewrite ED; apply Rabs_le; apply Rabs_le_inv in Q; lra).
        assert (D0 : (0 <= D)%R) by (rewrite ED; apply Rmult_le_pos; [apply IZR_le; exact Z0|lra]). rewrite (Rabs_pos_eq D D0) in ER. apply Rabs_le_inv in DX.
        assert (P53 : bpow radix2 (-52) = (2 * bpow radix2 (-53))%R) by (change (-52) with (1 + -53); rewrite bpow_plus; reflexivity).
        assert (PS : (bpow radix2 (-53) <= / 1000000000)%R).
        { change (-53) with (- (53)). rewrite bpow_opp, <- (IZR_Zpower radix2 53) by lia. apply Rinv_le; [lra|]. apply IZR_le. vm_compute. discriminate. }
        assert (PT : (bpow radix2 (-1075) <= bpow radix2 (-53))%R) by (apply bpow_le; lia). pose proof (bpow_gt_0 radix2 (-53)) as P0.
        replace (rnd64 D - x)%R with ((rnd64 D - D) + (D - x))%R by ring. eapply Rle_trans; [apply Rabs_triang|]. assert (Rabs (D - x) <= / 2000000)%R by (apply Rabs_le; lra).
        assert (bpow radix2 (-53) * D <= bpow radix2 (-53) * (x + / 2000000))%R by (apply Rmult_le_compat_l; lra). rewrite P53. nra. }
      rewrite S2. destruct s; [rewrite Rabs_Ropp; replace (- rnd64 D - - x)%R with (- (rnd64 D - x))%R by ring; rewrite Rabs_Ropp|]; rewrite (Rabs_pos_eq x) by lra; exact W.
Qed.

(** a plus sign changes nothing *)
Theorem plus_ok c r : 48 <= c <= 57 -> readDouble (32 :: 43 :: c :: r) = readDouble (32 :: c :: r).
Proof.
  intros Hc. unfold readDouble. change (skipWs (32 :: 43 :: c :: r)) with (43 :: c :: r). change (skipWs (32 :: c :: r)) with (skipWs (c :: r)). rewrite dig_space by exact Hc. rewrite (takeSign_digit c r Hc). reflexivity.
Qed.

(** lines that do not start with C or S *)
Theorem other_ok eps perp us fresh order rank h1 h2 a line b mem : Forall (fun l => ~ In 10 l) (h1 :: h2 :: a ++ line :: b) -> hd 0 line <> 67 -> hd 0 line <> 83 ->
  setInitialFromFile eps perp us fresh order rank (flat_map (fun l => l ++ [10]) (h1 :: h2 :: a ++ line :: b)) mem =
  setInitialFromFile eps perp us fresh order rank (flat_map (fun l => l ++ [10]) (h1 :: h2 :: a ++ b)) mem.
Proof.
  intros F N1 N2. assert (G : forall ls, Forall (fun l => ~ In 10 l) ls -> getlines (flat_map (fun l => l ++ [10]) ls) = ls).
  { induction 1 as [|l ls Hl _ IH]; [reflexivity|]. cbn [flat_map]. rewrite <- app_assoc. cbn [app]. rewrite getlines_line; [rewrite IH; reflexivity|]. apply Forall_forall. intros c Hc E. subst c. contradiction. }
  assert (F' : Forall (fun l => ~ In 10 l) (h1 :: h2 :: a ++ b)).
  { inversion F as [|? ? F1 F2]; subst. inversion F2 as [|? ? F3 F4]; subst. constructor; [exact F1|]. constructor; [exact F3|]. apply Forall_app in F4. destruct F4 as (F4 & F5). inversion F5; subst. apply Forall_app. auto. }
  unfold setInitialFromFile. rewrite !G by assumption. cbn [skipn]. rewrite !filter_app. cbn [filter]. replace (isObject line) with false; [reflexivity|]. unfold isObject. symmetry. apply orb_false_intro; apply Z.eqb_neq; assumption.
Qed.
