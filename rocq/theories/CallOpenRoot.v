(** The root cell of CallModel in doubles, when no axis is periodic. *)
From Coq Require Import List Arith ZArith Lia Bool Permutation Reals Lra.
From Flocq Require Import Core BinarySingleNaN Relative Plus_error.
From Verif Require Import Outcome ListUtil F64 Arith ParticleModel VecModel PointsModel DomainModel MortonModel MortonSpec MortonProofs TreeModel TreeSpec TreeProofs TreeMoment TreeSearch TreeFloat LetModel LetSpec CallModel CallSpec CallRoot CallOpenSpec.
Import ListNotations.
Local Open Scope R_scope.

Definition u : R := / 9007199254740992.
Lemma u_eq : u53 = u.
Proof. unfold u53, u. cbn. lra. Qed.
Lemma eta_small : 0 < eta <= u * / 2 ^ 300.
Proof. split; [exact eta_pos|]. rewrite <- u_eq. unfold u53, eta. rewrite inv_pow. rewrite <- bpow_plus. apply bpow_le. lia. Qed.

Lemma big_lt x : Rabs x <= 2 ^ 300 -> Rabs (rnd64 x) < bpow radix2 emax64.
Proof.
  intros H. apply (Rle_lt_trans _ (bpow radix2 300)); [|apply bpow_lt; reflexivity]. apply rnd64_bpow_le; [lia|]. replace (bpow radix2 300) with (2 ^ 300); [exact H|].
  rewrite <- (Rinv_inv (2 ^ 300)), inv_pow, bpow_opp, Rinv_inv. reflexivity.
Qed.
Lemma sum_err x y : generic_format radix2 fexp64 x -> generic_format radix2 fexp64 y -> Rabs (rnd64 (x + y) - (x + y)) <= u * Rabs (x + y).
Proof.
  intros Hx Hy. destruct (FLT_plus_error_N_ex radix2 (3 - emax64 - prec64) prec64 (fun z => negb (Z.even z)) x y Hx Hy) as (e & He & E). unfold rnd64. change (round radix2 fexp64 ZnearestE (x + y)) with (round radix2 (FLT_exp (3 - emax64 - prec64) prec64) (Znearest (fun z => negb (Z.even z))) (x + y)). rewrite E.
  assert (Hu : u_ro radix2 prec64 = u53). { exact (half (-53)). } rewrite Hu in He. assert (P := u53_pos). assert (u53 / (1 + u53) <= u53). { apply (Rmult_le_reg_r (1 + u53)); [lra|]. unfold Rdiv. rewrite Rmult_assoc, Rinv_l by lra. nra. }
  replace ((x + y) * (1 + e) - (x + y)) with (e * (x + y)) by ring. rewrite Rabs_mult, <- u_eq. apply Rmult_le_compat_r; [apply Rabs_pos|lra].
Qed.
Lemma round_err x : Rabs (rnd64 x - x) <= u * Rabs x + eta.
Proof.
  destruct (error_N_FLT radix2 (3 - emax64 - prec64) prec64 eq_refl (fun z => negb (Z.even z)) x) as (e & d & He & Hd & _ & E). unfold rnd64. change (round radix2 fexp64 ZnearestE x) with (round radix2 (FLT_exp (3 - emax64 - prec64) prec64) (Znearest (fun z => negb (Z.even z))) x). rewrite E.
  assert (Hu : / 2 * bpow radix2 (- prec64 + 1) = u53). { exact (half (-53)). } assert (Hu' : / 2 * bpow radix2 (3 - emax64 - prec64) = eta). { exact (half (-1075)). }
  rewrite Hu in He. rewrite Hu' in Hd. replace (x * (1 + e) + d - x) with (e * x + d) by ring. apply (Rle_trans _ _ _ (Rabs_triang _ _)). rewrite Rabs_mult, <- u_eq. apply Rplus_le_compat; [apply Rmult_le_compat_r; [apply Rabs_pos|exact He]|exact Hd].
Qed.

Lemma add_err (x y : f64) : is_finite x = true -> is_finite y = true -> Rabs (B2R x + B2R y) <= 2 ^ 300 -> is_finite (fadd x y) = true /\ Rabs (B2R (fadd x y) - (B2R x + B2R y)) <= u * Rabs (B2R x + B2R y).
Proof. intros Hx Hy H. destruct (fadd_R x y Hx Hy (big_lt _ H)) as (E & F). split; [exact F|]. rewrite E. apply sum_err; apply f_format. Qed.
Lemma sub_err (x y : f64) : is_finite x = true -> is_finite y = true -> Rabs (B2R x - B2R y) <= 2 ^ 300 -> is_finite (fsub x y) = true /\ Rabs (B2R (fsub x y) - (B2R x - B2R y)) <= u * Rabs (B2R x - B2R y).
Proof. intros Hx Hy H. destruct (fsub_R x y Hx Hy (big_lt _ H)) as (E & F). split; [exact F|]. rewrite E. unfold Rminus. apply sum_err; [apply f_format|apply generic_format_opp, f_format]. Qed.
Lemma mul_err (x y : f64) : is_finite x = true -> is_finite y = true -> Rabs (B2R x * B2R y) <= 2 ^ 300 -> is_finite (fmul x y) = true /\ Rabs (B2R (fmul x y) - B2R x * B2R y) <= u * Rabs (B2R x * B2R y) + eta.
Proof. intros Hx Hy H. destruct (fmul_R x y Hx Hy (big_lt _ H)) as (E & F). split; [exact F|]. rewrite E. apply round_err. Qed.
Lemma div_err (x y : f64) : is_finite x = true -> B2R y <> 0 -> Rabs (B2R x / B2R y) <= 2 ^ 300 -> is_finite (fdiv x y) = true /\ Rabs (B2R (fdiv x y) - B2R x / B2R y) <= u * Rabs (B2R x / B2R y) + eta.
Proof. intros Hx Hy H. destruct (fdiv_R x y Hy Hx (big_lt _ H)) as (E & F). split; [exact F|]. rewrite E. apply round_err. Qed.
(* nonnegative operands *)
Lemma mul_pos (x y : f64) : is_finite x = true -> is_finite y = true -> 0 <= B2R x * B2R y <= 2 ^ 300 -> is_finite (fmul x y) = true /\ B2R x * B2R y * (1 - u) - eta <= B2R (fmul x y) <= B2R x * B2R y * (1 + u) + eta /\ 0 <= B2R (fmul x y).
Proof.
  intros Hx Hy (H0 & H). destruct (mul_err x y Hx Hy) as (F & E); [rewrite Rabs_pos_eq; assumption|]. split; [exact F|]. rewrite (Rabs_pos_eq _ H0) in E. apply Rabs_le_inv in E. split; [lra|].
  destruct (fmul_R x y Hx Hy) as (-> & _); [apply big_lt; rewrite Rabs_pos_eq; assumption|]. apply rnd64_pos. exact H0.
Qed.

Lemma half_lit : B2R (f_lit 1 (-1)) = / 2 /\ is_finite (f_lit 1 (-1)) = true.
Proof. exact (f_lit_pow2 (-1) ltac:(lia)). Qed.
Lemma margin_F : B2R (@margin F_arith : f64) = 4503604130970123 / 4503599627370496 /\ is_finite (@margin F_arith : f64) = true.
Proof.
  assert (E : B2SF (@margin F_arith : f64) = SpecFloat.S754_finite false 4503604130970123 (-52)) by (vm_compute; reflexivity). split.
  - rewrite <- SF2R_B2SF, E. unfold SF2R, F2R. cbn [Defs.Fnum Defs.Fexp cond_Zopp]. cbn. lra.
  - rewrite <- is_finite_SF_B2SF, E. reflexivity.
Qed.

(** the scales *)
Lemma scales : exists B P IB IP, 2 ^ 150 = B /\ 2 ^ 120 = P /\ / 2 ^ 150 = IB /\ / 2 ^ 120 = IP /\ 2 ^ 300 = B * B /\ / 2 ^ 300 = IB * IB /\ B = P * 1073741824 /\ IP = IB * 1073741824 /\ 1000000 <= P /\ 0 < IB <= / 1000000 /\ B * IB = 1.
Proof.
  exists (2 ^ 150), (2 ^ 120), (/ 2 ^ 150), (/ 2 ^ 120). repeat (split; [reflexivity|]). assert (E3 : 2 ^ 300 = 2 ^ 150 * 2 ^ 150) by (rewrite <- pow_add; reflexivity). assert (E1 : 2 ^ 150 = 2 ^ 120 * 2 ^ 30) by (rewrite <- pow_add; reflexivity).
  assert (Q : 2 ^ 20 <= 2 ^ 120) by (apply Rle_pow; [lra|lia]). assert (Q' : 2 ^ 20 <= 2 ^ 150) by (apply Rle_pow; [lra|lia]). split; [exact E3|]. split; [rewrite E3; apply Rinv_mult|]. split; [rewrite E1; f_equal; lra|].
  split; [rewrite E1; rewrite Rinv_mult; field; split; apply pow_nonzero; lra|]. split; [lra|]. split; [|apply Rinv_r, pow_nonzero; lra]. split; [apply Rinv_0_lt_compat, pow_lt; lra|]. apply Rinv_le; lra.
Qed.

(** the half length of the cell and the factor *)
Lemma cell_ok (L : f64) : is_finite L = true -> / 2 ^ 120 <= B2R L <= 2 ^ 120 ->
  let h := fmul (fmul L (@margin F_arith)) (f_lit 1 (-1)) in let f := @factor F_arith h : f64 in
  is_finite h = true /\ 0.50000044 * B2R L <= B2R h <= 0.500001 * B2R L /\ is_finite f = true /\ 0 < B2R f <= 2 ^ 150 /\ B2R f * (2 * B2R h) <= 2097152 * (1 + 8 * u).
Proof.
  intros FL HL h f. destruct half_lit as (H1 & H2). destruct margin_F as (M1 & M2). pose proof eta_small as ET. 
  destruct scales as (B & P & IB & IP & EB & EP & EIB & EIP & E3 & EI3 & BP & IPB & P1 & IB1 & BI). rewrite EI3 in ET. rewrite EIP, EP in HL. rewrite EB. unfold u in *.
  assert (X : eta <= / 9007199254740992 * IB * / 1000000) by nra. assert (X3 : B <= 2 ^ 300) by (rewrite E3; nra).
  destruct (mul_pos L (@margin F_arith) FL M2) as (F1 & E1 & _); [rewrite M1; split; lra|]. rewrite M1 in E1. set (len := fmul L _) in *.
  assert (Len : 1.0000009 * B2R L <= B2R len <= 1.0000011 * B2R L) by (unfold u in E1; lra).
  destruct (mul_pos len (f_lit 1 (-1)) F1 H2) as (F2 & E2 & _); [rewrite H1; split; lra|]. rewrite H1 in E2. fold h in F2, E2. unfold u in E2.
  assert (Hh : 0.50000044 * B2R L <= B2R h <= 0.500001 * B2R L) by lra. split; [exact F2|]. split; [exact Hh|].
  destruct (f_ofZ_exact 2) as (T1 & T2); [cbn; lia|]. destruct (f_ofZ_exact 1) as (O1 & O2); [cbn; lia|]. destruct (f_ofZ_exact (2 ^ 21)) as (G1 & G2); [cbn; lia|]. change (2 ^ 21)%Z with 2097152%Z in *.
  destruct (mul_pos h (f_ofZ 2) F2 T2) as (F3 & E3' & _); [rewrite T1; split; lra|]. rewrite T1 in E3'. unfold u in E3'. set (w := fmul h (f_ofZ 2)) in *.
  assert (W0 : 0 < B2R w) by lra. pose proof (Rinv_l (B2R w) ltac:(lra)) as WI. set (iw := / B2R w) in *. assert (IW0 : 0 < iw) by (apply Rinv_0_lt_compat; exact W0).
  assert (IW : IB <= iw * / 1000000). { apply (Rmult_le_reg_r (B2R w)); [exact W0|]. replace (iw * / 1000000 * B2R w) with (/ 1000000) by (rewrite (Rmult_comm iw), Rmult_assoc, WI; ring). nra. }
  assert (IW2 : iw * 1000000000 <= B * 2). { apply (Rmult_le_reg_r (B2R w)); [exact W0|]. replace (iw * 1000000000 * B2R w) with 1000000000 by (rewrite (Rmult_comm iw), Rmult_assoc, WI; ring). assert (IB * 1073741824 <= B2R w) by lra. nra. }
  destruct (div_err (f_ofZ 1) w O2) as (F4 & E4); [lra|rewrite O1; unfold Rdiv; fold iw; rewrite Rmult_1_l, Rabs_pos_eq by lra; lra|]. rewrite O1 in E4. unfold Rdiv in E4. fold iw in E4. rewrite Rmult_1_l, (Rabs_pos_eq iw) in E4 by lra. apply Rabs_le_inv in E4. unfold u in E4. set (q := fdiv (f_ofZ 1) w) in *.
  destruct (mul_pos q (f_ofZ 2097152) F4 G2) as (F5 & E5 & _); [rewrite G1; split; lra|]. rewrite G1 in E5. unfold u in E5. change (fmul q (f_ofZ 2097152)) with f in *.
  split; [exact F5|]. split; [lra|]. assert (Ff : B2R f <= iw * 2097152 * (1 + 3 * / 9007199254740992)) by lra. assert (Hw : 2 * B2R h <= B2R w * (1 + 2 * / 9007199254740992)) by lra.
  apply (Rle_trans _ (iw * 2097152 * (1 + 3 * / 9007199254740992) * (B2R w * (1 + 2 * / 9007199254740992)))); [apply Rmult_le_compat; lra|].
  replace (iw * 2097152 * (1 + 3 * / 9007199254740992) * (B2R w * (1 + 2 * / 9007199254740992))) with ((iw * B2R w) * (2097152 * (1 + 3 * / 9007199254740992) * (1 + 2 * / 9007199254740992))) by ring. rewrite WI. lra.
Qed.

(** a coordinate between lo and hi has a place in the cell *)
Lemma axis_ok (L lo hi p : f64) (B : R) : is_finite L = true -> is_finite lo = true -> is_finite hi = true -> is_finite p = true -> / 2 ^ 120 <= B2R L <= 2 ^ 120 ->
  B2R lo <= B2R p <= B2R hi -> Rabs (B2R lo) <= B -> Rabs (B2R hi) <= B -> B <= 2 ^ 110 -> B <= 2 ^ 26 * (B2R hi - B2R lo) -> B2R (fsub hi lo) <= B2R L ->
  let h := fmul (fmul L (@margin F_arith)) (f_lit 1 (-1)) in exists n, @grid F_arith f_cast h (fmul (fadd hi lo) (f_lit 1 (-1))) p = Done n /\ on_grid n.
Proof.
  intros FL Flo Fhi Fp HL Hp Blo Bhi HB1 HB HS h. pose proof (cell_ok L FL HL) as C. cbv zeta in C. fold h in C. destruct C as (Fh & Hh & Ff & Hf & Hfh). destruct half_lit as (H1 & H2). pose proof eta_small as ET.
  assert (Q : 2 ^ 110 <= 2 ^ 120 * / 1000). { replace (2 ^ 120) with (2 ^ 110 * 2 ^ 10) by (rewrite <- pow_add; reflexivity). pose proof (pow_lt 2 110 ltac:(lra)). lra. }
  destruct scales as (BB & P & IB & IP & EB & EP & EIB & EIP & E3 & EI3 & BP & IPB & P1 & IB1 & BI). rewrite EI3 in ET. rewrite EIP, EP in HL. rewrite EP in Q. rewrite EB in Hf. unfold u in *.
  assert (X : eta <= / 9007199254740992 * IB * / 1000000) by nra. assert (X3 : BB * 1000 <= 2 ^ 300) by (rewrite E3; nra). apply Rabs_le_inv in Blo, Bhi.
  assert (E26 : 2 ^ 26 = 67108864) by lra. rewrite E26 in HB.
  destruct (sub_err hi lo Fhi Flo) as (F0 & E0); [apply Rabs_le; lra|]. rewrite (Rabs_pos_eq (B2R hi - B2R lo)) in E0 by lra. apply Rabs_le_inv in E0. unfold u in E0.
  destruct (add_err hi lo Fhi Flo) as (F1 & E1); [apply Rabs_le; lra|]. set (y := fadd hi lo) in *. assert (A1 : Rabs (B2R hi + B2R lo) <= 2 * B) by (apply Rabs_le; lra). apply Rabs_le_inv in E1. unfold u in E1.
  assert (Y : Rabs (B2R y) <= 2.1 * B) by (pose proof (Rabs_le_inv _ _ A1); apply Rabs_le; lra).
  destruct (mul_err y (f_lit 1 (-1)) F1 H2) as (F2 & E2); [rewrite H1; apply Rabs_le_inv in Y; apply Rabs_le; lra|]. rewrite H1 in E2. set (cen := fmul y _) in *.
  assert (A2 : Rabs (B2R y * / 2) <= 1.05 * B) by (apply Rabs_le_inv in Y; apply Rabs_le; lra). apply Rabs_le_inv in E2. unfold u in E2. 
  assert (B0 : 0 <= B) by lra. assert (BS : B2R hi - B2R lo <= 2 * B) by lra.
  assert (Cen : Rabs (B2R cen - (B2R hi + B2R lo) / 2) <= / 9007199254740992 * (2.1 * B) + eta) by (apply Rabs_le; lra).
  apply Rabs_le_inv in Cen.
  destruct (sub_err p cen Fp F2) as (F3 & E3'); [apply Rabs_le; lra|]. set (d := fsub p cen) in *. assert (A3 : Rabs (B2R p - B2R cen) <= 2.1 * B + eta) by (apply Rabs_le; lra). apply Rabs_le_inv in E3'. unfold u in E3'.
  assert (D : Rabs (B2R d - (B2R p - (B2R hi + B2R lo) / 2)) <= / 9007199254740992 * (4.3 * B) + 2 * eta) by (apply Rabs_le; lra). apply Rabs_le_inv in D.
  assert (SL : B2R hi - B2R lo <= B2R L * 1.00000001) by lra.
  assert (D1 : - (B2R h * 0.99999999) <= B2R d <= B2R h * 0.9999999) by lra.
  destruct (add_err d h F3 Fh) as (F4 & E4); [apply Rabs_le; lra|]. set (s := fadd d h) in *. rewrite (Rabs_pos_eq (B2R d + B2R h)) in E4 by lra. apply Rabs_le_inv in E4. unfold u in E4.
  assert (S : 0 <= B2R s <= 2 * B2R h * 0.99999999) by lra.
  set (f := @factor F_arith h : f64) in *.
  assert (SF : 0 <= B2R s * B2R f <= 2097152 * 0.999999991).
  { split; [apply Rmult_le_pos; lra|]. apply (Rle_trans _ (2 * B2R h * 0.99999999 * B2R f)); [apply Rmult_le_compat_r; lra|]. replace (2 * B2R h * 0.99999999 * B2R f) with (0.99999999 * (B2R f * (2 * B2R h))) by ring. lra. }
  destruct (mul_pos s f F4 Ff) as (F5 & E5 & E5'); [split; lra|]. unfold u in E5. assert (Lt : B2R (fmul s f) < 2097152) by lra.
  unfold grid. change (@a_mul F_arith (@a_add F_arith (@a_sub F_arith p cen) h) (@factor F_arith h)) with (fmul s f). set (x := fmul s f) in *. 
  assert (EC : f_cast x = Ztrunc (B2R x)). { unfold f_cast. change (f_finite x) with (is_finite x). rewrite F5. apply f_trunc_R. }
  assert (Hn : (0 <= f_cast x < 2 ^ 21)%Z). { rewrite EC, Ztrunc_floor by exact E5'. split; [apply Zfloor_lub; exact E5'|]. apply lt_IZR. apply (Rle_lt_trans _ (B2R x)); [apply Zfloor_lb|exact Lt]. }
  exists (f_cast x). split; [|exact Hn]. replace ((0 <=? f_cast x) && (f_cast x <? two64))%Z with true; [reflexivity|]. symmetry. apply andb_true_intro. split; [apply Z.leb_le; lia|apply Z.ltb_lt]. unfold two64. lia.
Qed.

(** the longest of three *)
Definition longerF (l x : f64) : f64 := if flt l x then x else l.
Lemma longest_F (a b c : f64) (T : R) : is_finite a = true -> is_finite b = true -> is_finite c = true -> 0 <= B2R a <= T -> 0 <= B2R b <= T -> 0 <= B2R c <= T ->
  let L := longerF (longerF (longerF (f_ofZ 0) a) b) c in is_finite L = true /\ B2R a <= B2R L /\ B2R b <= B2R L /\ B2R c <= B2R L /\ B2R L <= T.
Proof.
  intros Fa Fb Fc Ha Hb Hc L. destruct (f_ofZ_exact 0) as (O1 & O2); [cbn; lia|].
  assert (G : forall l x, is_finite l = true -> is_finite x = true -> B2R l <= T -> B2R x <= T -> is_finite (longerF l x) = true /\ B2R l <= B2R (longerF l x) /\ B2R x <= B2R (longerF l x) /\ B2R (longerF l x) <= T).
  { intros l x Fl Fx Hl Hx. unfold longerF. destruct (flt l x) eqn:E; [apply flt_R in E; try assumption; repeat split; try assumption; lra|]. assert (N : ~ B2R l < B2R x) by (intros N; apply flt_R in N; try assumption; congruence). repeat split; try assumption; lra. }
  destruct (G (f_ofZ 0) a O2 Fa) as (F1 & A1 & A2 & A3); [lra|lra|]. destruct (G _ b F1 Fb) as (F2 & B1 & B2 & B3); [lra|lra|]. destruct (G _ c F2 Fc) as (F3 & C1 & C2 & C3); [lra|lra|]. fold L in F3, C1, C2, C3. repeat split; try assumption; lra.
Qed.

Section Open.
  Context {P : Type} (root : ort F_arith) (doms : list (ort F_arith)) (E : list (list (item F_arith P))) (HW : arena_open root doms E).

  Lemma reach_F (e : item F_arith P) : In e (concat E) -> let r := B2R (s_rad (i_site e) : f64) in let m := fmul (s_rad (i_site e)) (@margin F_arith) in is_finite m = true /\ r <= B2R m <= 1.01 * 2 ^ 100.
  Proof using HW.
    intros He r m. destruct (w_rad _ _ _ HW e He) as (F & R0 & R1). unfold finite, real in F, R0, R1. destruct margin_F as (M1 & M2). fold r in R0, R1. pose proof eta_small as ET.
    assert (K : 1000 <= 2 ^ 100 /\ 0 < / 2 ^ 300 <= 1 /\ 2 ^ 100 * 1000 <= 2 ^ 300).
    { assert (2 ^ 10 <= 2 ^ 100) by (apply Rle_pow; [lra|lia]). assert (2 ^ 110 <= 2 ^ 300) by (apply Rle_pow; [lra|lia]). assert (2 ^ 110 = 2 ^ 100 * 2 ^ 10) by (rewrite <- pow_add; reflexivity). split; [lra|]. split; [|lra]. split; [apply Rinv_0_lt_compat, pow_lt; lra|]. rewrite <- Rinv_1. apply Rinv_le; lra. }
    unfold u in ET. destruct (mul_pos (s_rad (i_site e)) (@margin F_arith) F M2) as (F1 & E1 & _); [rewrite M1; fold r; split; lra|]. rewrite M1 in E1. fold r in E1. fold m in F1, E1. unfold u in E1. split; [exact F1|]. split; [|nra].
    unfold m. destruct (fmul_R (s_rad (i_site e)) (@margin F_arith) F M2) as (-> & _); [apply big_lt; rewrite M1; fold r; rewrite Rabs_pos_eq; lra|]. rewrite M1. fold r. replace r with (rnd64 r) at 1 by (apply rnd64_F). apply rnd64_mono. lra.
  Qed.

  Lemma fat_F (e : item F_arith P) c : In e (concat E) -> In c coords -> let p := B2R (c (s_pos (i_site e)) : f64) in let m := B2R (fmul (s_rad (i_site e)) (@margin F_arith)) in
    let lo := c (olow (fat e)) : f64 in let hi := c (ohigh (fat e)) : f64 in
    is_finite lo = true /\ is_finite hi = true /\ B2R lo <= p <= B2R hi /\ Rabs (B2R lo - (p - m)) <= u * (Rabs p + m) /\ Rabs (B2R hi - (p + m)) <= u * (Rabs p + m).
  Proof using HW.
    intros He Hc p m lo hi. destruct (reach_F e He) as (Fm & M0 & M1). fold m in M0, M1. destruct (w_pos _ _ _ HW e c He Hc) as (Fp & Hp). unfold finite, real in Fp, Hp. fold p in Hp. destruct (w_rad _ _ _ HW e He) as (_ & R0 & _). unfold real in R0.
    assert (K : 2 ^ 100 * 1000 <= 2 ^ 300). { assert (2 ^ 110 <= 2 ^ 300) by (apply Rle_pow; [lra|lia]). assert (2 ^ 110 = 2 ^ 100 * 2 ^ 10) by (rewrite <- pow_add; reflexivity). pose proof (pow_lt 2 100 ltac:(lra)). lra. }
    assert (El : lo = fsub (c (s_pos (i_site e))) (fmul (s_rad (i_site e)) (@margin F_arith))) by (destruct Hc as [<-|[<-|[<-|[]]]]; reflexivity). assert (Eh : hi = fadd (c (s_pos (i_site e))) (fmul (s_rad (i_site e)) (@margin F_arith))) by (destruct Hc as [<-|[<-|[<-|[]]]]; reflexivity).
    assert (T1 : Rabs (p - m) <= Rabs p + m) by (unfold Rminus; apply (Rle_trans _ _ _ (Rabs_triang _ _)); rewrite Rabs_Ropp, (Rabs_pos_eq m); lra). assert (T2 : Rabs (p + m) <= Rabs p + m) by (apply (Rle_trans _ _ _ (Rabs_triang _ _)); rewrite (Rabs_pos_eq m); lra).
    destruct (sub_err (c (s_pos (i_site e))) (fmul (s_rad (i_site e)) (@margin F_arith)) Fp Fm) as (A1 & A2); [fold p m; lra|]. destruct (add_err (c (s_pos (i_site e))) (fmul (s_rad (i_site e)) (@margin F_arith)) Fp Fm) as (B1 & B2); [fold p m; lra|].
    fold p m in A2, B2. rewrite El, Eh. split; [exact A1|]. split; [exact B1|]. assert (0 < u) by (unfold u; lra). split; [|split; [apply (Rle_trans _ _ _ A2); apply Rmult_le_compat_l; lra|apply (Rle_trans _ _ _ B2); apply Rmult_le_compat_l; lra]].
    assert (Z1 : Rabs (p - m) <= 2 ^ 300) by lra. assert (Z2 : Rabs (p + m) <= 2 ^ 300) by lra. destruct (fsub_R _ _ Fp Fm (big_lt _ Z1)) as (-> & _). destruct (fadd_R _ _ Fp Fm (big_lt _ Z2)) as (-> & _). fold p m. assert (EP : rnd64 p = p) by (apply rnd64_F). split; [apply (Rle_trans _ (rnd64 p)); [apply rnd64_mono|]; lra|apply (Rle_trans _ (rnd64 p)); [|apply rnd64_mono]; lra].
  Qed.

  (** the box around all search spheres *)
  Lemma outer_F my c (e0 : item F_arith P) : @hullF F_arith finite real (map fat (concat E)) my -> In c coords -> In e0 (concat E) -> let lo := c (olow my) : f64 in let hi := c (ohigh my) : f64 in
    is_finite lo = true /\ is_finite hi = true /\ (forall e, In e (concat E) -> B2R lo <= B2R (c (s_pos (i_site e)) : f64) <= B2R hi) /\
    exists B, Rabs (B2R lo) <= B /\ Rabs (B2R hi) <= B /\ B <= 2 ^ 103 /\ B <= 2 ^ 26 * (B2R hi - B2R lo) /\ / 2 ^ 100 <= B2R hi - B2R lo.
  Proof using HW.
    intros HM Hc He0 lo hi. destruct (HM c Hc) as ((Fl & L & xl & Il & El) & (Fh & G & xh & Ih & Eh)). unfold finite, real in *. fold lo in Fl, L, El. fold hi in Fh, G, Eh. 
    assert (HL : forall e, In e (concat E) -> B2R lo <= B2R (c (olow (fat e)) : f64) /\ B2R (c (ohigh (fat e)) : f64) <= B2R hi).
    { intros e He. split; [apply L|apply G]; right; rewrite map_map; [apply (in_map (fun x : item F_arith P => c (olow (fat x))))|apply (in_map (fun x : item F_arith P => c (ohigh (fat x))))]; exact He. }
    split; [exact Fl|]. split; [exact Fh|]. split. { intros e He. pose proof (HL e He). pose proof (fat_F e c He Hc) as (_ & _ & X & _). lra. }
    assert (P0 : 0 < 2 ^ 100) by (apply pow_lt; lra). assert (E103 : 2 ^ 103 = 8 * 2 ^ 100) by (replace (2 ^ 103) with (2 ^ 3 * 2 ^ 100) by (rewrite <- pow_add; reflexivity); lra).
    assert (Big : 16777215 * 2 ^ 97 = 16777215 / 8 * 2 ^ 100) by (replace (2 ^ 100) with (2 ^ 3 * 2 ^ 97) by (rewrite <- pow_add; reflexivity); lra).
    destruct doubles_ordered as [_ _ (_ & _ & I1 & I2)]. unfold real in I1, I2.
    assert (Nm : forall e, In e (concat E) -> Rabs (B2R (c (olow (fat e)) : f64)) <= 3 * 2 ^ 100 /\ Rabs (B2R (c (ohigh (fat e)) : f64)) <= 3 * 2 ^ 100).
    { intros e He. pose proof (fat_F e c He Hc) as (_ & _ & _ & X1 & X2). destruct (reach_F e He) as (_ & _ & M1). destruct (w_pos _ _ _ HW e c He Hc) as (_ & Hp). unfold real in Hp. pose proof (Rabs_le_inv _ _ Hp) as Hp'. apply Rabs_le_inv in X1, X2. unfold u in X1, X2. destruct (reach_F e He) as (_ & M0 & _). destruct (w_rad _ _ _ HW e He) as (_ & R0 & _). unfold real in R0. split; apply Rabs_le; lra. }
    assert (HLo : exists e1, In e1 (concat E) /\ B2R lo = B2R (c (olow (fat e1)) : f64)).
    { destruct Il as [<-|Il]; [exfalso|rewrite map_map in Il; apply in_map_iff in Il; destruct Il as (e1 & <- & He1); exists e1; auto]. rewrite I1 in El. pose proof (HL e0 He0). destruct (Nm e0 He0) as (N1 & _). apply Rabs_le_inv in N1. lra. }
    assert (HHi : exists e2, In e2 (concat E) /\ B2R hi = B2R (c (ohigh (fat e2)) : f64)).
    { destruct Ih as [<-|Ih]; [exfalso|rewrite map_map in Ih; apply in_map_iff in Ih; destruct Ih as (e1 & <- & He1); exists e1; auto]. rewrite I2 in Eh. pose proof (HL e0 He0). destruct (Nm e0 He0) as (_ & N1). apply Rabs_le_inv in N1. lra. }
    destruct (w_wide _ _ _ HW) as (big & Hb & Rb & Wb); [intros X; rewrite X in He0; exact He0|]. unfold real in Rb, Wb. set (rho := B2R (s_rad (i_site big) : f64)) in *.
    assert (E26 : 2 ^ 26 = 67108864) by lra. rewrite E26 in *.
    assert (Ext : forall e, In e (concat E) -> Rabs (B2R (c (s_pos (i_site e)) : f64)) <= 67108864 * rho /\ 1.99 * B2R (fmul (s_rad (i_site e)) (@margin F_arith)) - 0.0001 * rho <= B2R hi - B2R lo /\
      Rabs (B2R (c (olow (fat e)) : f64)) <= 67108864.1 * rho + 1.01 * B2R (fmul (s_rad (i_site e)) (@margin F_arith)) /\ Rabs (B2R (c (ohigh (fat e)) : f64)) <= 67108864.1 * rho + 1.01 * B2R (fmul (s_rad (i_site e)) (@margin F_arith))).
    { intros e He. pose proof (Wb e c He Hc) as Hp. split; [exact Hp|]. pose proof (Rabs_le_inv _ _ Hp) as Hp'. pose proof (HL e He) as H. pose proof (fat_F e c He Hc) as (_ & _ & _ & X1 & X2). destruct (reach_F e He) as (_ & M0 & _). destruct (w_rad _ _ _ HW e He) as (_ & R0 & _). unfold real in R0. apply Rabs_le_inv in X1, X2. unfold u in X1, X2.
      split; [lra|]. split; apply Rabs_le; lra. }
    destruct (reach_F big Hb) as (_ & Mb & _). fold rho in Mb. destruct (Ext big Hb) as (_ & Eb & _). assert (R0 : 0 < rho) by (apply (Rlt_le_trans _ (/ 2 ^ 100)); [apply Rinv_0_lt_compat; exact P0|exact Rb]).
    destruct HLo as (e1 & He1 & E1). destruct HHi as (e2 & He2 & E2). destruct (Ext e1 He1) as (_ & X1 & X2 & _). destruct (Ext e2 He2) as (_ & Y1 & _ & Y2). rewrite <- E1 in X2. rewrite <- E2 in Y2. destruct (Nm e1 He1) as (N1 & _). destruct (Nm e2 He2) as (_ & N2). rewrite <- E1 in N1. rewrite <- E2 in N2.
    exists (Rmax (Rabs (B2R lo)) (Rabs (B2R hi))). split; [apply Rmax_l|]. split; [apply Rmax_r|]. split; [apply Rmax_lub; lra|]. split; [apply Rmax_lub; lra|]. lra.
  Qed.

  Lemma usable_F (e : item F_arith P) : In e (concat E) -> usable finite real [i_site e].
  Proof using HW.
    intros He x [<-|[]]. destruct (w_rad _ _ _ HW e He) as (Fr & R0 & R1). assert (P0 : 0 < 2 ^ 100) by (apply pow_lt; lra).
    assert (Big : 16777215 * 2 ^ 97 = 16777215 / 8 * 2 ^ 100) by (replace (2 ^ 100) with (2 ^ 3 * 2 ^ 97) by (rewrite <- pow_add; reflexivity); lra).
    assert (K : 2 ^ 100 * 1000 <= 2 ^ 300). { assert (2 ^ 110 <= 2 ^ 300) by (apply Rle_pow; [lra|lia]). assert (2 ^ 110 = 2 ^ 100 * 2 ^ 10) by (rewrite <- pow_add; reflexivity). lra. }
    split; [|split; [|split; [exact Fr|exact R0]]].
    - intros c Hc. destruct (w_pos _ _ _ HW e c He Hc) as (Fp & Hp). assert (X : Rabs (real (c (s_pos (i_site e)))) <= 16777215 * 2 ^ 97) by lra. cbn [point olow ohigh]. auto.
    - intros c Hc. destruct (w_pos _ _ _ HW e c He Hc) as (Fp & Hp). pose proof (Rabs_le_inv _ _ Hp) as Hp'. rewrite ball_low_F, ball_high_F by exact Hc. unfold finite, real in *.
      assert (A : Rabs (B2R (c (s_pos (i_site e)) : f64) - B2R (s_rad (i_site e) : f64)) <= 2 * 2 ^ 100) by (apply Rabs_le; lra). assert (A' : Rabs (B2R (c (s_pos (i_site e)) : f64) + B2R (s_rad (i_site e) : f64)) <= 2 * 2 ^ 100) by (apply Rabs_le; lra).
      destruct (sub_err _ _ Fp Fr) as (S1 & S2); [lra|]. destruct (add_err _ _ Fp Fr) as (T1 & T2); [lra|]. split; [exact S1|]. split; [exact T1|]. apply Rabs_le_inv in S2, T2. unfold u in S2, T2. apply Rabs_le_inv in A as A1. apply Rabs_le_inv in A' as A1'. split; apply Rabs_le; lra.
  Qed.

  Theorem root_cell_open deal fuel : (forall r own, nth_error E r = Some own -> Permutation (concat (deal r)) (seq 0 (length own))) ->
    exists cell, @setRootCell F_arith P deal fuel open root E = Done cell /\ forall e, In e (concat E) -> keyed_at (@cellKey F_arith f_cast cell) (s_pos (i_site e)).
  Proof using HW.
    intros Hd. destruct (boxes_ok finite real doubles_ordered deal E) as (boxes & B1 & B2).
    { intros own e Ho He c Hc. destruct (fat_F e c) as (A1 & A2 & _); [apply in_concat; eauto|exact Hc|]. split; assumption. } { exact Hd. }
    set (my := outerBox boxes) in *. unfold setRootCell. rewrite B1. cbn [obind]. fold my. eexists. split; [reflexivity|]. intros e0 He0. cbn [axisCell open vx vy vz fst snd].
    set (dx := fsub (vx (ohigh my)) (vx (olow my))). set (dy := fsub (vy (ohigh my)) (vy (olow my))). set (dz := fsub (vz (ohigh my)) (vz (olow my))).
    change (keyed_at (@cellKey F_arith f_cast (Vec (fmul (fadd (vx (ohigh my)) (vx (olow my))) (f_lit 1 (-1))) (fmul (fadd (vy (ohigh my)) (vy (olow my))) (f_lit 1 (-1))) (fmul (fadd (vz (ohigh my)) (vz (olow my))) (f_lit 1 (-1))),
      fmul (longerF (longerF (longerF (f_ofZ 0) dx) dy) dz) (@margin F_arith))) (s_pos (i_site e0))).
    assert (K : 2 ^ 103 * 1000 <= 2 ^ 120 /\ 2 ^ 120 <= 2 ^ 300 /\ 2 ^ 103 <= 2 ^ 110). { split; [|split; apply Rle_pow; try lra; lia]. replace (2 ^ 120) with (2 ^ 103 * 2 ^ 17) by (rewrite <- pow_add; reflexivity). pose proof (pow_lt 2 103 ltac:(lra)). lra. }
    assert (I : / 2 ^ 120 <= / 2 ^ 100 * / 1000). { replace (2 ^ 120) with (2 ^ 100 * 2 ^ 20) by (rewrite <- pow_add; reflexivity). rewrite Rinv_mult. apply Rmult_le_compat_l; [left; apply Rinv_0_lt_compat, pow_lt; lra|]. lra. } assert (I0 : 0 < / 2 ^ 100) by (apply Rinv_0_lt_compat, pow_lt; lra).
    assert (D : forall c, In c coords -> let d := fsub (c (ohigh my)) (c (olow my)) in is_finite d = true /\ / 2 ^ 120 <= B2R d <= 2 ^ 120).
    { intros c Hc d. destruct (outer_F my c e0 B2 Hc He0) as (Fl & Fh & _ & B & X1 & X2 & X3 & X4 & X5). apply Rabs_le_inv in X1, X2. destruct (sub_err _ _ Fh Fl) as (F & Er); [apply Rabs_le; lra|]. fold d in F, Er. split; [exact F|]. rewrite (Rabs_pos_eq (B2R (c (ohigh my) : f64) - B2R (c (olow my) : f64))) in Er by lra. apply Rabs_le_inv in Er. unfold u in Er. lra. }
    destruct (D vx ltac:(cbn; auto)) as (Fx & Dx). destruct (D vy ltac:(cbn; auto)) as (Fy & Dy). destruct (D vz ltac:(cbn; auto)) as (Fz & Dz). fold dx in Fx, Dx. fold dy in Fy, Dy. fold dz in Fz, Dz.
    destruct (longest_F dx dy dz (2 ^ 120) Fx Fy Fz) as (FL & L1 & L2 & L3 & L4); [lra|lra|lra|]. set (L := longerF (longerF (longerF (f_ofZ 0) dx) dy) dz) in *.
    assert (HL : / 2 ^ 120 <= B2R L <= 2 ^ 120) by lra.
    assert (G : forall c, In c coords -> B2R (fsub (c (ohigh my)) (c (olow my))) <= B2R L -> exists n, @grid F_arith f_cast (fmul (fmul L (@margin F_arith)) (f_lit 1 (-1))) (fmul (fadd (c (ohigh my)) (c (olow my))) (f_lit 1 (-1))) (c (s_pos (i_site e0))) = Done n /\ on_grid n).
    { intros c Hc HS. destruct (outer_F my c e0 B2 Hc He0) as (Fl & Fh & In0 & B & X1 & X2 & X3 & X4 & X5). destruct (w_pos _ _ _ HW e0 c He0 Hc) as (Fp & _). apply (axis_ok L (c (olow my)) (c (ohigh my)) (c (s_pos (i_site e0))) B); try assumption; [apply In0; exact He0|lra]. }
    destruct (G vx ltac:(cbn; auto) L1) as (x & X1 & X2). destruct (G vy ltac:(cbn; auto) L2) as (y & Y1 & Y2). destruct (G vz ltac:(cbn; auto) L3) as (z & Z1 & Z2).
    exists (key3 x y z). split; [|exact (key3_63 x y z X2 Y2 Z2)]. unfold cellKey, getKey. cbn [fst snd vx vy vz]. refine (eq_trans (f_equal (fun o => obind o _) X1) _). cbn [obind].
    refine (eq_trans (f_equal (fun o => obind o _) Y1) _). cbn [obind]. refine (eq_trans (f_equal (fun o => obind o _) Z1) _). reflexivity.
  Qed.
End Open.
