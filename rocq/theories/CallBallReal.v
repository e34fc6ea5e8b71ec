(** Two spheres in doubles: the search finds them and the functor makes a block. *)
From Coq Require Import List Arith ZArith Lia Bool Reals Lra Psatz.
From Flocq Require Import Core BinarySingleNaN.
From Verif Require Import Outcome ListUtil F64 Arith ParticleModel VecModel VecSpec VecProofs ConModel SegModel NearModel TreeModel TreeSpec TreeFloat LetModel LetSpec CallSpec CallOpenRoot CallBallSpec.
Import ListNotations.
Local Open Scope R_scope.

Lemma fsqrt_R (x : f64) : is_finite x = true -> 0 <= B2R x -> B2R (fsqrt x) = rnd64 (sqrt (B2R x)) /\ is_finite (fsqrt x) = true.
Proof.
  intros Fx Hx. destruct (Bsqrt_correct prec64 emax64 _ _ mode_NE x) as (E & F & _). split; [exact E|]. unfold fsqrt. rewrite F.
  destruct x as [s|s| |s m e]; try discriminate; [reflexivity|]. destruct s; [|reflexivity]. exfalso. cbn [B2R] in Hx. unfold F2R in Hx. cbn in Hx.
  pose proof (bpow_gt_0 radix2 e). assert (IZR (Z.neg m) <= -1) by (apply IZR_le; lia). nra.
Qed.

Lemma sqrt_close a b e : 0 <= a -> 0 <= b -> 0 <= e -> Rabs (a - b) <= e * e -> Rabs (sqrt a - sqrt b) <= e.
Proof.
  intros Ha Hb He H. apply Rabs_le_inv in H. assert (K : forall x y, 0 <= x -> 0 <= y -> x - y <= e * e -> sqrt x <= sqrt y + e).
  { intros x y Hx Hy Hxy. pose proof (sqrt_pos y). apply Rsqr_incr_0_var; [|lra]. unfold Rsqr. rewrite sqrt_sqrt by assumption. pose proof (sqrt_sqrt y Hy). nra. }
  pose proof (K a b Ha Hb ltac:(lra)). pose proof (K b a Hb Ha ltac:(lra)). apply Rabs_le. lra.
Qed.

Lemma twice t k : 0 <= t -> 0 <= k <= 10 -> t * (1 + k * u) <= 2 * t.
Proof. intros Ht Hk. assert (0 <= k * u <= 1) by (unfold u; lra). nra. Qed.
(** one more rounded sum *)
Lemma sum_step s z S Z k n r : 0 <= S -> 0 <= Z -> 4 <= k <= 6 -> 1 <= n <= 4 -> 0 < eta -> S * (1 - k * u) - n * eta <= s <= S * (1 + k * u) + n * eta -> Z * (1 - 4 * u) - eta <= z <= Z * (1 + 4 * u) + eta -> 0 <= s -> 0 <= z ->
  - (u * (s + z)) <= r - (s + z) <= u * (s + z) -> (S + Z) * (1 - (k + 1.1) * u) - (n + 1.5) * eta <= r <= (S + Z) * (1 + (k + 1.1) * u) + (n + 1.5) * eta /\ 0 <= r.
Proof.
  intros HS HZ Hk Hn He [A1 A2] [B1 B2] s0 z0 [C1 C2]. assert (U : 0 < u <= / 1000000000000) by (unfold u; lra).
  assert (ku : 0 <= k * u <= / 100000000000) by nra. assert (Zk : Z * (4 * u) <= Z * (k * u)) by (apply Rmult_le_compat_l; nra).
  assert (W1 : s + z <= (S + Z) * (1 + k * u) + (n + 1) * eta) by lra. assert (W2 : (S + Z) * (1 - k * u) - (n + 1) * eta <= s + z) by lra.
  set (w := s + z) in *. set (T := S + Z) in *. assert (HT : 0 <= T) by (unfold T; lra). assert (w0 : 0 <= w) by (unfold w; lra). set (e := (n + 1) * eta) in *. assert (e0 : 0 <= e <= 5 * eta) by (unfold e; nra). set (q := k * u) in *.
  assert (Tu : 0 <= T * u) by (apply Rmult_le_pos; lra). assert (Tq : T * u * q <= T * u * / 100000000000) by (apply Rmult_le_compat_l; lra). assert (eu : 0 <= e * u <= e * / 1000000000000) by (split; [apply Rmult_le_pos; lra|apply Rmult_le_compat_l; lra]).
  assert (X1 : w * (1 + u) <= (T * (1 + q) + e) * (1 + u)) by (apply Rmult_le_compat_r; lra). assert (X2 : (T * (1 - q) - e) * (1 - u) <= w * (1 - u)) by (apply Rmult_le_compat_r; lra).
  assert (Te : (n + 1.5) * eta = e + eta / 2) by (unfold e; lra). replace ((k + 1.1) * u) with (q + 1.1 * u) by (unfold q; ring). rewrite Te.
  assert (wu : w * u <= w) by nra. assert (Tq0 : 0 <= T * u * q) by (apply Rmult_le_pos; lra). repeat split; nra.
Qed.

Lemma root_near k : Rabs k <= 1 -> Rabs (sqrt (1 + k) - 1) <= Rabs k.
Proof.
  intros Hk. pose proof (Rabs_le_inv _ _ Hk). pose proof (sqrt_pos (1 + k)) as Z. pose proof (sqrt_sqrt (1 + k) ltac:(lra)) as Y. set (w := sqrt (1 + k)) in *.
  replace k with ((w - 1) * (w + 1)) at 1 by lra. rewrite Rabs_mult, (Rabs_pos_eq (w + 1)) by lra. pose proof (Rabs_pos (w - 1)). nra.
Qed.
Lemma last_step d w s r t e : 0 <= d -> Rabs (w - 1) <= 6.3 * u -> Rabs (s - d * w) <= t -> Rabs (r - s) <= u * s + e -> 0 <= t -> 0 <= e -> Rabs (r - d) <= 8 * u * d + (1.1 * t + e).
Proof.
  intros Hd Hw Hs Hr Ht He. assert (U : 0 < u <= / 1000000000000) by (unfold u; lra). apply Rabs_le_inv in Hw, Hs, Hr.
  assert (A : - (d * (6.3 * u)) <= d * (w - 1) <= d * (6.3 * u)) by (split; [apply (Rle_trans _ (d * - (6.3 * u))); [lra|]|]; apply Rmult_le_compat_l; lra).
  assert (B : s <= d * (1 + 6.3 * u) + t) by lra. assert (C : u * s <= u * (d * (1 + 6.3 * u) + t)) by (apply Rmult_le_compat_l; lra).
  assert (D : 0 <= u * d) by (apply Rmult_le_pos; lra). assert (F : u * d * u <= u * d * / 1000000000000) by (apply Rmult_le_compat_l; lra). assert (G : u * t <= / 1000000000000 * t) by (apply Rmult_le_compat_r; lra).
  apply Rabs_le. split; lra.
Qed.

(** the norm of a vector of doubles *)
Lemma norm_err (a b : vec f64) : (forall c, In c coords -> is_finite (c a) = true /\ Rabs (B2R (c a)) <= 2 ^ 100 /\ is_finite (c b) = true /\ Rabs (B2R (c b)) <= 2 ^ 100) ->
  let d := dist3 (Vec (B2R (vx a)) (B2R (vy a)) (B2R (vz a))) (Vec (B2R (vx b)) (B2R (vy b)) (B2R (vz b))) in
  is_finite (vnorm (N := F_arith) (vsub (N := F_arith) a b)) = true /\ Rabs (B2R (vnorm (N := F_arith) (vsub (N := F_arith) a b)) - d) <= 8 * u * d + / 2 ^ 400.
Proof.
  intros H d. unfold vnorm, vdot, vsub. cbn [vx vy vz]. change (@a_sqrt F_arith) with fsqrt. change (@a_add F_arith) with fadd. change (@a_mul F_arith) with fmul. change (@a_sub F_arith) with fsub.
  assert (U : 0 < u <= / 1000000000000) by (unfold u; lra). pose proof eta_small as ET.
  assert (Big : 2 ^ 100 * 2 ^ 100 * 1000 <= 2 ^ 300). { replace (2 ^ 300) with (2 ^ 100 * 2 ^ 100 * 2 ^ 100) by (rewrite <- !pow_add; reflexivity). pose proof (pow_lt 2 100 ltac:(lra)). assert (2 ^ 10 <= 2 ^ 100) by (apply Rle_pow; [lra|lia]). apply Rmult_le_compat_l; nra. }
  assert (P1 : 1 <= 2 ^ 100) by (apply pow_R1_Rle; lra).
  assert (S : forall c, In c coords -> let x := fsub (c a) (c b) in let t := B2R (c a) - B2R (c b) in is_finite (fmul x x) = true /\ t * t * (1 - 4 * u) - eta <= B2R (fmul x x) <= t * t * (1 + 4 * u) + eta /\ 0 <= B2R (fmul x x) /\ 0 <= t * t <= 4 * (2 ^ 100 * 2 ^ 100)).
  { intros c Hc x t. destruct (H c Hc) as (F1 & A1 & F2 & A2). apply Rabs_le_inv in A1, A2. assert (T : - (2 * 2 ^ 100) <= t <= 2 * 2 ^ 100) by (unfold t; lra).
    destruct (sub_err (c a) (c b) F1 F2) as (F3 & E3); [apply Rabs_le; fold t; nra|]. fold x t in F3, E3. set (p := 2 ^ 100) in *.
    assert (X : Rabs (B2R x) <= Rabs t * (1 + u) /\ Rabs t * (1 - u) <= Rabs (B2R x)).
    { pose proof (Rabs_triang_inv (B2R x) t). pose proof (Rabs_triang_inv t (B2R x)) as Q. rewrite Rabs_minus_sym in Q. lra. }
    assert (XX : B2R x * B2R x = Rabs (B2R x) * Rabs (B2R x)) by (rewrite <- Rabs_mult, Rabs_pos_eq; [reflexivity|apply Rle_0_sqr]).
    assert (TT : t * t = Rabs t * Rabs t) by (rewrite <- Rabs_mult, Rabs_pos_eq; [reflexivity|apply Rle_0_sqr]).
    pose proof (Rabs_pos t) as T0. pose proof (Rabs_pos (B2R x)) as X0. assert (Ta : Rabs t <= 2 * p) by (apply Rabs_le; lra).
    assert (TT2 : 0 <= t * t <= 4 * (p * p)) by (rewrite TT; nra).
    assert (Q1 : B2R x * B2R x <= t * t * (1 + 2.5 * u)). { rewrite XX, TT. apply (Rle_trans _ (Rabs t * (1 + u) * (Rabs t * (1 + u)))); [apply Rmult_le_compat; lra|]. assert (0 <= Rabs t * Rabs t) by nra. replace (Rabs t * (1 + u) * (Rabs t * (1 + u))) with (Rabs t * Rabs t * ((1 + u) * (1 + u))) by ring. apply Rmult_le_compat_l; nra. }
    assert (Q2 : t * t * (1 - 2.5 * u) <= B2R x * B2R x). { rewrite XX, TT. apply (Rle_trans _ (Rabs t * (1 - u) * (Rabs t * (1 - u)))); [|apply Rmult_le_compat; nra]. assert (0 <= Rabs t * Rabs t) by nra. replace (Rabs t * (1 - u) * (Rabs t * (1 - u))) with (Rabs t * Rabs t * ((1 - u) * (1 - u))) by ring. apply Rmult_le_compat_l; nra. }
    assert (X2 : 0 <= B2R x * B2R x <= 5 * (p * p)). { split; [apply Rle_0_sqr|]. assert (t * t * (1 + 2.5 * u) <= 4 * (p * p) * (1 + 2.5 * u)) by (apply Rmult_le_compat_r; lra). assert (0 <= p * p) by nra. nra. }
    destruct (mul_pos x x F3 F3) as (F4 & E4 & E5); [lra|]. split; [exact F4|]. split; [|split; [exact E5|exact TT2]]. assert (0 <= t * t * u) by (apply Rmult_le_pos; lra). split.
    - apply (Rle_trans _ (B2R x * B2R x * (1 - u) - eta)); [|lra]. assert (t * t * (1 - 2.5 * u) * (1 - u) <= B2R x * B2R x * (1 - u)) by (apply Rmult_le_compat_r; lra). assert (t * t * (1 - 4 * u) <= t * t * (1 - 2.5 * u) * (1 - u)); [|lra]. rewrite (Rmult_assoc (t * t)). apply Rmult_le_compat_l; nra.
    - apply (Rle_trans _ (B2R x * B2R x * (1 + u) + eta)); [lra|]. assert (B2R x * B2R x * (1 + u) <= t * t * (1 + 2.5 * u) * (1 + u)) by (apply Rmult_le_compat_r; lra). assert (t * t * (1 + 2.5 * u) * (1 + u) <= t * t * (1 + 4 * u)); [|lra]. rewrite (Rmult_assoc (t * t)). apply Rmult_le_compat_l; nra. }
  assert (Ix : In vx (coords (C := f64))) by (left; reflexivity). assert (Iy : In vy (coords (C := f64))) by (right; left; reflexivity). assert (Iz : In vz (coords (C := f64))) by (right; right; left; reflexivity).
  destruct (S vx Ix) as (Fx & Ex & Zx & Tx). destruct (S vy Iy) as (Fy & Ey & Zy & Ty). destruct (S vz Iz) as (Fz & Ez & Zz & Tz). clear S.
  set (x2 := fmul (fsub (vx a) (vx b)) _) in *. set (y2 := fmul (fsub (vy a) (vy b)) _) in *. set (z2 := fmul (fsub (vz a) (vz b)) _) in *.
  set (tx := (B2R (vx a) - B2R (vx b)) * (B2R (vx a) - B2R (vx b))) in *. set (ty := (B2R (vy a) - B2R (vy b)) * (B2R (vy a) - B2R (vy b))) in *. set (tz := (B2R (vz a) - B2R (vz b)) * (B2R (vz a) - B2R (vz b))) in *.
  assert (ET1 : 0 < eta <= 1). { split; [lra|]. assert (0 < / 2 ^ 300 <= 1). { split; [apply Rinv_0_lt_compat, pow_lt; lra|]. rewrite <- Rinv_1. apply Rinv_le_contravar; [lra|]. apply pow_R1_Rle. lra. } nra. }
  set (pp := 2 ^ 100 * 2 ^ 100) in *. assert (PP : 1 <= pp) by (unfold pp; nra).
  destruct (add_err x2 y2 Fx Fy) as (F1 & E1); [rewrite Rabs_pos_eq by lra; assert (tx * (1 + 4 * u) <= 2 * tx) by (apply twice; lra); assert (ty * (1 + 4 * u) <= 2 * ty) by (apply twice; lra); lra|]. rewrite (Rabs_pos_eq (B2R x2 + B2R y2)) in E1 by lra. apply Rabs_le_inv in E1. set (s1 := fadd x2 y2) in *.
  destruct (sum_step (B2R x2) (B2R y2) tx ty 4 1 (B2R s1) (proj1 Tx) (proj1 Ty) ltac:(lra) ltac:(lra) (proj1 ET1) ltac:(lra) Ey Zx Zy ltac:(lra)) as (S1 & P1').
  assert (L1 : (tx + ty) * (1 + (4 + 1.1) * u) <= 2 * (tx + ty)) by (apply twice; lra). assert (L2 : tz * (1 + 4 * u) <= 2 * tz) by (apply twice; lra).
  destruct (add_err s1 z2 F1 Fz) as (F2 & E2); [rewrite Rabs_pos_eq by lra; lra|]. rewrite (Rabs_pos_eq (B2R s1 + B2R z2)) in E2 by lra. apply Rabs_le_inv in E2. set (s2 := fadd s1 z2) in *.
  assert (Ed : d * d = tx + ty + tz). { unfold d, dist3. rewrite norm3_sq. unfold dot3, sub3. cbn. reflexivity. }
  destruct (sum_step (B2R s1) (B2R z2) (tx + ty) tz (4 + 1.1) (1 + 1.5) (B2R s2) ltac:(lra) (proj1 Tz) ltac:(lra) ltac:(lra) (proj1 ET1) S1 Ez P1' Zz ltac:(lra)) as (S2' & P2').
  set (D2 := tx + ty + tz) in *. assert (S2 : D2 * (1 - 6.3 * u) - 6 * eta <= B2R s2 <= D2 * (1 + 6.3 * u) + 6 * eta /\ 0 <= B2R s2).
  { assert (0 <= D2 * u) by (apply Rmult_le_pos; unfold D2; lra). split; [|exact P2']. lra. }
  destruct (fsqrt_R s2 F2 (proj2 S2)) as (E3 & F3). split; [exact F3|]. change (Rabs (B2R (fsqrt s2) - d) <= 8 * u * d + / 2 ^ 400). rewrite E3. pose proof (round_err (sqrt (B2R s2))) as RE. rewrite (Rabs_pos_eq (sqrt (B2R s2))) in RE by apply sqrt_pos.
  assert (Dn : 0 <= d) by apply dist3_nonneg.
  assert (EQ : sqrt (d * d * (1 + 0)) = d) by (rewrite Rplus_0_r, Rmult_1_r; apply sqrt_square; exact Dn).
  (* the square root of the sum *)
  assert (Q : exists k, Rabs k <= 6.3 * u /\ Rabs (B2R s2 - D2 * (1 + k)) <= 6 * eta).
  { destruct (Rle_lt_dec (B2R s2) (D2 * (1 - 6.3 * u))) as [L|L]; [exists (- (6.3 * u)); split; [rewrite Rabs_left; lra|apply Rabs_le; unfold Rminus in *; lra]|].
    destruct (Rle_lt_dec (D2 * (1 + 6.3 * u)) (B2R s2)) as [G|G]; [exists (6.3 * u); split; [rewrite Rabs_pos_eq; lra|apply Rabs_le; lra]|].
    assert (D0 : 0 < D2) by (destruct (Rle_lt_dec D2 0) as [Y|Y]; [exfalso; assert (D2 = 0) as Z by (unfold D2 in *; lra); rewrite Z in L, G; lra|exact Y]). exists (B2R s2 / D2 - 1). assert (X : B2R s2 = B2R s2 / D2 * D2) by (field; lra). split; [apply Rabs_le; split; apply (Rmult_le_reg_r D2); lra|].
    replace (B2R s2 - D2 * (1 + (B2R s2 / D2 - 1))) with 0 by (field; lra). rewrite Rabs_R0. lra. }
  destruct Q as (k & Hk & Hs). apply Rabs_le_inv in Hk.
  assert (D0 : 0 <= D2) by (unfold D2; lra).
  assert (IE : exists t, 0 < t /\ 6 * eta <= t * t /\ t <= / 2 ^ 401).
  { exists (/ 2 ^ 401). assert (T0 : 0 < / 2 ^ 401) by (apply Rinv_0_lt_compat, pow_lt; lra). split; [exact T0|]. split; [|lra]. rewrite <- Rinv_mult, <- pow_add. unfold eta. rewrite inv_pow. apply (Rle_trans _ (8 * bpow radix2 (-1075))); [pose proof (bpow_gt_0 radix2 (-1075)); lra|]. replace 8 with (bpow radix2 3) by (cbn; lra). rewrite <- bpow_plus. apply bpow_le. cbn. lia. }
  destruct IE as (t & T0 & T1 & T2).
  assert (K1 : Rabs (sqrt (B2R s2) - sqrt (D2 * (1 + k))) <= t). { apply sqrt_close; [lra|apply Rmult_le_pos; lra|lra|lra]. }
  assert (K2 : sqrt (D2 * (1 + k)) = d * sqrt (1 + k)) by (rewrite sqrt_mult by lra; rewrite <- Ed, sqrt_square by exact Dn; reflexivity).
  assert (K3 : Rabs (sqrt (1 + k) - 1) <= 6.3 * u) by (eapply Rle_trans; [apply root_near; apply Rabs_le; lra|apply Rabs_le; lra]).
  rewrite K2 in K1. assert (T3 : eta <= / 2 ^ 402). { unfold eta. rewrite inv_pow. apply bpow_le. lia. }
  assert (T4 : / 2 ^ 400 = 2 * / 2 ^ 401 /\ / 2 ^ 401 = 2 * / 2 ^ 402). { split; [replace (2 ^ 401) with (2 * 2 ^ 400) by reflexivity|replace (2 ^ 402) with (2 * 2 ^ 401) by reflexivity]; rewrite Rinv_mult; field; apply pow_nonzero; lra. }
  eapply Rle_trans; [apply (last_step d (sqrt (1 + k)) (sqrt (B2R s2)) _ t eta Dn K3 K1 RE); lra|]. lra.
Qed.

(** ** Sizes *)
Lemma two_mul (x : f64) : is_finite x = true -> Rabs (B2R x) <= 2 ^ 200 -> B2R (fmul (f_ofZ 2) x) = 2 * B2R x /\ is_finite (fmul (f_ofZ 2) x) = true.
Proof.
  intros F H. destruct (f_ofZ_exact 2 ltac:(lia)) as (E2 & F2). assert (B : Rabs (2 * B2R x) <= 2 ^ 300). { rewrite Rabs_mult, (Rabs_pos_eq 2) by lra. apply (Rle_trans _ (2 ^ 201)); [replace (2 ^ 201) with (2 * 2 ^ 200) by reflexivity; lra|apply Rle_pow; [lra|lia]]. }
  destruct (fmul_R (f_ofZ 2) x F2 F) as (E & F3); [rewrite E2; apply big_lt; exact B|]. split; [|exact F3]. rewrite E, E2. unfold rnd64. apply round_generic; [apply valid_rnd_N|].
  rewrite Rmult_comm. change 2 with (bpow radix2 1). apply Mult_error.mult_bpow_pos_exact_FLT; [apply generic_format_B2R|lia].
Qed.

Lemma tiny : exists I J K, / 2 ^ 100 = I /\ / 2 ^ 300 = J /\ / 2 ^ 400 = K /\ 0 < I <= / 1000000000000 /\ 0 < J <= I * I /\ 0 < K <= J * I.
Proof.
  exists (/ 2 ^ 100), (/ 2 ^ 300), (/ 2 ^ 400). do 3 (split; [reflexivity|]). assert (P : forall n, 0 < / 2 ^ n) by (intros; apply Rinv_0_lt_compat, pow_lt; lra).
  assert (Q : / 2 ^ 300 = / 2 ^ 100 * / 2 ^ 100 * / 2 ^ 100 /\ / 2 ^ 400 = / 2 ^ 300 * / 2 ^ 100) by (rewrite <- !Rinv_mult, <- !pow_add; split; reflexivity).
  assert (B : / 2 ^ 100 <= / 1000000000000). { apply Rinv_le_contravar; [lra|]. apply (Rle_trans _ (2 ^ 40)); [lra|apply Rle_pow; [lra|lia]]. }
  pose proof (P 100%nat). pose proof (P 300%nat). pose proof (P 400%nat). destruct Q as (Q1 & Q2). repeat split; try assumption; [|lra]. rewrite Q1 at 1. assert (/ 2 ^ 100 * / 2 ^ 100 * / 2 ^ 100 <= / 2 ^ 100 * / 2 ^ 100 * 1) by (apply Rmult_le_compat_l; [apply Rmult_le_pos|]; lra). lra.
Qed.
Lemma eta_tiny s : / 2 ^ 100 <= s -> 0 < eta <= / 1000000000000 * (u * s).
Proof.
  intros Hs. pose proof eta_small as (E1 & E2). split; [exact E1|]. destruct tiny as (I & J & K & EI & EJ & _ & HI & HJ & _). rewrite EI in Hs. rewrite EJ in E2. assert (U : 0 < u) by (unfold u; lra).
  assert (J <= / 1000000000000 * s) by nra. assert (u * J <= u * (/ 1000000000000 * s)) by (apply Rmult_le_compat_l; lra). lra.
Qed.

Lemma big100 : 1 <= 2 ^ 100 /\ 2 ^ 100 * 1000 <= 2 ^ 200 /\ 2 ^ 200 * 1000 <= 2 ^ 300.
Proof.
  assert (A : 1000 <= 2 ^ 100) by (apply (Rle_trans _ (2 ^ 10)); [lra|apply Rle_pow; [lra|lia]]). split; [lra|]. replace (2 ^ 200) with (2 ^ 100 * 2 ^ 100) by (rewrite <- pow_add; reflexivity). replace (2 ^ 300) with (2 ^ 100 * 2 ^ 100 * 2 ^ 100) by (rewrite <- !pow_add; reflexivity).
  split; apply Rmult_le_compat_l; nra.
Qed.

Lemma size_range e : ball_like e -> / 2 ^ 100 <= size e <= 2 * 2 ^ 100.
Proof. intros [_ _ (A & B) _ _]. unfold size. lra. Qed.

Lemma rad_err e : ball_like e -> is_finite (sphereRadius (N := F_arith) e : f64) = true /\ Rabs (B2R (sphereRadius (N := F_arith) e : f64) - size e) <= 3 * (u * size e).
Proof.
  intros He. pose proof (size_range e He) as Hs. destruct (eta_tiny _ (proj1 Hs)) as (E1 & E2). destruct He as [(_ & _ & F1 & F2 & _) _ (A & B) _ _]. unfold finite in *. unfold size, real in *.
  unfold sphereRadius. change (@a_add F_arith) with fadd. change (@a_mul F_arith) with fmul. change (@a_lit F_arith) with f_lit.
  set (l := e_lengthCol e : f64) in *. set (r := e_radiusCol e : f64) in *. destruct half_lit as (H1 & H2). destruct big100 as (G1 & G2 & G3). set (G := 2 ^ 100) in *.
  set (x := B2R l) in *. set (y := B2R r) in *. assert (U : 0 < u <= / 1000000000000) by (unfold u; lra).
  assert (y0 : 0 < y) by (pose proof (Rinv_0_lt_compat G ltac:(lra)); lra).
  destruct (mul_err l (f_lit 1 (-1)) F2 H2) as (F3 & E3); [rewrite H1; fold x; rewrite Rabs_pos_eq; lra|]. rewrite H1 in E3. fold x in E3. rewrite (Rabs_pos_eq (x * / 2)) in E3 by lra. apply Rabs_le_inv in E3. set (h := fmul l (f_lit 1 (-1))) in *.
  set (s := x / 2 + y) in *. assert (xs : u * (x * / 2) <= u * s) by (apply Rmult_le_compat_l; unfold s; lra). assert (s0 : 0 < s) by (unfold s; lra). assert (us : 0 < u * s) by (apply Rmult_lt_0_compat; lra).
  assert (us1 : u * s <= / 1000000000000 * s) by (apply Rmult_le_compat_r; lra). assert (hy : s - 1.1 * (u * s) <= B2R h + y <= s + 1.1 * (u * s)) by (unfold s in *; lra).
  destruct (add_err h r F3 F1) as (F4 & E4); [fold y; rewrite Rabs_pos_eq by lra; unfold s in *; lra|]. fold y in E4. rewrite (Rabs_pos_eq (B2R h + y)) in E4 by lra. split; [exact F4|].
  assert (u * (B2R h + y) <= u * (s + 1.1 * (u * s))) by (apply Rmult_le_compat_l; lra). assert (u * (u * s) <= / 1000000000000 * (u * s)) by (apply Rmult_le_compat_r; lra). apply Rabs_le_inv in E4. apply Rabs_le. lra.
Qed.

(** ** A block is made and its gap is right *)
Lemma sep_ok (e f : fep) : ball_like e -> ball_like f -> (forall c, In c coords -> is_finite (c (e_pos e) : f64) = true /\ Rabs (B2R (c (e_pos e) : f64)) <= 2 ^ 100 /\ is_finite (c (e_pos f) : f64) = true /\ Rabs (B2R (c (e_pos f) : f64)) <= 2 ^ 100) ->
  gap e f <= 0 -> let sep := fsub (vnorm (N := F_arith) (vsub (N := F_arith) (e_pos f) (e_pos e))) (fadd (sphereRadius (N := F_arith) e) (sphereRadius (N := F_arith) f)) in
  is_finite sep = true /\ Rabs (B2R sep - gap e f) <= 15 * (u * (size e + size f)) /\ flt sep (fadd (fmul (sphereRadius (N := F_arith) e) (e_colBuf e)) (fmul (sphereRadius (N := F_arith) f) (e_colBuf f))) = true.
Proof.
  intros He Hf Hp Hg sep. destruct (norm_err (e_pos f) (e_pos e)) as (Fn & En). { intros c Hc. destruct (Hp c Hc) as (P1 & P2 & P3 & P4). auto. }
  destruct (rad_err e He) as (Fe & Ee). destruct (rad_err f Hf) as (Ff & Ef). pose proof (size_range e He) as Se. pose proof (size_range f Hf) as Sf.
  destruct (eta_tiny _ (proj1 Se)) as (E1 & E2). destruct (eta_tiny _ (proj1 Sf)) as (_ & E3). destruct He as [(_ & _ & _ & _ & Fbe) _ _ Be _]. destruct Hf as [(_ & _ & _ & _ & Fbf) _ _ Bf _]. unfold finite, real in Fbe, Fbf, Be, Bf.
  set (d := dist3 _ _) in En. assert (Dd : dist3 (spot e) (spot f) = d) by (rewrite dist3_sym; reflexivity). unfold gap in *. rewrite Dd in *.
  set (rn := vnorm (N := F_arith) _ : f64) in *. set (re := sphereRadius (N := F_arith) e : f64) in *. set (rf := sphereRadius (N := F_arith) f : f64) in *. set (be := e_colBuf e : f64) in *. set (bf := e_colBuf f : f64) in *.
  change (fsub _ _) with (fsub rn (fadd re rf)) in sep.
  set (a := size e) in *. set (b := size f) in *. destruct big100 as (G1 & G2 & G3). assert (U : 0 < u <= / 1000000000000) by (unfold u; lra).
  destruct tiny as (I & J & K & EI & EJ & EK & HI & HJ & HK). rewrite EI in Se, Sf. rewrite EK in En. set (G := 2 ^ 100) in *.
  assert (KD : K <= / 1000000000000 * (u * (a + b))).
  { assert (IU : I <= u). { rewrite <- EI. unfold u. apply Rinv_le_contravar; [lra|]. unfold G. apply (Rle_trans _ (2 ^ 53)); [lra|apply Rle_pow; [lra|lia]]. }
    assert (V1 : I * I <= u * I) by (apply Rmult_le_compat_r; lra). assert (V2 : J * I <= u * I * I) by (apply Rmult_le_compat_r; lra). assert (V3 : 0 < u * I) by (apply Rmult_lt_0_compat; lra). assert (V4 : u * I * I <= u * I * / 1000000000000) by (apply Rmult_le_compat_l; lra). assert (V5 : u * I <= u * (a + b)) by (apply Rmult_le_compat_l; lra). lra. }
  remember (a + b) as D eqn:HD. assert (uD : u * D = u * a + u * b) by (rewrite HD; ring). assert (ua : 0 < u * a <= / 1000000000000 * a) by (split; [apply Rmult_lt_0_compat; lra|apply Rmult_le_compat_r; lra]). assert (ub : 0 < u * b <= / 1000000000000 * b) by (split; [apply Rmult_lt_0_compat; lra|apply Rmult_le_compat_r; lra]).
  apply Rabs_le_inv in Ee, Ef, En.
  destruct (add_err re rf Fe Ff) as (F1 & A1); [rewrite Rabs_pos_eq by lra; lra|]. rewrite (Rabs_pos_eq (B2R re + B2R rf)) in A1 by lra. apply Rabs_le_inv in A1. set (sm := fadd re rf) in *.
  assert (X1 : u * (B2R re + B2R rf) <= 1.1 * (u * D)). { apply (Rle_trans _ (u * (1.1 * D))); [apply Rmult_le_compat_l; lra|lra]. }
  assert (SM : - (4.1 * (u * D)) <= B2R sm - D <= 4.1 * (u * D)) by (lra).
  assert (d0 : 0 <= d) by apply dist3_nonneg. assert (dD : d <= D) by (lra). assert (ud : u * d <= u * D) by (apply Rmult_le_compat_l; lra).
  assert (RN : - (8.1 * (u * D)) <= B2R rn - d <= 8.1 * (u * D)) by lra.
  assert (Dif : Rabs (B2R rn - B2R sm) <= 1.1 * D) by (apply Rabs_le; lra).
  destruct (sub_err rn sm Fn F1) as (F2 & A2); [lra|]. fold sep in F2, A2. assert (X2 : u * Rabs (B2R rn - B2R sm) <= u * (1.1 * D)) by (apply Rmult_le_compat_l; lra). apply Rabs_le_inv in A2.
  assert (SE : - (14 * (u * D)) <= B2R sep - (d - D) <= 14 * (u * D)) by lra. split; [exact F2|]. split; [apply Rabs_le; lra|].
  (* the buffer *)
  assert (Q40 : / 2 ^ 40 = 8192 * u) by (unfold u; lra). rewrite Q40 in Be, Bf.
  assert (Prod : forall (r x : f64) s, is_finite r = true -> is_finite x = true -> - (3 * (u * s)) <= B2R r - s <= 3 * (u * s) -> 8192 * u <= B2R x <= 1 -> I <= s <= 2 * G -> 0 < u * s <= / 1000000000000 * s -> eta <= / 1000000000000 * (u * s) -> is_finite (fmul r x) = true /\ 8000 * (u * s) <= B2R (fmul r x) <= 1.1 * s).
  { clear - U G1 G2 G3 HI. intros r x s Fr Fx Hr Hx Hs Hu He. assert (P : s * 0.99 * (8192 * u) <= B2R r * B2R x <= s * 1.01) by (split; [apply Rmult_le_compat; lra|replace (s * 1.01) with (s * 1.01 * 1) by ring; apply Rmult_le_compat; lra]).
    assert (s0 : 0 < s) by lra. assert (P0 : 0 <= B2R r * B2R x) by (replace (s * 0.99 * (8192 * u)) with (8110.08 * (u * s)) in P by lra; lra).
    destruct (mul_err r x Fr Fx) as (F & A); [rewrite Rabs_pos_eq by lra; lra|]. split; [exact F|]. rewrite (Rabs_pos_eq (B2R r * B2R x)) in A by lra. apply Rabs_le_inv in A. assert (u * (B2R r * B2R x) <= u * (s * 1.01)) by (apply Rmult_le_compat_l; lra). lra. }
  destruct (Prod re be a Fe Fbe ltac:(lra) ltac:(lra) ltac:(lra) ltac:(lra) ltac:(lra)) as (P1 & Q1). destruct (Prod rf bf b Ff Fbf ltac:(lra) ltac:(lra) ltac:(lra) ltac:(lra) ltac:(lra)) as (P2 & Q2).
  destruct (add_err _ _ P1 P2) as (F3 & A3); [rewrite Rabs_pos_eq by lra; lra|]. apply flt_R; [exact F2|exact F3|]. rewrite (Rabs_pos_eq (B2R (fmul re be) + B2R (fmul rf bf))) in A3 by lra. apply Rabs_le_inv in A3.
  set (w := B2R (fmul re be) + B2R (fmul rf bf)) in *. assert (X3 : u * w <= / 1000000000000 * w) by (apply Rmult_le_compat_r; unfold w; lra). assert (W : 8000 * (u * D) <= w) by (unfold w; lra). lra.
Qed.

Lemma is_sphere e : ball_like e -> nearIsSphere (N := F_arith) e = true.
Proof.
  intros [(_ & _ & F1 & F2 & _) _ (A & B) _ _]. unfold nearIsSphere. change (@a_lt F_arith) with flt. change (@a_mul F_arith) with fmul. change (@a_Z F_arith) with f_ofZ. unfold finite, real in *.
  destruct big100 as (G1 & G2 & G3). destruct (two_mul (e_radiusCol e) F1) as (E & F); [rewrite Rabs_pos_eq; lra|]. apply flt_R; [exact F2|exact F|]. rewrite E. lra.
Qed.

(** ** The search radius *)
Lemma search_ok e : ball_like e -> 2 * size e * (1 + / 2 ^ 41) <= real (getRSearch (N := F_arith) e).
Proof.
  intros He. pose proof (size_range e He) as Hs. destruct (eta_tiny _ (proj1 Hs)) as (E1 & E2). destruct He as [(F1 & F2 & F3 & F4 & F5) (S1 & S2) (C1 & C2) Bu Cov]. unfold size in *. unfold finite, real in *.
  unfold getRSearch, stdmax. change (@a_add F_arith) with fadd. change (@a_mul F_arith) with fmul. change (@a_Z F_arith) with f_ofZ. change (@a_lt F_arith) with flt.
  set (r := e_radius e : f64) in *. set (l := e_length e : f64) in *. set (rc := e_radiusCol e : f64) in *. set (lc := e_lengthCol e : f64) in *. set (bu := e_colBuf e : f64) in *.
  destruct big100 as (G1 & G2 & G3). set (G := 2 ^ 100) in *. assert (U : 0 < u <= / 1000000000000) by (unfold u; lra). assert (I0 : 0 < / G) by (apply Rinv_0_lt_compat; lra).
  assert (Sum : forall x y : f64, is_finite x = true -> is_finite y = true -> 0 <= B2R x <= 4 * G -> 0 <= B2R y <= 4 * G -> is_finite (fadd x (fmul (f_ofZ 2) y)) = true /\ (B2R x + 2 * B2R y) * (1 - u) <= B2R (fadd x (fmul (f_ofZ 2) y)) <= 13 * G).
  { clear - U G1 G2 G3. intros x y Fx Fy Hx Hy. destruct (two_mul y Fy) as (E & F); [rewrite Rabs_pos_eq; lra|]. destruct (add_err x _ Fx F) as (F' & A); [rewrite E, Rabs_pos_eq; lra|]. split; [exact F'|]. rewrite E in A. set (w := B2R x + 2 * B2R y) in *. assert (w0 : 0 <= w <= 12 * G) by (unfold w; lra). rewrite (Rabs_pos_eq w) in A by lra. apply Rabs_le_inv in A. assert (u * w <= / 1000000000000 * w) by (apply Rmult_le_compat_r; lra). lra. }
  destruct (Sum l r F2 F1 ltac:(lra) ltac:(lra)) as (FA & A). destruct (Sum lc lc F4 F4 ltac:(lra) ltac:(lra)) as (FB & B). clear Sum. set (wa := fadd l (fmul (f_ofZ 2) r)) in *. set (wb := fadd lc (fmul (f_ofZ 2) lc)) in *.
  set (s := B2R lc / 2 + B2R rc) in *.
  assert (us : u * s <= / 1000000000000 * s) by (apply Rmult_le_compat_r; lra). assert (s0 : 0 < s) by lra. assert (us0 : 0 < u * s) by (apply Rmult_lt_0_compat; lra).
  assert (M : is_finite (if flt wa wb then wb else wa) = true /\ 2 * s * (1 - u) <= B2R (if flt wa wb then wb else wa) <= 13 * G).
  { assert (Ge : forall x, 2 * s <= x -> 2 * s * (1 - u) <= x * (1 - u)) by (intros; apply Rmult_le_compat_r; lra).
    assert (L : 2 * s * (1 - u) <= B2R wa \/ 2 * s * (1 - u) <= B2R wb) by (destruct Cov as [Cov|Cov]; [left|right]; eapply Rle_trans; [apply Ge|apply A|apply Ge|apply B]; unfold s; lra).
    destruct (flt wa wb) eqn:Q; [apply flt_R in Q; [|exact FA|exact FB]; split; [exact FB|]; destruct L; lra|]. assert (Q' : ~ B2R wa < B2R wb) by (intros X; apply flt_R in X; [congruence|exact FA|exact FB]). split; [exact FA|]. destruct L; lra. }
  destruct M as (FM & M). set (m := if flt wa wb then wb else wa) in *. change (is_finite m = true) in FM. change (2 * s * (1 - u) <= B2R m <= 13 * G) in M. destruct (f_ofZ_exact 1 ltac:(lia)) as (O1 & O2).
  destruct (add_err (f_ofZ 1) bu O2 F5) as (FC & C); [rewrite O1, Rabs_pos_eq; lra|]. rewrite O1 in C. rewrite (Rabs_pos_eq (1 + B2R bu)) in C by lra. set (q := fadd (f_ofZ 1) bu) in *.
  assert (Q40 : / 2 ^ 40 = 8192 * u /\ / 2 ^ 41 = 4096 * u) by (unfold u; lra). destruct Q40 as (Q40 & Q41). rewrite Q40 in Bu. rewrite Q41. apply Rabs_le_inv in C.
  assert (Cu : u * (1 + B2R bu) <= u * 2) by (apply Rmult_le_compat_l; lra). assert (Hq : 1 + 8190 * u <= B2R q <= 2.1) by lra.
  assert (P : 2 * s * (1 - u) * (1 + 8190 * u) <= B2R m * B2R q <= 13 * G * 2.1). { assert (0 <= 2 * s * (1 - u)) by (apply Rmult_le_pos; lra). split; apply Rmult_le_compat; lra. }
  assert (P0 : 2 * s + 16000 * (u * s) <= B2R m * B2R q). { assert (u * (u * s) <= / 1000000000000 * (u * s)) by (apply Rmult_le_compat_r; lra). lra. }
  destruct (mul_err m q FM FC) as (_ & E); [rewrite Rabs_pos_eq by lra; lra|]. rewrite (Rabs_pos_eq (B2R m * B2R q)) in E by lra. apply Rabs_le_inv in E. change (2 * s * (1 + 4096 * u) <= B2R (fmul m q)). set (z := B2R m * B2R q) in *.
  assert (Z1 : z * (1 - u) >= (2 * s + 16000 * (u * s)) * (1 - u)) by (apply Rle_ge, Rmult_le_compat_r; lra). assert (uus : u * (u * s) <= / 1000000000000 * (u * s)) by (apply Rmult_le_compat_r; lra). lra.
Qed.

Lemma balls_see e f : ball_like e -> ball_like f -> gap e f <= 0 -> sees real loose (siteOf e) (siteOf f).
Proof.
  intros He Hf Hg. pose proof (size_range e He) as Se. pose proof (size_range f Hf) as Sf. pose proof (search_ok e He) as Re. pose proof (search_ok f Hf) as Rf. unfold gap in Hg.
  set (d := dist3 (spot e) (spot f)) in *. assert (d0 : 0 <= d) by apply dist3_nonneg. assert (Ap : apart real (siteOf e) (siteOf f) = d * d). { unfold d, dist3. rewrite norm3_sq. unfold dot3, sub3, apart, siteOf, spot. cbn [s_pos vx vy vz]. ring. }
  set (a := size e) in *. set (b := size f) in *. assert (I0 : 0 < / 2 ^ 100) by (apply Rinv_0_lt_compat, pow_lt; lra). assert (U : 0 < / 2 ^ 41 <= 1) by lra.
  destruct (Rle_lt_dec b a) as [H|H].
  - left. rewrite Ap. change (d * d <= real (getRSearch e) ^ 2). set (R := real (getRSearch e)) in *. assert (d <= R) by nra. nra.
  - right. rewrite Ap. change (loose (d * d) <= real (getRSearch f) ^ 2). set (R := real (getRSearch f)) in *. unfold loose. assert (d <= 2 * b) by lra. assert (R2 : (2 * b * (1 + / 2 ^ 41)) ^ 2 <= R ^ 2) by (apply pow_incr; split; [nra|exact Rf]).
    eapply Rle_trans; [|exact R2]. assert (dd : d * d <= 4 * (b * b)) by nra.
    assert (T : / 2 ^ 1072 <= / 2 ^ 50 * (b * b)).
    { assert (B2 : / 2 ^ 100 * / 2 ^ 100 <= b * b) by (apply Rmult_le_compat; lra). apply (Rle_trans _ (/ 2 ^ 50 * (/ 2 ^ 100 * / 2 ^ 100))); [|apply Rmult_le_compat_l; lra]. rewrite <- !Rinv_mult, <- !pow_add, !inv_pow. apply bpow_le. lia. }
    assert (bb : 0 < b * b) by nra. set (B := b * b) in *. replace ((2 * b * (1 + / 2 ^ 41)) ^ 2) with (4 * B * ((1 + / 2 ^ 41) * (1 + / 2 ^ 41))) by (unfold B; ring). assert (V : / 2 ^ 50 <= / 500 * / 2 ^ 41) by lra.
    assert (d * d * (1 + / 2 ^ 50) <= 4 * B * (1 + / 2 ^ 50)) by (apply Rmult_le_compat_r; lra). assert (W : B * / 2 ^ 50 <= B * (/ 500 * / 2 ^ 41)) by (apply Rmult_le_compat_l; lra). assert (0 <= B * (/ 2 ^ 41 * / 2 ^ 41)) by (apply Rmult_le_pos; lra). assert (0 < B * / 2 ^ 41) by (apply Rmult_lt_0_compat; lra). lra.
Qed.
