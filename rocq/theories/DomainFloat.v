(** Instances of the coordinate arithmetic: reals and binary64. *)
From Coq Require Import List Arith ZArith Lia Bool Reals Lra Eqdep_dec Permutation Sorted.
From Flocq Require Import Core BinarySingleNaN Mult_error.
From Verif Require Import F64 Outcome SortModel SortProofs ParticleModel ParticleSpec DomainModel DomainSpec DomainProofs.
Import ListNotations.
Local Open Scope R_scope.

(** ** Exact reals *)
Lemma real_order : coord_order Rle_bool Rlt_bool.
Proof.
  split.
  - intros a b. case (Rle_bool_spec a b); [now left|right]. apply Rle_bool_true. lra.
  - intros a b c. case (Rle_bool_spec a b); [|discriminate]. case (Rle_bool_spec b c); [|discriminate].
    intros. apply Rle_bool_true. lra.
  - intros a b. symmetry. apply negb_Rlt_bool.
Qed.

Lemma real_averaging coef : 0 <= coef <= 1 ->
  averaging Rle_bool (fun a b => / 2 * (a + b)) (fun t o => coef * t + (1 - coef) * o).
Proof.
  intros H. split.
  - intros a b. case (Rle_bool_spec a b); [|discriminate]. intros. apply Rle_bool_true. lra.
  - intros a b. case (Rle_bool_spec a b); [|discriminate]. intros. apply Rle_bool_true. lra.
  - intros a. ring.
  - intros a b c d. case (Rle_bool_spec a b); [|discriminate]. case (Rle_bool_spec c d); [|discriminate].
    intros. apply Rle_bool_true. nra.
Qed.

(** ** binary64, magnitudes up to 2^1000 *)
Definition big : f64 := f_lit 1 1000.
Definition okb (x : f64) : bool := is_finite x && fle (fabs x) big.
Definition coord := {x : f64 | okb x = true}.

Lemma big_R : B2R big = bpow radix2 1000 /\ is_finite big = true.
Proof. apply (f_lit_pow2 1000). lia. Qed.

Lemma okb_R x : okb x = true <-> is_finite x = true /\ Rabs (B2R x) <= bpow radix2 1000.
Proof.
  unfold okb. rewrite andb_true_iff. split; intros (H1 & H2); split; auto.
  - apply fle_R in H2; [|unfold fabs; now rewrite is_finite_Babs|apply big_R].
    rewrite (proj1 big_R) in H2. unfold fabs in H2. rewrite B2R_Babs in H2. exact H2.
  - apply fle_R; [unfold fabs; now rewrite is_finite_Babs|apply big_R|].
    rewrite (proj1 big_R). unfold fabs. rewrite B2R_Babs. exact H2.
Qed.

(** 0.5*(a+b) as computed *)
Definition fhalf : f64 := f_lit 1 (-1).
Definition fmid (a b : f64) : f64 := fmul fhalf (fadd a b).
(** (F64)coef*t + (F64)(1. - coef)*o with coef = 1.0f (the default, FDPS/ps_macro_defs.h:3) *)
Definition fema1 (t o : f64) : f64 := fadd (fmul (f_ofZ 1) t) (fmul (fsub (f_ofZ 1) (f_ofZ 1)) o).

Lemma bpow_1 : bpow radix2 1 = 2. Proof. reflexivity. Qed.
Lemma bpow_m1 : bpow radix2 (-1) = / 2. Proof. reflexivity. Qed.

Lemma fmid_R a b : okb a = true -> okb b = true ->
  okb (fmid a b) = true /\ B2R (fmid a b) = rnd64 (/ 2 * rnd64 (B2R a + B2R b)).
Proof.
  intros Ha Hb. apply okb_R in Ha, Hb. destruct Ha as (Fa & Ra), Hb as (Fb & Rb).
  set (B := bpow radix2 1000) in *.
  assert (EB : bpow radix2 1001 = 2 * B) by (change 1001%Z with (1 + 1000)%Z; rewrite bpow_plus; reflexivity).
  assert (R1 : Rabs (rnd64 (B2R a + B2R b)) <= bpow radix2 1001).
  { apply rnd64_bpow_le; [lia|]. rewrite EB. eapply Rle_trans; [apply Rabs_triang|]. lra. }
  destruct (fadd_R a b Fa Fb) as (A1 & A2).
  { eapply Rle_lt_trans; [exact R1|]. apply bpow_lt. unfold emax64. lia. }
  destruct (f_lit_pow2 (-1)) as (H1 & H2); [lia|].
  assert (R2 : Rabs (rnd64 (/ 2 * rnd64 (B2R a + B2R b))) <= B).
  { apply rnd64_bpow_le; [lia|]. fold B. rewrite Rabs_mult, (Rabs_pos_eq (/ 2)) by lra. lra. }
  destruct (fmul_R fhalf (fadd a b) H2 A2) as (M1 & M2).
  { unfold fhalf. rewrite H1, A1, bpow_m1. eapply Rle_lt_trans; [exact R2|]. apply bpow_lt. unfold emax64. lia. }
  unfold fhalf in M1 at 2. rewrite H1, A1, bpow_m1 in M1.
  split; [|exact M1]. apply okb_R. split; [exact M2|]. unfold fmid. rewrite M1. exact R2.
Qed.

Lemma fmid_between a b : okb a = true -> okb b = true -> B2R a <= B2R b ->
  B2R a <= B2R (fmid a b) <= B2R b.
Proof.
  intros Ha Hb H. rewrite (proj2 (fmid_R a b Ha Hb)).
  assert (D : forall x : f64, rnd64 (2 * B2R x) = 2 * B2R x).
  { intros x. apply rnd64_id. rewrite Rmult_comm. apply (format_scale (B2R x) 1); [lia|apply f_format]. }
  assert (L : 2 * B2R a <= rnd64 (B2R a + B2R b)) by (rewrite <- D; apply rnd64_mono; lra).
  assert (U : rnd64 (B2R a + B2R b) <= 2 * B2R b) by (rewrite <- (D b); apply rnd64_mono; lra).
  split.
  - rewrite <- (rnd64_id (B2R a)) at 1 by apply f_format. apply rnd64_mono. lra.
  - rewrite <- (rnd64_id (B2R b)) at 2 by apply f_format. apply rnd64_mono. lra.
Qed.

Lemma fema1_R t o : okb t = true -> okb o = true ->
  okb (fema1 t o) = true /\ B2R (fema1 t o) = B2R t.
Proof.
  intros Ht Ho. apply okb_R in Ht, Ho. destruct Ht as (Ft & Rt), Ho as (Fo & Ro).
  assert (BE : forall x, Rabs x <= bpow radix2 1000 -> Rabs x < bpow radix2 emax64).
  { intros x Hx. eapply Rle_lt_trans; [exact Hx|]. apply bpow_lt. unfold emax64. lia. }
  destruct (f_ofZ_exact 1) as (O1 & O2); [lia|].
  destruct (fmul_R (f_ofZ 1) t O2 Ft) as (M1 & M2); rewrite O1, Rmult_1_l, (rnd64_id _ (f_format t)) in *; [apply BE, Rt|].
  destruct (fsub_R (f_ofZ 1) (f_ofZ 1) O2 O2) as (S1 & S2); rewrite O1, Rminus_diag_eq, (rnd64_int 0) in * by (reflexivity || lia).
  { rewrite Rabs_R0. apply bpow_gt_0. }
  destruct (fmul_R (fsub (f_ofZ 1) (f_ofZ 1)) o S2 Fo) as (N1 & N2); rewrite S1, Rmult_0_l, (rnd64_int 0) in * by lia.
  { rewrite Rabs_R0. apply bpow_gt_0. }
  destruct (fadd_R _ _ M2 N2) as (A1 & A2); rewrite M1, N1, Rplus_0_r, (rnd64_id _ (f_format t)) in *; [apply BE, Rt|].
  split; [|exact A1]. apply okb_R. split; [exact A2|]. unfold fema1. rewrite A1. exact Rt.
Qed.

Lemma fema1_same a : okb a = true -> fema1 a a = a.
Proof.
  intros Ha. destruct (fema1_R a a Ha Ha) as (O & R).
  apply okb_R in O. destruct O as (F & _). apply okb_R in Ha. destruct Ha as (Fa & _).
  destruct a as [s| | |s m e Hb]; try discriminate.
  - destruct s; reflexivity.
  - apply B2R_inj; [|reflexivity|exact R].
    destruct (fema1 (B754_finite s m e Hb) (B754_finite s m e Hb)) as [s'| | |s' m' e' Hb']; try discriminate; [|reflexivity].
    exfalso. cbn [B2R] in R. symmetry in R. apply eq_0_F2R in R. destruct s; discriminate.
Qed.

Definition cle (a b : coord) : bool := fle (proj1_sig a) (proj1_sig b).
Definition clt (a b : coord) : bool := flt (proj1_sig a) (proj1_sig b).
Definition cmid (a b : coord) : coord :=
  exist _ (fmid (proj1_sig a) (proj1_sig b)) (proj1 (fmid_R _ _ (proj2_sig a) (proj2_sig b))).
Definition cema (t o : coord) : coord :=
  exist _ (fema1 (proj1_sig t) (proj1_sig o)) (proj1 (fema1_R _ _ (proj2_sig t) (proj2_sig o))).

Lemma okb_fin x : okb x = true -> is_finite x = true.
Proof. intros H. apply okb_R in H. apply H. Qed.

Lemma cle_R a b : cle a b = true <-> B2R (proj1_sig a) <= B2R (proj1_sig b).
Proof. unfold cle. apply fle_R; apply okb_fin, proj2_sig. Qed.

Lemma coord_ordered : coord_order cle clt.
Proof.
  split.
  - intros a b. rewrite !cle_R. lra.
  - intros a b c. rewrite !cle_R. lra.
  - intros a b. unfold clt, cle, flt, fle.
    rewrite (Bltb_correct prec64 emax64 _ _ (okb_fin _ (proj2_sig a)) (okb_fin _ (proj2_sig b))).
    rewrite (Bleb_correct prec64 emax64 _ _ (okb_fin _ (proj2_sig b)) (okb_fin _ (proj2_sig a))).
    symmetry. apply negb_Rlt_bool.
Qed.

Lemma coord_averaging : averaging cle cmid cema.
Proof.
  split.
  - intros a b. rewrite !cle_R. intros H. apply fmid_between; [apply proj2_sig|apply proj2_sig|exact H].
  - intros a b. rewrite !cle_R. intros H. apply fmid_between; [apply proj2_sig|apply proj2_sig|exact H].
  - intros [a Ha]. unfold cema. cbn [proj1_sig proj2_sig].
    generalize (proj1 (fema1_R a a Ha Ha)). rewrite (fema1_same a Ha). intros Ha'. f_equal.
    apply UIP_dec. apply bool_dec.
  - intros a b c d. rewrite !cle_R. cbn [cema proj1_sig].
    rewrite (proj2 (fema1_R _ _ (proj2_sig a) (proj2_sig c))), (proj2 (fema1_R _ _ (proj2_sig b) (proj2_sig d))). auto.
Qed.

(** ** Histories for each arithmetic *)
Section Histories.
  Context {C : Type} (le lt : C -> C -> bool) (O : coord_order le lt) (mid ema : C -> C -> C)
    (AV : averaging le mid ema) (sortBy : (vec C -> C) -> list (vec C) -> list (vec C)) (SB : sorts le sortBy).
  Lemma history_tiles root nx ny nz : (0 < nx -> 0 < ny -> 0 < nz ->
    forall calls, calls <> [] ->
    Forall (fun c => nx * ny * nz <= length (concat c) /\ Forall (within le root) (concat c)) calls ->
    exists doms, decomposeHistory mid ema sortBy root nx ny nz (nx * ny * nz) None calls = Done (Some doms) /\
      length doms = nx * ny * nz /\ tiles le lt root doms /\ grid_of le root nx ny nz doms)%nat.
  Proof.
    intros Hx Hy Hz calls HN HF.
    destruct (history_grid le lt O mid ema AV sortBy SB root nx ny nz calls Hx Hy Hz HF None I) as (res & E & G).
    destruct res as [doms|]; [|tauto].
    exists doms. split; [exact E|]. split; [|split; [exact (grid_tiles le lt O root nx ny nz doms G)|exact G]].
    destruct G as (A & _). exact A.
  Qed.
End Histories.

Lemma history_tiles_reals coef : 0 <= coef <= 1 -> forall sortBy, sorts Rle_bool sortBy ->
  forall root nx ny nz, (0 < nx)%nat -> (0 < ny)%nat -> (0 < nz)%nat ->
  forall calls, calls <> [] ->
  Forall (fun c => (nx * ny * nz <= length (concat c))%nat /\ Forall (within Rle_bool root) (concat c)) calls ->
  exists doms,
    decomposeHistory (fun a b => / 2 * (a + b)) (fun t o => coef * t + (1 - coef) * o) sortBy
      root nx ny nz (nx * ny * nz) None calls = Done (Some doms) /\
    length doms = (nx * ny * nz)%nat /\ tiles Rle_bool Rlt_bool root doms.
Proof.
  intros Hc sortBy SB root nx ny nz Hx Hy Hz calls HN HF.
  destruct (history_tiles _ _ real_order _ _ (real_averaging coef Hc) sortBy SB root nx ny nz Hx Hy Hz calls HN HF)
    as (doms & E & L & T & _).
  exists doms. auto.
Qed.

Lemma history_tiles_doubles : forall sortBy, sorts cle sortBy ->
  forall root nx ny nz, (0 < nx)%nat -> (0 < ny)%nat -> (0 < nz)%nat ->
  forall calls, calls <> [] ->
  Forall (fun c => (nx * ny * nz <= length (concat c))%nat /\ Forall (within cle root) (concat c)) calls ->
  exists doms,
    decomposeHistory cmid cema sortBy root nx ny nz (nx * ny * nz) None calls = Done (Some doms) /\
    length doms = (nx * ny * nz)%nat /\ tiles cle clt root doms.
Proof.
  intros sortBy SB root nx ny nz Hx Hy Hz calls HN HF.
  destruct (history_tiles _ _ coord_ordered _ _ coord_averaging sortBy SB root nx ny nz Hx Hy Hz calls HN HF)
    as (doms & E & L & T & _).
  exists doms. auto.
Qed.

(** an insertion sort over the integers meets the contract of std::sort *)
Lemma Z_sorts : sorts Z.leb (fun k => stable_sort (fun a b => Z.ltb (k a) (k b))).
Proof.
  intros key l. split; [symmetry; apply stable_sort_perm|].
  induction l as [|x r IH]; cbn [stable_sort]; [constructor|].
  remember (stable_sort _ r) as s. clear Heqs.
  induction s as [|y s IHs]; cbn [insert]; [repeat constructor|].
  inversion IH as [|? ? S F]; subst.
  destruct (Z.ltb_spec (key y) (key x)).
  - constructor; [apply IHs, S|].
    apply (@Permutation_Forall _ _ (x :: s)); [|constructor; [apply Z.leb_le; lia|exact F]].
    apply insert_perm.
  - constructor; [constructor; assumption|].
    constructor; [apply Z.leb_le; lia|].
    eapply Forall_impl; [|exact F]. intros z Hz. apply Z.leb_le in Hz. apply Z.leb_le. lia.
Qed.
