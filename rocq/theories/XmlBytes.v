(** Numbers as bytes, and bytes as base64 text. *)
From Coq Require Import List Arith NArith ZArith Reals Lia Lra Bool Ascii.
From Flocq Require Import Core BinarySingleNaN Binary Bits.
From Verif Require Import Outcome F64 Arith VtpModel Base64Model Base64Spec Base64Proofs XmlModel XmlSpec.
Import ListNotations.
Local Open Scope Z_scope.
Local Notation B2R := BinarySingleNaN.B2R.
Local Notation is_finite := BinarySingleNaN.is_finite.
Local Notation Bsign := BinarySingleNaN.Bsign.

Notation fexp32 := (SpecFloat.fexp 24 128).
Definition rnd32 (x : R) : R := round radix2 fexp32 ZnearestE x.

(** ** Bytes *)
Lemma leBytes_length n z : length (leBytes n z) = n.
Proof. revert z. induction n; intros z; cbn; [reflexivity|rewrite IHn; reflexivity]. Qed.
Lemma leBytes_bytes n z : Forall is_byte (leBytes n z).
Proof.
  revert z. induction n; intros z; cbn [leBytes]; constructor; [|apply IHn]. unfold is_byte. pose proof (Z.mod_pos_bound z 256 ltac:(lia)).
  change 256%N with (Z.to_N 256). apply Z2N.inj_lt; lia.
Qed.
Lemma leBytes_value n : forall z, littleEndian (leBytes n z) = z mod 256 ^ Z.of_nat n.
Proof.
  induction n as [|n IH]; intros z; [cbn; rewrite Z.mod_1_r; reflexivity|]. cbn [leBytes littleEndian]. rewrite IH.
  pose proof (Z.mod_pos_bound z 256 ltac:(lia)). rewrite Z2N.id by lia. rewrite Nat2Z.inj_succ, Z.pow_succ_r by lia.
  rewrite Z.rem_mul_r by (try lia; apply Z.pow_pos_nonneg; lia). reflexivity.
Qed.

(** ** Floats *)
Lemma finite_R {p q} s m e H : B2R (BinarySingleNaN.B754_finite s m e H : BinarySingleNaN.binary_float p q) = F2R (Float radix2 (cond_Zopp s (Zpos m)) e).
Proof. reflexivity. Qed.
Lemma sign_of_R s m e (P : (0 < F2R (Float radix2 (Zpos m) e))%R) : match Rcompare (F2R (Float radix2 (cond_Zopp s (Zpos m)) e)) 0 with Eq => s | Lt => true | Gt => false end = s.
Proof.
  destruct s; cbn [cond_Zopp].
  - rewrite Rcompare_Lt; [reflexivity|]. change (- Zpos m) with (Zneg m). apply F2R_lt_0. reflexivity.
  - rewrite Rcompare_Gt; [reflexivity|exact P].
Qed.
Lemma narrow_R x : is_finite x = true -> (Rabs (rnd32 (B2R x)) < bpow radix2 128)%R ->
  B2R (narrow x) = rnd32 (B2R x) /\ is_finite (narrow x) = true /\ Bsign (narrow x) = Bsign x.
Proof.
  destruct x as [s|s| |s m e H]; intros F L; try discriminate F.
  - cbn. unfold rnd32. rewrite round_0 by apply valid_rnd_N. repeat split.
  - rewrite finite_R in *. cbn [narrow]. pose proof (BinarySingleNaN.binary_normalize_correct 24 128 _ _ mode_NE (cond_Zopp s (Zpos m)) e s) as C. cbv zeta in C.
    change (round radix2 fexp32 (round_mode mode_NE)) with rnd32 in C. rewrite Rlt_bool_true in C by exact L. destruct C as (C1 & C2 & C3).
    rewrite C1, C2, C3. rewrite sign_of_R by (apply F2R_gt_0; reflexivity). repeat split.
Qed.
Lemma widen_R (y : f32) : B2R (widen y) = B2R y /\ is_finite (widen y) = is_finite y /\ (is_finite y = true -> Bsign (widen y) = Bsign y).
Proof.
  destruct y as [s|s| |s m e H]; try (repeat split; discriminate || reflexivity).
  rewrite finite_R. cbn [widen]. pose proof (BinarySingleNaN.binary_normalize_correct 53 1024 _ _ mode_NE (cond_Zopp s (Zpos m)) e s) as C. cbv zeta in C.
  set (x := F2R _) in *. set (y := BinarySingleNaN.B754_finite s m e H : f32).
  assert (E : B2R y = x) by reflexivity.
  assert (G : generic_format radix2 (SpecFloat.fexp 53 1024) x).
  { rewrite <- E. apply generic_inclusion_mag with (fexp1 := fexp32); [|apply BinarySingleNaN.generic_format_B2R].
    intros _. change (SpecFloat.fexp 24 128) with (FLT_exp (-149) 24). change (SpecFloat.fexp 53 1024) with (FLT_exp (-1074) 53). unfold FLT_exp. lia. }
  rewrite round_generic in C by (try exact G; apply valid_rnd_N). rewrite Rlt_bool_true in C.
  - destruct C as (C1 & C2 & C3). split; [exact C1|split; [exact C2|]]. intros _. refine (eq_trans C3 _). apply sign_of_R, F2R_gt_0. reflexivity.
  - rewrite <- E. apply Rlt_trans with (bpow radix2 128); [apply BinarySingleNaN.abs_B2R_lt_emax|apply bpow_lt; lia].
Qed.
Lemma narrow_widen y : narrow (widen y) = y.
Proof.
  destruct y as [s|s| |s m e H] eqn:Y; try reflexivity. rewrite <- Y. assert (F : is_finite y = true) by (rewrite Y; reflexivity). clear Y.
  destruct (widen_R y) as (A & B & C). specialize (C F).
  assert (R : rnd32 (B2R (widen y)) = B2R y) by (rewrite A; apply round_generic; [apply valid_rnd_N|apply BinarySingleNaN.generic_format_B2R]).
  destruct (narrow_R (widen y)) as (D & E & G); [rewrite B; exact F|rewrite R; apply BinarySingleNaN.abs_B2R_lt_emax|].
  apply BinarySingleNaN.B2R_Bsign_inj; [exact E|exact F|rewrite D; exact R|rewrite G; exact C].
Qed.
Lemma to32_twice x : to32 (to32 x) = to32 x.
Proof. unfold to32. rewrite narrow_widen. reflexivity. Qed.

(** ** One element *)
Lemma element_ok t v : ofType t v -> element t (elementBytes t v) = v.
Proof.
  destruct t, v as [z|x]; cbn [ofType]; intros H; try contradiction; cbn [elementBytes element]; rewrite leBytes_value.
  - rewrite Z.mod_small by (change (256 ^ Z.of_nat 1) with 256; lia). reflexivity.
  - change (256 ^ Z.of_nat 4) with (2 ^ 32). unfold signed32. f_equal. destruct (Z.ltb_spec (z mod 2 ^ 32) (2 ^ 31)).
    + destruct (Z.lt_ge_cases z 0); [|apply Z.mod_small; lia].
      exfalso. rewrite <- (Z.mod_add z 1) in H0 by lia. rewrite Z.mod_small in H0 by lia. lia.
    + destruct (Z.lt_ge_cases z 0); [|rewrite Z.mod_small in H0 by lia; lia].
      rewrite <- (Z.mod_add z 1) by lia. rewrite Z.mod_small by lia. lia.
  - destruct H as (y & ->). rewrite narrow_widen. f_equal. rewrite Z.mod_small.
    + unfold bits32, bits_of_b32, b32_of_bits. rewrite binary_float_of_bits_of_binary_float, B2BSN_BSN2B. reflexivity.
    + change (256 ^ Z.of_nat 4) with (2 ^ (23 + 8 + 1)). apply bits_of_binary_float_range; reflexivity.
  - f_equal. rewrite Z.mod_small.
    + unfold bits64, bits_of_b64, b64_of_bits. rewrite binary_float_of_bits_of_binary_float, B2BSN_BSN2B. reflexivity.
    + change (256 ^ Z.of_nat 8) with (2 ^ (52 + 11 + 1)). apply bits_of_binary_float_range; reflexivity.
Qed.
Lemma elementBytes_length t v : length (elementBytes t v) = sizeOf t.
Proof. destruct t, v; apply leBytes_length. Qed.
Lemma elementBytes_bytes t v : Forall is_byte (elementBytes t v).
Proof. destruct t, v; apply leBytes_bytes. Qed.

(** ** The contents of an array *)
Lemma groups_ok n (l : list (list N)) : (0 < n)%nat -> Forall (fun b => length b = n) l -> forall fuel, (length l <= fuel)%nat -> groups fuel n (concat l) = l.
Proof.
  intros P H. induction H as [|b l B H IH]; intros fuel F; [destruct fuel; reflexivity|]. destruct fuel as [|fuel]; [cbn in F; lia|].
  cbn [concat]. destruct b as [|c b]; [cbn in B; lia|]. cbn [groups app]. change (c :: b ++ concat l) with ((c :: b) ++ concat l).
  rewrite firstn_app, skipn_app, B, Nat.sub_diag. cbn [firstn skipn]. rewrite firstn_all2, skipn_all2 by lia. rewrite app_nil_r. cbn [app]. rewrite IH; [reflexivity|cbn in F; lia].
Qed.
Lemma concat_const_length {A} n (l : list (list A)) : Forall (fun b => length b = n) l -> length (concat l) = (n * length l)%nat.
Proof. induction 1; cbn [concat length]; [lia|]. rewrite app_length. lia. Qed.

Lemma content_ok (t : vtype) (data : list (value F_arith)) : Forall (ofType t) data -> (N.of_nat (length data) * N.of_nat (sizeOf t) < 2 ^ 32)%N ->
  exists b64, getBase64FromVector (N.of_nat (length data)) (N.of_nat (sizeOf t)) (concat (map (elementBytes t) data)) [] = Done b64 /\
    Forall (fun c => is_letter c \/ c = equals_sign) b64 /\ decode64 b64 = Some (concat (map (elementBytes t) data)) /\
    map (element t) (groups (length (concat (map (elementBytes t) data))) (bytesOf t) (concat (map (elementBytes t) data))) = data.
Proof.
  intros T S. set (mem := concat _).
  assert (L : length mem = (sizeOf t * length data)%nat).
  { unfold mem. rewrite concat_const_length with (n := sizeOf t), map_length; [reflexivity|]. apply Forall_map, Forall_forall. intros. apply elementBytes_length. }
  assert (B : Forall is_byte mem).
  { unfold mem. apply Forall_concat, Forall_map, Forall_forall. intros. apply elementBytes_bytes. }
  destruct (block_self_describing (N.of_nat (length data)) (N.of_nat (sizeOf t)) mem [] B ltac:(lia) S) as (h0 & h1 & h2 & h3 & ht & pt & E & Lh & V & Hb & D1 & D2).
  exists (ht ++ pt)%list. split; [exact E|]. split; [|split].
  - assert (U : forall v, Forall is_byte (uint32_bytes v)) by (intros v; unfold uint32_bytes; repeat constructor; unfold is_byte; apply N.mod_lt; discriminate).
    unfold getBase64FromVector in E. specialize (U ((N.of_nat (length data) * N.of_nat (sizeOf t)) mod 4294967296)%N). set (hb := uint32_bytes _) in *. clearbody hb.
    cbv zeta in E. rewrite encode_spec in E by exact U. unfold obind at 1 in E. rewrite encode_spec in E by exact B. unfold obind, snd in E. injection E as <-.
    unfold base64_text_marked. rewrite !andb_false_l, !app_nil_r. apply Forall_app. split; apply base64_text_alphabet; assumption.
  - assert (K : skipn 8 (ht ++ pt) = pt) by (rewrite skipn_app, Lh, Nat.sub_diag, skipn_all2 by lia; reflexivity).
    unfold decode64. rewrite K, D1 by (cbn; lia). change ([h0; h1; h2; h3] ++ skipn 4 [0; 0; 0; 0]%N) with [h0; h1; h2; h3]. cbv zeta.
    replace (Z.to_nat (littleEndian [h0; h1; h2; h3])) with (length mem) by (cbn [littleEndian]; lia).
    rewrite D2 by (rewrite repeat_length; lia).
    rewrite Nat.eqb_refl. rewrite skipn_all2 by (rewrite repeat_length; lia). rewrite app_nil_r. reflexivity.
  - replace (bytesOf t) with (sizeOf t) by (destruct t; reflexivity). unfold mem at 2. rewrite groups_ok.
    + rewrite map_map. clear -T. induction T as [|v l H T IH]; cbn; [reflexivity|]. rewrite element_ok by exact H. rewrite IH. reflexivity.
    + destruct t; cbn; lia.
    + apply Forall_map, Forall_forall. intros. apply elementBytes_length.
    + rewrite map_length, L. destruct t; cbn; lia.
Qed.
