(** Proofs about Base64Model. *)
From Coq Require Import List Arith NArith Lia Bool.
From Verif Require Import Outcome Base64Model Base64Spec.
Import ListNotations.
Local Open Scope N_scope.

(** * Finite sweeps *)

Definition bytes256 : list N := map N.of_nat (seq 0 256).

Lemma bytes256_complete b : b < 256 -> In b bytes256.
Proof.
  intros H. unfold bytes256. apply in_map_iff. exists (N.to_nat b).
  split; [apply N2Nat.id|]. apply in_seq. lia.
Qed.

Lemma sweep1 (P : N -> bool) :
  forallb P bytes256 = true -> forall a, a < 256 -> P a = true.
Proof. intros H a Ha. rewrite forallb_forall in H. apply H, bytes256_complete, Ha. Qed.

Lemma sweep2 (P : N -> N -> bool) :
  forallb (fun a => forallb (P a) bytes256) bytes256 = true ->
  forall a b, a < 256 -> b < 256 -> P a b = true.
Proof.
  intros H a b Ha Hb. rewrite forallb_forall in H.
  specialize (H a (bytes256_complete a Ha)). rewrite forallb_forall in H.
  apply H, bytes256_complete, Hb.
Qed.

Definition outN_eqb (x y : outcome N) : bool :=
  match x, y with Done a, Done b => a =? b | _, _ => false end.
Lemma outN_eqb_eq x y : outN_eqb x y = true -> x = y.
Proof. destruct x, y; cbn; try discriminate. intros H; apply N.eqb_eq in H; congruence. Qed.

(** The four 6-bit values of a 3-byte group. *)
Definition sx0 (a : N) := a / 4.
Definition sx1 (a b : N) := (a mod 4) * 16 + b / 16.
Definition sx2 (b c : N) := (b mod 16) * 4 + c / 64.
Definition sx3 (c : N) := c mod 64.

Lemma enc_d0 a : a < 256 -> EncodeChar (N.land (N.shiftr a 2) 0x3F) = Done (letter (sx0 a)).
Proof.
  intros Ha. apply outN_eqb_eq.
  apply (sweep1 (fun a => outN_eqb (EncodeChar (N.land (N.shiftr a 2) 0x3F)) (Done (letter (sx0 a)))));
    [vm_compute; reflexivity | assumption].
Qed.
Lemma enc_d1 a b : a < 256 -> b < 256 ->
  EncodeChar (N.lor (N.land (N.shiftl a 4) 0x30) (N.land (N.shiftr b 4) 0x0F)) = Done (letter (sx1 a b)).
Proof.
  intros Ha Hb. apply outN_eqb_eq.
  apply (sweep2 (fun a b => outN_eqb (EncodeChar (N.lor (N.land (N.shiftl a 4) 0x30) (N.land (N.shiftr b 4) 0x0F)))
                              (Done (letter (sx1 a b)))));
    [vm_compute; reflexivity | assumption..].
Qed.
Lemma enc_d2 b c : b < 256 -> c < 256 ->
  EncodeChar (N.lor (N.land (N.shiftl b 2) 0x3C) (N.land (N.shiftr c 6) 0x03)) = Done (letter (sx2 b c)).
Proof.
  intros Hb Hc. apply outN_eqb_eq.
  apply (sweep2 (fun b c => outN_eqb (EncodeChar (N.lor (N.land (N.shiftl b 2) 0x3C) (N.land (N.shiftr c 6) 0x03)))
                              (Done (letter (sx2 b c)))));
    [vm_compute; reflexivity | assumption..].
Qed.
Lemma enc_d3 c : c < 256 -> EncodeChar (N.land c 0x3F) = Done (letter (sx3 c)).
Proof.
  intros Hc. apply outN_eqb_eq.
  apply (sweep1 (fun c => outN_eqb (EncodeChar (N.land c 0x3F)) (Done (letter (sx3 c)))));
    [vm_compute; reflexivity | assumption].
Qed.
Lemma enc_d1' a : a < 256 -> EncodeChar (N.land (N.shiftl a 4) 0x30) = Done (letter (sx1 a 0)).
Proof.
  intros Ha. apply outN_eqb_eq.
  apply (sweep1 (fun a => outN_eqb (EncodeChar (N.land (N.shiftl a 4) 0x30)) (Done (letter (sx1 a 0)))));
    [vm_compute; reflexivity | assumption].
Qed.
Lemma enc_d2' b : b < 256 -> EncodeChar (N.land (N.shiftl b 2) 0x3C) = Done (letter (sx2 b 0)).
Proof.
  intros Hb. apply outN_eqb_eq.
  apply (sweep1 (fun b => outN_eqb (EncodeChar (N.land (N.shiftl b 2) 0x3C)) (Done (letter (sx2 b 0)))));
    [vm_compute; reflexivity | assumption].
Qed.

(** * The specification on one group *)

Lemma eqb_sweep1 (f g : N -> N) :
  forallb (fun a => f a =? g a) bytes256 = true -> forall a, a < 256 -> f a = g a.
Proof. intros H a Ha. apply N.eqb_eq. apply (sweep1 (fun a => f a =? g a) H a Ha). Qed.
Lemma eqb_sweep2 (f g : N -> N -> N) :
  forallb (fun a => forallb (fun b => f a b =? g a b) bytes256) bytes256 = true ->
  forall a b, a < 256 -> b < 256 -> f a b = g a b.
Proof. intros H a b Ha Hb. apply N.eqb_eq. apply (sweep2 (fun a b => f a b =? g a b) H a b Ha Hb). Qed.

Definition six (b5 b4 b3 b2 b1 b0 : bool) : N :=
  32 * bit_value b5 + 16 * bit_value b4 + 8 * bit_value b3 +
  4 * bit_value b2 + 2 * bit_value b1 + bit_value b0.

Lemma six0 a : a < 256 ->
  six (N.testbit a 7) (N.testbit a 6) (N.testbit a 5) (N.testbit a 4) (N.testbit a 3) (N.testbit a 2) = sx0 a.
Proof.
  apply (eqb_sweep1 (fun a => six (N.testbit a 7) (N.testbit a 6) (N.testbit a 5) (N.testbit a 4)
    (N.testbit a 3) (N.testbit a 2)) sx0). vm_compute; reflexivity.
Qed.
Lemma six1 a b : a < 256 -> b < 256 ->
  six (N.testbit a 1) (N.testbit a 0) (N.testbit b 7) (N.testbit b 6) (N.testbit b 5) (N.testbit b 4) = sx1 a b.
Proof.
  apply (eqb_sweep2 (fun a b => six (N.testbit a 1) (N.testbit a 0) (N.testbit b 7) (N.testbit b 6)
    (N.testbit b 5) (N.testbit b 4)) sx1). vm_compute; reflexivity.
Qed.
Lemma six2 b c : b < 256 -> c < 256 ->
  six (N.testbit b 3) (N.testbit b 2) (N.testbit b 1) (N.testbit b 0) (N.testbit c 7) (N.testbit c 6) = sx2 b c.
Proof.
  apply (eqb_sweep2 (fun b c => six (N.testbit b 3) (N.testbit b 2) (N.testbit b 1) (N.testbit b 0)
    (N.testbit c 7) (N.testbit c 6)) sx2). vm_compute; reflexivity.
Qed.
Lemma six3 c : c < 256 ->
  six (N.testbit c 5) (N.testbit c 4) (N.testbit c 3) (N.testbit c 2) (N.testbit c 1) (N.testbit c 0) = sx3 c.
Proof.
  apply (eqb_sweep1 (fun c => six (N.testbit c 5) (N.testbit c 4) (N.testbit c 3) (N.testbit c 2)
    (N.testbit c 1) (N.testbit c 0)) sx3). vm_compute; reflexivity.
Qed.

Lemma sextets_six b5 b4 b3 b2 b1 b0 r :
  sextets (b5 :: b4 :: b3 :: b2 :: b1 :: b0 :: r) = six b5 b4 b3 b2 b1 b0 :: sextets r.
Proof. reflexivity. Qed.
Lemma sextets_4 b5 b4 b3 b2 : sextets [b5; b4; b3; b2] = [six b5 b4 b3 b2 false false].
Proof. destruct b5, b4, b3, b2; reflexivity. Qed.
Lemma sextets_2 b5 b4 : sextets [b5; b4] = [six b5 b4 false false false false].
Proof. destruct b5, b4; reflexivity. Qed.

Lemma sextets_group a b c bs : a < 256 -> b < 256 -> c < 256 ->
  sextets (bits_of_byte a ++ bits_of_byte b ++ bits_of_byte c ++ bs)%list
  = sx0 a :: sx1 a b :: sx2 b c :: sx3 c :: sextets bs.
Proof.
  intros Ha Hb Hc. unfold bits_of_byte. cbn [app]. rewrite !sextets_six.
  rewrite six0, six1, six2, six3 by assumption. reflexivity.
Qed.

Lemma sextets_two a b : a < 256 -> b < 256 ->
  sextets (bits_of_byte a ++ bits_of_byte b)%list = [sx0 a; sx1 a b; sx2 b 0].
Proof.
  intros Ha Hb. unfold bits_of_byte. cbn [app]. rewrite !sextets_six, sextets_4.
  rewrite six0, six1 by assumption. rewrite <- (six2 b 0) by (assumption || lia). reflexivity.
Qed.

Lemma sextets_one a : a < 256 -> sextets (bits_of_byte a) = [sx0 a; sx1 a 0].
Proof.
  intros Ha. unfold bits_of_byte. rewrite sextets_six, sextets_2.
  rewrite six0 by assumption. rewrite <- (six1 a 0) by (assumption || lia). reflexivity.
Qed.

(** * Induction three bytes at a time *)

Lemma list_ind3 {A} (P : list A -> Prop) :
  P [] -> (forall a, P [a]) -> (forall a b, P [a; b]) ->
  (forall a b c r, P r -> P (a :: b :: c :: r)) -> forall l, P l.
Proof.
  intros H0 H1 H2 H3 l.
  assert (H : P l /\ (forall a, P (a :: l)) /\ (forall a b, P (a :: b :: l))).
  { induction l as [|x l [Hl [Hl1 Hl2]]].
    - repeat split; auto.
    - split; [apply Hl1|]. split; [intros a; apply Hl2|].
      intros a b. apply H3, Hl. }
  apply H.
Qed.

Lemma base64_text_step a b c r : a < 256 -> b < 256 -> c < 256 ->
  base64_text (a :: b :: c :: r)
  = letter (sx0 a) :: letter (sx1 a b) :: letter (sx2 b c) :: letter (sx3 c) :: base64_text r.
Proof.
  intros Ha Hb Hc. unfold base64_text, bit_string. cbn [flat_map].
  rewrite sextets_group by assumption. cbn [map length app].
  do 4 f_equal. f_equal. f_equal. f_equal. f_equal.
  set (n := length _).
  replace (S (S (S (S n)))) with (n + 1 * 4)%nat by lia.
  rewrite Nat.mod_add by lia. reflexivity.
Qed.

Lemma base64_text_two a b : a < 256 -> b < 256 ->
  base64_text [a; b] = [letter (sx0 a); letter (sx1 a b); letter (sx2 b 0); equals_sign].
Proof.
  intros Ha Hb. unfold base64_text, bit_string. cbn [flat_map].
  rewrite app_nil_r, sextets_two by assumption. reflexivity.
Qed.

Lemma base64_text_one a : a < 256 ->
  base64_text [a] = [letter (sx0 a); letter (sx1 a 0); equals_sign; equals_sign].
Proof.
  intros Ha. unfold base64_text, bit_string. cbn [flat_map].
  rewrite app_nil_r, sextets_one by assumption. reflexivity.
Qed.

(** * Encoder = specification *)

Lemma encode_loop_spec data : Forall is_byte data -> forall output mark_end,
  encode_loop data output mark_end = Done (output ++ base64_text_marked mark_end data)%list.
Proof.
  unfold base64_text_marked.
  induction data as [|a|a b|a b c r IH] using list_ind3; intros Hd output mark_end.
  - cbn. destruct mark_end; cbn; rewrite ?app_nil_r; reflexivity.
  - inversion Hd as [|? ? Ha _]; subst. unfold is_byte in Ha.
    cbn [encode_loop]. unfold Encode1. rewrite enc_d0, enc_d1' by assumption.
    cbn [obind]. rewrite base64_text_one by assumption.
    cbn [length]. change (1 mod 3 =? 0)%nat with false. rewrite andb_false_r, app_nil_r. reflexivity.
  - inversion Hd as [|? ? Ha Hd']; subst. inversion Hd' as [|? ? Hb _]; subst. unfold is_byte in *.
    cbn [encode_loop]. unfold Encode2. rewrite enc_d0, enc_d1, enc_d2' by assumption.
    cbn [obind]. rewrite base64_text_two by assumption.
    cbn [length]. change (2 mod 3 =? 0)%nat with false. rewrite andb_false_r, app_nil_r. reflexivity.
  - inversion Hd as [|? ? Ha Hd']; subst. inversion Hd' as [|? ? Hb Hd'']; subst.
    inversion Hd'' as [|? ? Hc Hr]; subst. unfold is_byte in *.
    cbn [encode_loop]. unfold Encode3. rewrite enc_d0, enc_d1, enc_d2, enc_d3 by assumption.
    cbn [obind]. rewrite (IH Hr). f_equal. rewrite <- app_assoc. f_equal.
    rewrite base64_text_step by assumption. cbn [app length]. do 4 f_equal. f_equal.
    replace (S (S (S (length r)))) with (length r + 1 * 3)%nat by lia.
    rewrite Nat.mod_add by lia. reflexivity.
Qed.

Lemma encode_spec data prior mark_end : Forall is_byte data ->
  kwsysBase64_Encode data prior mark_end
  = Done (length (base64_text_marked mark_end data),
          (prior ++ base64_text_marked mark_end data)%list).
Proof.
  intros Hd. unfold kwsysBase64_Encode. rewrite encode_loop_spec by assumption.
  cbn [obind]. rewrite app_length. f_equal. f_equal. lia.
Qed.

Lemma base64_text_length data : Forall is_byte data ->
  length (base64_text data) = (4 * ((length data + 2) / 3))%nat.
Proof.
  induction data as [|a|a b|a b c r IH] using list_ind3; intros Hd.
  - reflexivity.
  - inversion Hd as [|? ? Ha _]; subst. rewrite base64_text_one by exact Ha. reflexivity.
  - inversion Hd as [|? ? Ha Hd']; subst. inversion Hd' as [|? ? Hb _]; subst.
    rewrite base64_text_two by assumption. reflexivity.
  - inversion Hd as [|? ? Ha Hd']; subst. inversion Hd' as [|? ? Hb Hd'']; subst.
    inversion Hd'' as [|? ? Hc Hr]; subst.
    rewrite base64_text_step by assumption. cbn [length]. rewrite IH by assumption.
    replace (S (S (S (length r))) + 2)%nat with (length r + 2 + 1 * 3)%nat by lia.
    rewrite Nat.div_add by lia. lia.
Qed.

Lemma sx0_lt a : a < 256 -> sx0 a < 64.
Proof. intros H. unfold sx0. apply N.div_lt_upper_bound; lia. Qed.
Lemma sx1_lt a b : b < 256 -> sx1 a b < 64.
Proof.
  intros Hb. unfold sx1. pose proof (N.mod_lt a 4 ltac:(lia)).
  assert (b / 16 < 16) by (apply N.div_lt_upper_bound; lia). lia.
Qed.
Lemma sx2_lt b c : c < 256 -> sx2 b c < 64.
Proof.
  intros Hc. unfold sx2. pose proof (N.mod_lt b 16 ltac:(lia)).
  assert (c / 64 < 4) by (apply N.div_lt_upper_bound; lia). lia.
Qed.
Lemma sx3_lt c : sx3 c < 64.
Proof. unfold sx3. apply N.mod_lt. lia. Qed.

Lemma base64_text_alphabet data : Forall is_byte data ->
  Forall (fun c => is_letter c \/ c = equals_sign) (base64_text data).
Proof.
  assert (L : forall v, v < 64 -> is_letter (letter v) \/ letter v = equals_sign)
    by (intros v Hv; left; exists v; auto).
  assert (Z : 0 < 256) by lia.
  induction data as [|a|a b|a b c r IH] using list_ind3; intros Hd.
  - constructor.
  - inversion Hd as [|? ? Ha _]; subst. unfold is_byte in *. rewrite base64_text_one by assumption.
    repeat (apply Forall_cons;
      [solve [apply L; auto using sx0_lt, sx1_lt, sx2_lt, sx3_lt | right; reflexivity]|]). constructor.
  - inversion Hd as [|? ? Ha Hd']; subst. inversion Hd' as [|? ? Hb _]; subst. unfold is_byte in *.
    rewrite base64_text_two by assumption.
    repeat (apply Forall_cons;
      [solve [apply L; auto using sx0_lt, sx1_lt, sx2_lt, sx3_lt | right; reflexivity]|]). constructor.
  - inversion Hd as [|? ? Ha Hd']; subst. inversion Hd' as [|? ? Hb Hd'']; subst.
    inversion Hd'' as [|? ? Hc Hr]; subst. unfold is_byte in *.
    rewrite base64_text_step by assumption.
    repeat (apply Forall_cons;
      [solve [apply L; auto using sx0_lt, sx1_lt, sx2_lt, sx3_lt]|]). auto.
Qed.

(** * Decoder on one group *)

Lemma dec_letter v : v < 64 -> DecodeChar (letter v) = Done v.
Proof.
  intros Hv. apply outN_eqb_eq.
  assert (H : forallb (fun v => implb (v <? 64) (outN_eqb (DecodeChar (letter v)) (Done v))) bytes256 = true)
    by (vm_compute; reflexivity).
  pose proof (sweep1 _ H v ltac:(lia)) as H'. cbn beta in H'.
  destruct (N.ltb_spec v 64); [exact H' | lia].
Qed.
Lemma dec_pad : DecodeChar pad = Done 0.
Proof. reflexivity. Qed.
Lemma letter_not_pad v : v < 64 -> (letter v =? pad) = false.
Proof.
  intros Hv.
  assert (H : forallb (fun v => implb (v <? 64) (negb (letter v =? pad))) bytes256 = true)
    by (vm_compute; reflexivity).
  pose proof (sweep1 _ H v ltac:(lia)) as H'. cbn beta in H'.
  destruct (N.ltb_spec v 64); [|lia]. cbn in H'. now apply negb_true_iff in H'.
Qed.

Lemma dec_b0 a b : a < 256 -> b < 256 ->
  N.lor (N.land (N.shiftl (sx0 a) 2) 0xFC) (N.land (N.shiftr (sx1 a b) 4) 0x03) mod 256 = a.
Proof.
  intros Ha Hb.
  apply (eqb_sweep2 (fun a b => N.lor (N.land (N.shiftl (sx0 a) 2) 0xFC) (N.land (N.shiftr (sx1 a b) 4) 0x03) mod 256)
           (fun a _ => a)); [vm_compute; reflexivity | assumption..].
Qed.
Lemma dec_b1 a b c : a < 256 -> b < 256 -> c < 256 ->
  N.lor (N.land (N.shiftl (sx1 a b) 4) 0xF0) (N.land (N.shiftr (sx2 b c) 2) 0x0F) mod 256 = b.
Proof.
  intros Ha Hb Hc.
  assert (E1 : N.land (N.shiftl (sx1 a b) 4) 0xF0 = 16 * (b / 16)).
  { apply (eqb_sweep2 (fun a b => N.land (N.shiftl (sx1 a b) 4) 0xF0) (fun _ b => 16 * (b / 16)));
      [vm_compute; reflexivity | assumption..]. }
  assert (E2 : N.land (N.shiftr (sx2 b c) 2) 0x0F = b mod 16).
  { apply (eqb_sweep2 (fun b c => N.land (N.shiftr (sx2 b c) 2) 0x0F) (fun b _ => b mod 16));
      [vm_compute; reflexivity | assumption..]. }
  rewrite E1, E2.
  apply (eqb_sweep1 (fun b => N.lor (16 * (b / 16)) (b mod 16) mod 256) (fun b => b));
    [vm_compute; reflexivity | assumption].
Qed.
Lemma dec_b2 b c : b < 256 -> c < 256 ->
  N.lor (N.land (N.shiftl (sx2 b c) 6) 0xC0) (N.land (N.shiftr (sx3 c) 0) 0x3F) mod 256 = c.
Proof.
  intros Hb Hc.
  apply (eqb_sweep2 (fun b c => N.lor (N.land (N.shiftl (sx2 b c) 6) 0xC0) (N.land (N.shiftr (sx3 c) 0) 0x3F) mod 256)
           (fun _ c => c)); [vm_compute; reflexivity | assumption..].
Qed.
Lemma neq_FF v : v < 64 -> (v =? 0xFF) = false.
Proof. intros H. apply N.eqb_neq. lia. Qed.

(** Reads of one group through an offset. *)
Lemma read0 (pre post : list N) c0 c1 c2 c3 :
  mread (pre ++ [c0; c1; c2; c3] ++ post)%list (length pre) = Done c0.
Proof. replace (length pre) with (length pre + 0)%nat by lia. rewrite mread_app2. reflexivity. Qed.
Lemma read1 (pre post : list N) c0 c1 c2 c3 :
  mread (pre ++ [c0; c1; c2; c3] ++ post)%list (length pre + 1) = Done c1.
Proof. rewrite mread_app2. reflexivity. Qed.
Lemma read2 (pre post : list N) c0 c1 c2 c3 :
  mread (pre ++ [c0; c1; c2; c3] ++ post)%list (length pre + 2) = Done c2.
Proof. rewrite mread_app2. reflexivity. Qed.
Lemma read3 (pre post : list N) c0 c1 c2 c3 :
  mread (pre ++ [c0; c1; c2; c3] ++ post)%list (length pre + 3) = Done c3.
Proof. rewrite mread_app2. reflexivity. Qed.

Lemma write3 (opre : list N) x y z o0 o1 o2 orest :
  (do dest <- mwrite (opre ++ o0 :: o1 :: o2 :: orest)%list (length opre) x;
   do dest <- mwrite dest (length opre + 1) y;
   do dest <- mwrite dest (length opre + 2) z;
   Done dest) = Done (opre ++ x :: y :: z :: orest)%list.
Proof.
  replace (length opre) with (length opre + 0)%nat at 1 by lia.
  rewrite mwrite_app2. unfold mwrite at 1. cbn [length Nat.ltb Nat.leb firstn skipn app obind].
  rewrite mwrite_app2. unfold mwrite at 1. cbn [length Nat.ltb Nat.leb firstn skipn app obind].
  rewrite mwrite_app2. unfold mwrite at 1. cbn [length Nat.ltb Nat.leb firstn skipn app obind].
  reflexivity.
Qed.

Lemma Decode3_full pre post opre o0 o1 o2 orest a b c : a < 256 -> b < 256 -> c < 256 ->
  Decode3 (pre ++ [letter (sx0 a); letter (sx1 a b); letter (sx2 b c); letter (sx3 c)] ++ post)%list (length pre)
          (opre ++ o0 :: o1 :: o2 :: orest)%list (length opre)
  = Done (3%nat, (opre ++ a :: b :: c :: orest)%list).
Proof.
  intros Ha Hb Hc. unfold Decode3.
  rewrite read0, read1, read2, read3. cbn [obind].
  rewrite !dec_letter by auto using sx0_lt, sx1_lt, sx2_lt, sx3_lt. cbn [obind].
  rewrite !neq_FF by auto using sx0_lt, sx1_lt, sx2_lt, sx3_lt. cbn [orb].
  rewrite dec_b0, dec_b1, dec_b2 by assumption.
  rewrite !letter_not_pad by auto using sx0_lt, sx1_lt, sx2_lt, sx3_lt.
  pose proof (write3 opre a b c o0 o1 o2 orest) as W.
  destruct (mwrite _ _ _) as [m1| |]; cbn [obind] in *; try discriminate.
  destruct (mwrite m1 _ _) as [m2| |]; cbn [obind] in *; try discriminate.
  destruct (mwrite m2 _ _) as [m3| |]; cbn [obind] in *; try discriminate.
  congruence.
Qed.

(** A two-byte group: two bytes reported, three written (the third is 0). *)
Lemma Decode3_two pre post opre o0 o1 o2 orest a b : a < 256 -> b < 256 ->
  Decode3 (pre ++ [letter (sx0 a); letter (sx1 a b); letter (sx2 b 0); pad] ++ post)%list (length pre)
          (opre ++ o0 :: o1 :: o2 :: orest)%list (length opre)
  = Done (2%nat, (opre ++ a :: b :: 0 :: orest)%list).
Proof.
  intros Ha Hb. unfold Decode3.
  rewrite read0, read1, read2, read3. cbn [obind].
  assert (H0 : 0 < 256) by lia.
  rewrite !dec_letter, dec_pad by auto using sx0_lt, sx1_lt, sx2_lt, sx3_lt. cbn [obind].
  rewrite !neq_FF by (auto using sx0_lt, sx1_lt, sx2_lt, sx3_lt; lia). cbn [orb].
  rewrite dec_b0, dec_b1 by assumption.
  change 0 with (sx3 0) at 1. rewrite dec_b2 by (assumption || lia).
  rewrite !letter_not_pad by auto using sx0_lt, sx1_lt, sx2_lt, sx3_lt.
  rewrite N.eqb_refl.
  pose proof (write3 opre a b 0 o0 o1 o2 orest) as W.
  destruct (mwrite _ _ _) as [m1| |]; cbn [obind] in *; try discriminate.
  destruct (mwrite m1 _ _) as [m2| |]; cbn [obind] in *; try discriminate.
  destruct (mwrite m2 _ _) as [m3| |]; cbn [obind] in *; try discriminate.
  congruence.
Qed.

Lemma Decode3_one pre post opre o0 o1 o2 orest a : a < 256 ->
  Decode3 (pre ++ [letter (sx0 a); letter (sx1 a 0); pad; pad] ++ post)%list (length pre)
          (opre ++ o0 :: o1 :: o2 :: orest)%list (length opre)
  = Done (1%nat, (opre ++ a :: 0 :: 0 :: orest)%list).
Proof.
  intros Ha. unfold Decode3.
  rewrite read0, read1, read2, read3. cbn [obind].
  assert (H0 : 0 < 256) by lia.
  rewrite !dec_letter, dec_pad by auto using sx0_lt, sx1_lt, sx2_lt, sx3_lt. cbn [obind].
  rewrite !neq_FF by (auto using sx0_lt, sx1_lt, sx2_lt, sx3_lt; lia). cbn [orb].
  rewrite dec_b0 by (assumption || lia).
  change (N.lor (N.land (N.shiftl (sx1 a 0) 4) 240) (N.land (N.shiftr 0 2) 15) mod 256)
    with (N.lor (N.land (N.shiftl (sx1 a 0) 4) 240) (N.land (N.shiftr (sx2 0 0) 2) 15) mod 256).
  rewrite dec_b1 by (assumption || lia).
  rewrite N.eqb_refl.
  pose proof (write3 opre a 0 0 o0 o1 o2 orest) as W.
  change (N.lor (N.land (N.shiftl 0 6) 192) (N.land (N.shiftr 0 0) 63) mod 256) with 0.
  destruct (mwrite _ _ _) as [m1| |]; cbn [obind] in *; try discriminate.
  destruct (mwrite m1 _ _) as [m2| |]; cbn [obind] in *; try discriminate.
  destruct (mwrite m2 _ _) as [m3| |]; cbn [obind] in *; try discriminate.
  congruence.
Qed.

(** * Decoder, length mode *)

Lemma out_split (n : nat) (out : list N) : (3 + n <= length out)%nat ->
  exists o0 o1 o2 orest, out = o0 :: o1 :: o2 :: orest /\ (n <= length orest)%nat.
Proof.
  intros H. destruct out as [|o0 [|o1 [|o2 orest]]]; cbn in H; try lia.
  exists o0, o1, o2, orest. split; [reflexivity | cbn in *; lia].
Qed.

Lemma decode_length_spec data : Forall is_byte data ->
  forall fuel pre rest opre out,
  (length data < fuel)%nat -> (length data <= length out)%nat ->
  decode_loop_length fuel (pre ++ base64_text data ++ rest)%list (length pre)
     (length opre + length data) (opre ++ out)%list (length opre)
  = Done ((length opre + length data)%nat, (opre ++ data ++ skipn (length data) out)%list).
Proof.
  induction data as [|a|a b|a b c r IH] using list_ind3; intros Hd fuel pre rest opre out Hfuel Hout.
  - destruct fuel; [cbn in Hfuel; lia|]. cbn [decode_loop_length length].
    replace (length opre + 0 - length opre)%nat with 0%nat by lia. cbn.
    f_equal. f_equal. lia.
  - inversion Hd as [|? ? Ha _]; subst. unfold is_byte in Ha.
    destruct fuel as [|fuel]; [cbn in Hfuel; lia|]. cbn [decode_loop_length length].
    replace (length opre + 1 - length opre)%nat with 1%nat by lia. cbn [Nat.leb Nat.eqb].
    rewrite base64_text_one by assumption. change equals_sign with pad.
    pose proof (Decode3_one pre rest [] 0 0 0 [] a Ha) as D. cbn [app length] in D.
    cbn [app]. rewrite D. cbn [obind mread nth_error Nat.ltb Nat.leb].
    destruct out as [|o0 orest]; [cbn in Hout; lia|].
    replace (length opre) with (length opre + 0)%nat at 1 by lia.
    rewrite mwrite_app2. unfold mwrite. cbn [length Nat.ltb Nat.leb firstn skipn app obind].
    reflexivity.
  - inversion Hd as [|? ? Ha Hd']; subst. inversion Hd' as [|? ? Hb _]; subst. unfold is_byte in *.
    destruct fuel as [|fuel]; [cbn in Hfuel; lia|]. cbn [decode_loop_length length].
    replace (length opre + 2 - length opre)%nat with 2%nat by lia. cbn [Nat.leb Nat.eqb].
    rewrite base64_text_two by assumption. change equals_sign with pad.
    pose proof (Decode3_two pre rest [] 0 0 0 [] a b Ha Hb) as D. cbn [app length] in D.
    cbn [app]. rewrite D. cbn [obind mread nth_error Nat.ltb Nat.leb].
    destruct out as [|o0 [|o1 orest]]; [cbn in Hout; lia..|].
    replace (length opre) with (length opre + 0)%nat at 1 by lia.
    rewrite mwrite_app2. unfold mwrite at 1. cbn [length Nat.ltb Nat.leb firstn skipn app obind].
    rewrite mwrite_app2. unfold mwrite at 1. cbn [length Nat.ltb Nat.leb firstn skipn app obind].
    reflexivity.
  - inversion Hd as [|? ? Ha Hd']; subst. inversion Hd' as [|? ? Hb Hd'']; subst.
    inversion Hd'' as [|? ? Hc Hr]; subst. unfold is_byte in *.
    destruct fuel as [|fuel]; [cbn in Hfuel; lia|]. cbn [decode_loop_length length].
    replace (length opre + S (S (S (length r))) - length opre)%nat with (S (S (S (length r)))) by lia.
    change (3 <=? S (S (S (length r))))%nat with true. cbn iota.
    cbn [length] in Hout, Hfuel.
    destruct (out_split (length r) out ltac:(lia)) as (o0 & o1 & o2 & orest & -> & Ho).
    rewrite base64_text_step by assumption.
    change (letter (sx0 a) :: letter (sx1 a b) :: letter (sx2 b c) :: letter (sx3 c) :: base64_text r)
      with ([letter (sx0 a); letter (sx1 a b); letter (sx2 b c); letter (sx3 c)] ++ base64_text r)%list.
    rewrite <- app_assoc.
    rewrite Decode3_full by assumption. cbn [obind Nat.ltb Nat.leb].
    rewrite app_assoc.
    replace (length pre + 4)%nat with
      (length (pre ++ [letter (sx0 a); letter (sx1 a b); letter (sx2 b c); letter (sx3 c)]))
      by (rewrite app_length; reflexivity).
    replace (opre ++ a :: b :: c :: orest)%list with ((opre ++ [a; b; c]) ++ orest)%list
      by (rewrite <- app_assoc; reflexivity).
    replace (length opre + 3)%nat with (length (opre ++ [a; b; c]))
      by (rewrite app_length; reflexivity).
    replace (length opre + S (S (S (length r))))%nat with (length (opre ++ [a; b; c]) + length r)%nat
      by (rewrite app_length; cbn; lia).
    rewrite IH by (auto; lia).
    cbn [skipn]. f_equal. f_equal. rewrite <- app_assoc. reflexivity.
Qed.

(** * Decoder, input-length mode *)

Definition groups_of (data : list N) : nat := (length data + 2) / 3.

(** What the decoder leaves behind the decoded bytes: the final short group
    is written as three bytes, the unused ones being zero. *)
Definition tail_zeros (data : list N) : list N := repeat 0 (3 * groups_of data - length data).

Lemma groups_step a b c (r : list N) : groups_of (a :: b :: c :: r) = S (groups_of r).
Proof.
  unfold groups_of. cbn [length].
  replace (S (S (S (length r))) + 2)%nat with (length r + 2 + 1 * 3)%nat by lia.
  rewrite Nat.div_add by lia. lia.
Qed.

Lemma decode_input_spec data : Forall is_byte data ->
  forall fuel pre rest opre out,
  (groups_of data < fuel)%nat -> (3 * groups_of data <= length out)%nat ->
  decode_loop_input fuel (pre ++ base64_text data ++ rest)%list (length pre)
     (length pre + length (base64_text data)) (opre ++ out)%list (length opre)
  = Done ((length opre + length data)%nat,
          (opre ++ data ++ tail_zeros data ++ skipn (3 * groups_of data) out)%list).
Proof.
  induction data as [|a|a b|a b c r IH] using list_ind3; intros Hd fuel pre rest opre out Hfuel Hout.
  - destruct fuel; [cbn in Hfuel; lia|]. cbn [decode_loop_input].
    change (length (base64_text [])) with 0%nat.
    replace (length pre + 0)%nat with (length pre) by lia. rewrite Nat.ltb_irrefl.
    cbn. f_equal. f_equal. lia.
  - inversion Hd as [|? ? Ha _]; subst. unfold is_byte in Ha.
    destruct fuel as [|fuel]; [cbn in Hfuel; lia|]. cbn [decode_loop_input].
    rewrite base64_text_one by assumption. change equals_sign with pad. cbn [length].
    replace (length pre <? length pre + 4)%nat with true by (symmetry; apply Nat.ltb_lt; lia).
    change (groups_of [a]) with 1%nat in *.
    destruct (out_split 0 out ltac:(lia)) as (o0 & o1 & o2 & orest & -> & Ho).
    rewrite Decode3_one by assumption. cbn. reflexivity.
  - inversion Hd as [|? ? Ha Hd']; subst. inversion Hd' as [|? ? Hb _]; subst. unfold is_byte in *.
    destruct fuel as [|fuel]; [cbn in Hfuel; lia|]. cbn [decode_loop_input].
    rewrite base64_text_two by assumption. change equals_sign with pad. cbn [length].
    replace (length pre <? length pre + 4)%nat with true by (symmetry; apply Nat.ltb_lt; lia).
    change (groups_of [a; b]) with 1%nat in *.
    destruct (out_split 0 out ltac:(lia)) as (o0 & o1 & o2 & orest & -> & Ho).
    rewrite Decode3_two by assumption. cbn. reflexivity.
  - inversion Hd as [|? ? Ha Hd']; subst. inversion Hd' as [|? ? Hb Hd'']; subst.
    inversion Hd'' as [|? ? Hc Hr]; subst. unfold is_byte in *.
    destruct fuel as [|fuel]; [cbn in Hfuel; lia|]. cbn [decode_loop_input].
    rewrite base64_text_step by assumption. cbn [length].
    replace (length pre <? length pre + S (S (S (S (length (base64_text r))))))%nat with true
      by (symmetry; apply Nat.ltb_lt; lia).
    unfold tail_zeros in *. rewrite groups_step in *.
    destruct (out_split (3 * groups_of r) out ltac:(lia)) as (o0 & o1 & o2 & orest & -> & Ho).
    change (letter (sx0 a) :: letter (sx1 a b) :: letter (sx2 b c) :: letter (sx3 c) :: base64_text r)
      with ([letter (sx0 a); letter (sx1 a b); letter (sx2 b c); letter (sx3 c)] ++ base64_text r)%list.
    rewrite <- app_assoc.
    rewrite Decode3_full by assumption. cbn [obind Nat.ltb Nat.leb].
    rewrite app_assoc.
    replace (length pre + 4)%nat with
      (length (pre ++ [letter (sx0 a); letter (sx1 a b); letter (sx2 b c); letter (sx3 c)]))
      by (rewrite app_length; reflexivity).
    replace (length pre + S (S (S (S (length (base64_text r))))))%nat with
      (length (pre ++ [letter (sx0 a); letter (sx1 a b); letter (sx2 b c); letter (sx3 c)])
       + length (base64_text r))%nat by (rewrite app_length; cbn; lia).
    replace (opre ++ a :: b :: c :: orest)%list with ((opre ++ [a; b; c]) ++ orest)%list
      by (rewrite <- app_assoc; reflexivity).
    replace (length opre + 3)%nat with (length (opre ++ [a; b; c]))
      by (rewrite app_length; reflexivity).
    rewrite IH by (auto; lia).
    replace (3 * S (groups_of r))%nat with (S (S (S (3 * groups_of r)))) by lia.
    cbn [skipn length]. f_equal. f_equal.
    + rewrite app_length. cbn. lia.
    + rewrite <- app_assoc. cbn [app]. do 3 f_equal.
Qed.

(** Full groups followed by a group holding a character outside the alphabet. *)
Definition bad_group (g : list N) : Prop :=
  length g = 4%nat /\ Forall is_byte g /\
  Exists (fun c => ~ is_letter c /\ c <> equals_sign) g.

Lemma DecodeChar_total c : c < 256 -> exists d, DecodeChar c = Done d.
Proof.
  intros H. unfold DecodeChar, mread.
  destruct (nth_error DecodeTable (N.to_nat c)) eqn:E; [eauto|].
  apply nth_error_None in E. cbn [length DecodeTable] in E.
  change (length DecodeTable) with 256%nat in E. lia.
Qed.

Lemma DecodeChar_bad c : c < 256 -> ~ is_letter c -> c <> equals_sign -> DecodeChar c = Done 0xFF.
Proof.
  intros Hc Hl Hp.
  assert (H : forallb (fun c => outN_eqb (DecodeChar c) (Done 0xFF) || (c =? equals_sign) ||
                existsb (fun v => c =? letter v) (map N.of_nat (seq 0 64))) bytes256 = true)
    by (vm_compute; reflexivity).
  pose proof (sweep1 _ H c Hc) as H'. cbn beta in H'.
  apply orb_prop in H'. destruct H' as [H'|H'].
  - apply orb_prop in H'. destruct H' as [H'|H'].
    + apply outN_eqb_eq, H'.
    + apply N.eqb_eq in H'. contradiction.
  - apply existsb_exists in H'. destruct H' as (v & Hin & Hv). apply N.eqb_eq in Hv.
    exfalso. apply Hl. exists v. split; [|exact Hv].
    apply in_map_iff in Hin. destruct Hin as (k & <- & Hk). apply in_seq in Hk. lia.
Qed.

Lemma Decode3_bad pre g post dest optr : bad_group g ->
  Decode3 (pre ++ g ++ post)%list (length pre) dest optr = Done (0%nat, dest).
Proof.
  intros (Hlen & Hby & Hex).
  destruct g as [|c0 [|c1 [|c2 [|c3 [|? ?]]]]]; cbn in Hlen; try lia.
  unfold Decode3.
  rewrite read0, read1, read2, read3. cbn [obind].
  inversion Hby as [|? ? H0 Hby1]; subst. inversion Hby1 as [|? ? H1 Hby2]; subst.
  inversion Hby2 as [|? ? H2 Hby3]; subst. inversion Hby3 as [|? ? H3 _]; subst.
  destruct (DecodeChar_total c0 H0) as [d0 E0]. destruct (DecodeChar_total c1 H1) as [d1 E1].
  destruct (DecodeChar_total c2 H2) as [d2 E2]. destruct (DecodeChar_total c3 H3) as [d3 E3].
  rewrite E0, E1, E2, E3. cbn [obind].
  assert (HB : ((d0 =? 0xFF) || (d1 =? 0xFF) || (d2 =? 0xFF) || (d3 =? 0xFF)) = true).
  { inversion Hex as [? ? [Hl Hp]|? ? Hex1]; subst.
    { rewrite (DecodeChar_bad _ H0 Hl Hp) in E0. injection E0 as <-. reflexivity. }
    inversion Hex1 as [? ? [Hl Hp]|? ? Hex2]; subst.
    { rewrite (DecodeChar_bad _ H1 Hl Hp) in E1. injection E1 as <-. cbn. rewrite orb_true_r. reflexivity. }
    inversion Hex2 as [? ? [Hl Hp]|? ? Hex3]; subst.
    { rewrite (DecodeChar_bad _ H2 Hl Hp) in E2. injection E2 as <-. cbn. rewrite orb_true_r. reflexivity. }
    inversion Hex3 as [? ? [Hl Hp]|? ? Hex4]; subst.
    { rewrite (DecodeChar_bad _ H3 Hl Hp) in E3. injection E3 as <-. cbn. rewrite orb_true_r. reflexivity. }
    inversion Hex4. }
  rewrite HB. reflexivity.
Qed.

Lemma decode_input_bad data g : Forall is_byte data -> (length data mod 3 = 0)%nat -> bad_group g ->
  forall fuel pre rest opre out end_,
  (groups_of data < fuel)%nat -> (length data <= length out)%nat ->
  (length pre + length (base64_text data) < end_)%nat ->
  decode_loop_input fuel (pre ++ base64_text data ++ g ++ rest)%list (length pre)
     end_ (opre ++ out)%list (length opre)
  = Done ((length opre + length data)%nat, (opre ++ data ++ skipn (length data) out)%list).
Proof.
  intros Hd Hmod Hg. revert Hd Hmod.
  induction data as [|a|a b|a b c r IH] using list_ind3;
    intros Hd Hmod fuel pre rest opre out end_ Hfuel Hout Hend.
  - destruct fuel; [cbn in Hfuel; lia|]. cbn [decode_loop_input].
    change (base64_text []) with (@nil N) in *. cbn [length app] in *.
    replace (length pre <? end_)%nat with true by (symmetry; apply Nat.ltb_lt; lia).
    rewrite Decode3_bad by assumption. cbn. reflexivity.
  - cbn in Hmod. lia.
  - cbn in Hmod. lia.
  - inversion Hd as [|? ? Ha Hd']; subst. inversion Hd' as [|? ? Hb Hd'']; subst.
    inversion Hd'' as [|? ? Hc Hr]; subst. unfold is_byte in *.
    destruct fuel as [|fuel]; [cbn in Hfuel; lia|]. cbn [decode_loop_input].
    rewrite base64_text_step in * by assumption. cbn [length] in *.
    replace (length pre <? end_)%nat with true by (symmetry; apply Nat.ltb_lt; lia).
    rewrite groups_step in *.
    destruct (out_split (length r) out ltac:(lia)) as (o0 & o1 & o2 & orest & -> & Ho).
    change (letter (sx0 a) :: letter (sx1 a b) :: letter (sx2 b c) :: letter (sx3 c) :: base64_text r)
      with ([letter (sx0 a); letter (sx1 a b); letter (sx2 b c); letter (sx3 c)] ++ base64_text r)%list.
    rewrite <- app_assoc.
    rewrite Decode3_full by assumption. cbn [obind Nat.ltb Nat.leb].
    rewrite app_assoc.
    replace (length pre + 4)%nat with
      (length (pre ++ [letter (sx0 a); letter (sx1 a b); letter (sx2 b c); letter (sx3 c)]))
      by (rewrite app_length; reflexivity).
    replace (opre ++ a :: b :: c :: orest)%list with ((opre ++ [a; b; c]) ++ orest)%list
      by (rewrite <- app_assoc; reflexivity).
    replace (length opre + 3)%nat with (length (opre ++ [a; b; c]))
      by (rewrite app_length; reflexivity).
    rewrite IH; auto; try lia.
    + cbn [skipn]. f_equal. f_equal.
      * rewrite app_length. cbn. lia.
      * rewrite <- app_assoc. reflexivity.
    + replace (S (S (S (length r)))) with (length r + 1 * 3)%nat in Hmod by lia.
      rewrite Nat.mod_add in Hmod by lia. exact Hmod.
    + rewrite app_length. cbn. lia.
Qed.

(** * VTK block *)

Lemma uint32_bytes_ok v : Forall is_byte (uint32_bytes v).
Proof. unfold uint32_bytes, is_byte. repeat constructor; apply N.mod_lt; lia. Qed.

Lemma uint32_bytes_value v : v < 4294967296 ->
  v mod 256 + 256 * ((v / 256) mod 256) + 65536 * ((v / 65536) mod 256)
  + 16777216 * ((v / 16777216) mod 256) = v.
Proof.
  intros H.
  assert (A : v / 65536 = (v / 256) / 256) by (rewrite N.div_div by lia; reflexivity).
  assert (B : v / 16777216 = (v / 65536) / 256) by (rewrite N.div_div by lia; reflexivity).
  pose proof (N.div_mod v 256 ltac:(lia)) as D0.
  pose proof (N.div_mod (v / 256) 256 ltac:(lia)) as D1. rewrite <- A in D1.
  pose proof (N.div_mod (v / 65536) 256 ltac:(lia)) as D2. rewrite <- B in D2.
  assert (v / 16777216 < 256) by (apply N.div_lt_upper_bound; lia).
  rewrite (N.mod_small (v / 16777216)) by assumption. lia.
Qed.

(** Complete groups: the loop advances to the text behind them. *)
Lemma decode_input_full data : Forall is_byte data -> (length data mod 3 = 0)%nat ->
  forall fuel pre rest opre out end_,
  (length data <= length out)%nat ->
  (length pre + length (base64_text data) <= end_)%nat ->
  decode_loop_input (groups_of data + fuel) (pre ++ base64_text data ++ rest)%list (length pre)
     end_ (opre ++ out)%list (length opre)
  = decode_loop_input fuel ((pre ++ base64_text data) ++ rest)%list (length (pre ++ base64_text data))
     end_ ((opre ++ data) ++ skipn (length data) out)%list (length (opre ++ data)).
Proof.
  induction data as [|a|a b|a b c r IH] using list_ind3;
    intros Hd Hmod fuel pre rest opre out end_ Hout Hend.
  - change (base64_text []) with (@nil N). change (groups_of []) with 0%nat.
    cbn [app length skipn Nat.add]. rewrite !app_nil_r. reflexivity.
  - cbn in Hmod. lia.
  - cbn in Hmod. lia.
  - inversion Hd as [|? ? Ha Hd']; subst. inversion Hd' as [|? ? Hb Hd'']; subst.
    inversion Hd'' as [|? ? Hc Hr]; subst. unfold is_byte in *.
    rewrite groups_step. cbn [Nat.add]. cbn [decode_loop_input].
    rewrite base64_text_step in * by assumption. cbn [length] in *.
    replace (length pre <? end_)%nat with true by (symmetry; apply Nat.ltb_lt; lia).
    destruct (out_split (length r) out ltac:(lia)) as (o0 & o1 & o2 & orest & -> & Ho).
    change (letter (sx0 a) :: letter (sx1 a b) :: letter (sx2 b c) :: letter (sx3 c) :: base64_text r)
      with ([letter (sx0 a); letter (sx1 a b); letter (sx2 b c); letter (sx3 c)] ++ base64_text r)%list.
    rewrite <- (app_assoc _ (base64_text r) rest).
    rewrite Decode3_full by assumption. cbn [obind Nat.ltb Nat.leb].
    rewrite app_assoc.
    replace (length pre + 4)%nat with
      (length (pre ++ [letter (sx0 a); letter (sx1 a b); letter (sx2 b c); letter (sx3 c)]))
      by (rewrite app_length; reflexivity).
    replace (opre ++ a :: b :: c :: orest)%list with ((opre ++ [a; b; c]) ++ orest)%list
      by (rewrite <- app_assoc; reflexivity).
    replace (length opre + 3)%nat with (length (opre ++ [a; b; c]))
      by (rewrite app_length; reflexivity).
    rewrite IH; auto; try lia.
    + cbn [skipn]. rewrite <- !app_assoc. cbn [app]. reflexivity.
    + replace (S (S (S (length r)))) with (length r + 1 * 3)%nat in Hmod by lia.
      rewrite Nat.mod_add in Hmod by lia. exact Hmod.
    + rewrite app_length. cbn. lia.
Qed.

Lemma decode_endmark_gen data rest out n : Forall is_byte data -> (length data mod 3 = 0)%nat ->
  (length data + 3 <= length out)%nat ->
  kwsysBase64_Decode (base64_text_marked true data ++ rest)%list n out
    (length (base64_text_marked true data))
  = Done ((length data + 1)%nat, (data ++ [0; 0; 0] ++ skipn (length data + 3) out)%list).
Proof.
  intros Hd Hmod Hout. unfold base64_text_marked. rewrite Hmod. cbn [andb Nat.eqb].
  rewrite app_length. change (length (repeat equals_sign 4)) with 4%nat.
  unfold kwsysBase64_Decode.
  replace (length (base64_text data) + 4 =? 0)%nat with false by (symmetry; apply Nat.eqb_neq; lia).
  pose proof (base64_text_length data Hd) as HL. fold (groups_of data) in HL.
  replace (S (length (base64_text data) + 4)) with
    (groups_of data + S (S (length (base64_text data) + 3 - groups_of data)))%nat by lia.
  rewrite <- app_assoc.
  pose proof (decode_input_full data Hd Hmod (S (S (length (base64_text data) + 3 - groups_of data))) []
      (repeat equals_sign 4 ++ rest)%list [] out (length (base64_text data) + 4) ltac:(lia) ltac:(cbn; lia)) as R.
  cbn [app length] in R. rewrite R. clear R.
  set (fu := S (length (base64_text data) + 3 - groups_of data)).
  cbn [decode_loop_input].
  replace (length (base64_text data) <? length (base64_text data) + 4)%nat with true
    by (symmetry; apply Nat.ltb_lt; lia).
  remember (skipn (length data) out) as o eqn:Eo.
  assert (Ho : (3 <= length o)%nat) by (subst o; rewrite skipn_length; lia).
  destruct (out_split 0 o ltac:(lia)) as (o0 & o1 & o2 & orest & Eo' & _).
  rewrite Eo'.
  change (repeat equals_sign 4) with [pad; pad; pad; pad].
  assert (D : Decode3 (base64_text data ++ [pad; pad; pad; pad] ++ rest)%list (length (base64_text data))
                (data ++ o0 :: o1 :: o2 :: orest)%list (length data)
              = Done (1%nat, (data ++ 0 :: 0 :: 0 :: orest)%list)).
  { unfold Decode3. rewrite read0, read1, read2, read3. cbn [obind]. rewrite dec_pad. cbn [obind].
    change (0 =? 255) with false. cbn [orb]. rewrite N.eqb_refl.
    pose proof (write3 data 0 0 0 o0 o1 o2 orest) as W.
    change (N.lor (N.land (N.shiftl 0 2) 252) (N.land (N.shiftr 0 4) 3) mod 256) with 0.
    change (N.lor (N.land (N.shiftl 0 4) 240) (N.land (N.shiftr 0 2) 15) mod 256) with 0.
    change (N.lor (N.land (N.shiftl 0 6) 192) (N.land (N.shiftr 0 0) 63) mod 256) with 0.
    destruct (mwrite _ _ _) as [m1| |]; cbn [obind] in *; try discriminate.
    destruct (mwrite m1 _ _) as [m2| |]; cbn [obind] in *; try discriminate.
    destruct (mwrite m2 _ _) as [m3| |]; cbn [obind] in *; try discriminate.
    congruence. }
  rewrite D. cbn [obind Nat.ltb Nat.leb]. f_equal. f_equal. cbn [app].
  do 4 f_equal.
  replace (length data + 3)%nat with (3 + length data)%nat by lia.
  rewrite <- skipn_skipn, <- Eo, Eo'. reflexivity.
Qed.

(** * Top-level statements used by Base64Props *)

Lemma roundtrip_length data mark_end rest out : Forall is_byte data ->
  (length data <= length out)%nat ->
  kwsysBase64_Decode (base64_text_marked mark_end data ++ rest)%list (length data) out 0
  = Done (length data, (data ++ skipn (length data) out)%list).
Proof.
  intros Hd Ho. unfold kwsysBase64_Decode, base64_text_marked. cbn [Nat.eqb].
  rewrite <- app_assoc.
  pose proof (decode_length_spec data Hd (S (length data)) []
    ((if mark_end && (length data mod 3 =? 0)%nat then repeat equals_sign 4 else []) ++ rest)%list [] out
    ltac:(lia) Ho) as R.
  cbn [app length] in R. exact R.
Qed.

Lemma roundtrip_input data mark_end rest out n : Forall is_byte data -> data <> [] ->
  (mark_end = false \/ length data mod 3 <> 0)%nat ->
  (3 * ((length data + 2) / 3) <= length out)%nat ->
  kwsysBase64_Decode (base64_text_marked mark_end data ++ rest)%list n out
    (length (base64_text_marked mark_end data))
  = Done (length data,
          (data ++ repeat 0 (3 * ((length data + 2) / 3) - length data)
           ++ skipn (3 * ((length data + 2) / 3)) out)%list).
Proof.
  intros Hd Hne Hm Ho.
  assert (E : base64_text_marked mark_end data = base64_text data).
  { unfold base64_text_marked. destruct Hm as [->|Hm]; [cbn; apply app_nil_r|].
    apply Nat.eqb_neq in Hm. rewrite Hm, andb_false_r. apply app_nil_r. }
  rewrite E. unfold kwsysBase64_Decode.
  pose proof (base64_text_length data Hd) as HL.
  assert (HP : (1 <= (length data + 2) / 3)%nat).
  { apply Nat.div_le_lower_bound; [lia|]. destruct data; [congruence | cbn; lia]. }
  replace (length (base64_text data) =? 0)%nat with false by (symmetry; apply Nat.eqb_neq; lia).
  pose proof (decode_input_spec data Hd (S (length (base64_text data))) [] rest [] out) as R.
  cbn [app length] in R. apply R.
  - unfold groups_of. lia.
  - exact Ho.
Qed.

Lemma malformed_input data g rest out n end_ : Forall is_byte data -> (length data mod 3 = 0)%nat ->
  bad_group g -> (length data <= length out)%nat ->
  (length (base64_text data) < end_)%nat ->
  kwsysBase64_Decode (base64_text data ++ g ++ rest)%list n out end_
  = Done (length data, (data ++ skipn (length data) out)%list).
Proof.
  intros Hd Hmod Hg Ho Hend. unfold kwsysBase64_Decode.
  replace (end_ =? 0)%nat with false by (symmetry; apply Nat.eqb_neq; lia).
  pose proof (decode_input_bad data g Hd Hmod Hg (S end_) [] rest [] out end_) as R.
  cbn [app length] in R. apply R; auto.
  rewrite base64_text_length in Hend by assumption. unfold groups_of. lia.
Qed.

Lemma block_spec elts szT mem prior : Forall is_byte mem ->
  getBase64FromVector elts szT mem prior
  = Done (prior ++ base64_text (uint32_bytes ((elts * szT) mod 4294967296)) ++ base64_text mem)%list.
Proof.
  intros Hm. unfold getBase64FromVector.
  rewrite encode_spec by apply uint32_bytes_ok. cbn [obind snd].
  rewrite encode_spec by assumption. cbn [obind snd].
  unfold base64_text_marked. cbn [andb]. rewrite !app_nil_r, app_assoc. reflexivity.
Qed.

Lemma block_self_describing : forall elts szT mem prior,
  Forall is_byte mem -> N.of_nat (length mem) = elts * szT -> elts * szT < 2 ^ 32 ->
  exists h0 h1 h2 h3 htext ptext,
    getBase64FromVector elts szT mem prior = Done (prior ++ htext ++ ptext)%list /\
    length htext = 8%nat /\
    h0 + 2 ^ 8 * h1 + 2 ^ 16 * h2 + 2 ^ 24 * h3 = N.of_nat (length mem) /\
    Forall is_byte [h0; h1; h2; h3] /\
    (forall out, (4 <= length out)%nat ->
       kwsysBase64_Decode (htext ++ ptext)%list 4 out 0 = Done (4%nat, [h0; h1; h2; h3] ++ skipn 4 out)%list) /\
    (forall out, (length mem <= length out)%nat ->
       kwsysBase64_Decode ptext (length mem) out 0 = Done (length mem, mem ++ skipn (length mem) out)%list).
Proof.
  intros elts szT mem prior Hm Hlen Hfit.
  assert (Hb : elts * szT mod 4294967296 = elts * szT) by (apply N.mod_small; exact Hfit).
  exists (elts * szT mod 256), (elts * szT / 256 mod 256), (elts * szT / 65536 mod 256),
    (elts * szT / 16777216 mod 256), (base64_text (uint32_bytes (elts * szT))), (base64_text mem).
  split; [|split; [|split; [|split; [|split]]]].
  - rewrite block_spec by assumption. rewrite Hb. reflexivity.
  - rewrite base64_text_length by apply uint32_bytes_ok. reflexivity.
  - rewrite Hlen. apply uint32_bytes_value. exact Hfit.
  - exact (uint32_bytes_ok (elts * szT)).
  - intros out Ho.
    pose proof (roundtrip_length (uint32_bytes (elts * szT)) false (base64_text mem) out
       (uint32_bytes_ok _) Ho) as R.
    unfold base64_text_marked in R. cbn [andb] in R. rewrite app_nil_r in R. exact R.
  - intros out Ho.
    pose proof (roundtrip_length mem false [] out Hm Ho) as R.
    unfold base64_text_marked in R. cbn [andb] in R. rewrite !app_nil_r in R. exact R.
Qed.

(** ** all texts, bounded by the number of characters *)
Lemma decode_by_input data mark_end rest out n :
  let marked := andb mark_end (List.length data mod 3 =? 0)%nat in
  let groups := ((List.length data + 2) / 3 + (if marked then 1 else 0))%nat in
  Forall is_byte data -> base64_text_marked mark_end data <> [] -> (3 * groups <= List.length out)%nat ->
  kwsysBase64_Decode (base64_text_marked mark_end data ++ rest)%list n out
    (List.length (base64_text_marked mark_end data))
  = Done ((List.length data + (if marked then 1 else 0))%nat,
          (data ++ repeat 0 (3 * groups - List.length data) ++ skipn (3 * groups) out)%list).
Proof.
  intros marked groups Hb Hne Hl. destruct marked eqn:E.
  - unfold marked in E. apply andb_prop in E as [-> E]. apply Nat.eqb_eq in E.
    assert (G : (3 * groups = List.length data + 3)%nat).
    { unfold groups. pose proof (Nat.div_mod (List.length data) 3 ltac:(lia)) as D. rewrite E in D.
      replace ((List.length data + 2) / 3)%nat with (List.length data / 3)%nat; [lia|].
      apply Nat.div_unique with (r := 2%nat); lia. }
    rewrite decode_endmark_gen by (assumption || lia). rewrite G.
    replace (List.length data + 3 - List.length data)%nat with 3%nat by lia. reflexivity.
  - assert (M : mark_end = false \/ (List.length data mod 3 <> 0)%nat).
    { unfold marked in E. destruct mark_end; [right|left; reflexivity]. apply Nat.eqb_neq. exact E. }
    assert (D : data <> []).
    { intros ->. destruct M as [->|M]; [|apply M; reflexivity]. apply Hne. reflexivity. }
    unfold groups in *. rewrite Nat.add_0_r in *. rewrite (roundtrip_input data mark_end rest out n Hb D M Hl). rewrite Nat.add_0_r. reflexivity.
Qed.
