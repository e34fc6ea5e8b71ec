(** Proofs about the text of a number in base two. *)
From Coq Require Import String Ascii List ZArith Lia Bool.
From Verif Require Import BinTextModel BinTextSpec.
Import ListNotations.
Local Notation length := List.length.
Local Open Scope Z_scope.

Definition isDigit (c : ascii) : Prop := c = "0"%char \/ c = "1"%char.
Definition dval (c : ascii) : Z := if Ascii.eqb c "1" then 1 else 0.
Fixpoint val (t : list ascii) : Z :=
  match t with [] => 0 | c :: t => dval c * 2 ^ Z.of_nat (length t) + val t end.

Lemma dval_range c : 0 <= dval c <= 1.
Proof. unfold dval. destruct (Ascii.eqb c "1"); lia. Qed.

Lemma val_range t : 0 <= val t < 2 ^ Z.of_nat (length t).
Proof.
  induction t as [|c t IH]; [cbn; lia|]. cbn [val length]. rewrite Nat2Z.inj_succ, Z.pow_succ_r by lia.
  pose proof (dval_range c). nia.
Qed.

Lemma read_val t : Forall isDigit t -> forall acc, readFrom acc t = Some (acc * 2 ^ Z.of_nat (length t) + val t).
Proof.
  induction 1 as [|c t Hc _ IH]; intros acc; cbn [readFrom length val]; [f_equal; cbn; lia|].
  rewrite Nat2Z.inj_succ, Z.pow_succ_r by lia.
  destruct Hc as [-> | ->]; cbn [digit]; unfold digit; cbn [Ascii.eqb Bool.eqb]; rewrite IH; f_equal; unfold dval; cbn [Ascii.eqb Bool.eqb]; ring.
Qed.

Lemma loop_ok n : forall v str, 0 <= v -> Forall isDigit str ->
  Forall isDigit (binLoop n v str) /\ length (binLoop n v str) = (n + length str)%nat /\
  val (binLoop n v str) = (v mod 2 ^ Z.of_nat n) * 2 ^ Z.of_nat (length str) + val str.
Proof.
  induction n as [|n IH]; intros v str Hv Hs; cbn [binLoop].
  - split; [exact Hs|]. split; [reflexivity|]. rewrite Z.mod_1_r. lia.
  - set (c := if Z.land v 1 =? 0 then "0"%char else "1"%char).
    assert (Hc : isDigit c) by (unfold c, isDigit; destruct (Z.land v 1 =? 0); auto).
    assert (Dc : dval c = v mod 2).
    { unfold c. change 1 with (Z.ones 1). rewrite Z.land_ones by lia. change (2 ^ 1) with 2.
      pose proof (Z.mod_pos_bound v 2 ltac:(lia)). destruct (Z.eqb_spec (v mod 2) 0) as [E|E]; cbn; lia. }
    assert (Hd : Z.shiftr v 1 = v / 2) by (rewrite Z.shiftr_div_pow2 by lia; reflexivity).
    assert (Hp : 0 <= v / 2) by (apply Z.div_pos; lia).
    rewrite Hd. destruct (IH (v / 2) (c :: str) Hp (Forall_cons _ Hc Hs)) as (A & B & C).
    split; [exact A|]. split; [rewrite B; cbn [length]; lia|]. rewrite C. cbn [val length].
    rewrite Dc, !Nat2Z.inj_succ, !Z.pow_succ_r by lia.
    rewrite (Z.rem_mul_r v 2 (2 ^ Z.of_nat n)) by (try lia; apply Z.pow_pos_nonneg; lia). ring.
Qed.

Definition good (w : nat) (v : Z) (t : list ascii) : Prop := Forall isDigit t /\ length t = w /\ val t = v.

Lemma zeros n : good n 0 (binLoop n 0 []).
Proof.
  destruct (loop_ok n 0 [] ltac:(lia) (Forall_nil _)) as (A & B & C). split; [exact A|]. split; [rewrite B; cbn; lia|].
  rewrite C. rewrite Z.mod_0_l by (apply Z.pow_nonzero; lia). reflexivity.
Qed.
Lemma loop_good n v : 0 <= v < 2 ^ Z.of_nat n -> good n v (binLoop n v []).
Proof.
  intros Hv. destruct (loop_ok n v [] ltac:(lia) (Forall_nil _)) as (A & B & C). split; [exact A|]. split; [rewrite B; cbn; lia|].
  rewrite C. rewrite Z.mod_small by exact Hv. cbn. lia.
Qed.
Lemma good32 v : 0 <= v < 2 ^ 32 -> good 32 v (getBin32 v).
Proof.
  intros Hv. unfold getBin32. destruct (Z.eqb_spec v 0) as [->|_]; [exact (zeros 32)|apply loop_good; exact Hv].
Qed.
Lemma good64 v : 0 <= v < 2 ^ 64 -> good 64 v (getBin64 v).
Proof.
  intros Hv. unfold getBin64. destruct (Z.eqb_spec v 0) as [->|_]; [exact (zeros 64)|apply loop_good; exact Hv].
Qed.

Lemma good_read w v t : good w v t -> length t = w /\ readBin t = Some v.
Proof. intros (A & B & C). split; [exact B|]. unfold readBin. rewrite (read_val t A 0), C. reflexivity. Qed.

Lemma before_val s : forall t, Forall isDigit s -> Forall isDigit t -> length s = length t -> (before s t <-> val s < val t).
Proof.
  induction s as [|c s IH]; intros [|d t] Hs Ht HL; cbn [length] in HL; try discriminate; [cbn; lia|].
  injection HL as HL. inversion_clear Hs as [|? ? Hc Hs']. inversion_clear Ht as [|? ? Hd Ht'].
  cbn [before val]. rewrite (IH t Hs' Ht' HL). pose proof (val_range s) as R1. pose proof (val_range t) as R2. rewrite HL in *.
  assert (N0 : N_of_ascii "0" = 48%N) by reflexivity. assert (N1 : N_of_ascii "1" = 49%N) by reflexivity.
  assert (D0 : dval "0" = 0) by reflexivity. assert (D1 : dval "1" = 1) by reflexivity.
  destruct Hc as [-> | ->], Hd as [-> | ->]; rewrite ?N0, ?N1, ?D0, ?D1; split.
  all: try (intros [H|[_ H]]; [lia|lia]).
  all: try (intros [H|[H _]]; [lia|discriminate]).
  all: intros H; try (right; split; [reflexivity|lia]); try (left; lia); lia.
Qed.

Lemma good_before w u v s t : good w u s -> good w v t -> (before s t <-> u < v).
Proof.
  intros (A & B & C) (A' & B' & C'). rewrite <- C, <- C'. apply before_val; [exact A|exact A'|congruence].
Qed.

Lemma text32 v : 0 <= v < 2 ^ 32 -> length (getBin32 v) = 32%nat /\ readBin (getBin32 v) = Some v.
Proof. intros H. apply good_read, good32, H. Qed.
Lemma text64 v : 0 <= v < 2 ^ 64 -> length (getBin64 v) = 64%nat /\ readBin (getBin64 v) = Some v.
Proof. intros H. apply good_read, good64, H. Qed.
Lemma order32 u v : 0 <= u < 2 ^ 32 -> 0 <= v < 2 ^ 32 -> (before (getBin32 u) (getBin32 v) <-> u < v).
Proof. intros H K. apply (good_before 32); apply good32; assumption. Qed.
Lemma order64 u v : 0 <= u < 2 ^ 64 -> 0 <= v < 2 ^ 64 -> (before (getBin64 u) (getBin64 v) <-> u < v).
Proof. intros H K. apply (good_before 64); apply good64; assumption. Qed.
