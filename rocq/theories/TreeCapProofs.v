(** Proofs about the size of the neighbour search tree. *)
From Coq Require Import List ZArith Reals Bool Lia Lra SpecFloat.
From Flocq Require Import Core IEEE754.BinarySingleNaN.
From Verif Require Import Outcome F64 TreeCapModel TreeCapSpec.
Import ListNotations.
Local Open Scope Z_scope.

Lemma oneAndHalf_R : B2R oneAndHalf = (3 / 2)%R /\ is_finite oneAndHalf = true.
Proof.
  split; [|vm_compute; reflexivity].
  rewrite <- (SF2R_B2SF _ _ oneAndHalf).
  assert (E : B2SF oneAndHalf = S754_finite false 6755399441055744 (-52)) by (vm_compute; reflexivity).
  rewrite E. cbn. unfold F2R; cbn. lra.
Qed.

(** the test in double is exact for all int *)
Lemma test_exact t n : 0 <= t <= INT_MAX -> 0 <= n <= INT_MAX ->
  flt (fmul oneAndHalf (f_ofZ t)) (f_ofZ n) = (3 * t <? 2 * n).
Proof.
  intros Ht Hn. unfold INT_MAX in *.
  destruct (f_ofZ_exact t ltac:(lia)) as [T1 T2]. destruct (f_ofZ_exact n ltac:(lia)) as [N1 N2].
  destruct oneAndHalf_R as [O1 O2].
  assert (G : generic_format radix2 fexp64 (3 / 2 * IZR t)).
  { replace (3 / 2 * IZR t)%R with (F2R (Float radix2 (3 * t) (-1))).
    2:{ unfold F2R; cbn [Fnum Fexp]. rewrite mult_IZR. change (bpow radix2 (-1)) with (/ 2)%R. lra. }
    apply generic_format_F2R. intros NZ. unfold cexp. rewrite fexp64_FLT.
    rewrite mag_F2R by assumption. unfold FLT_exp, emax64, prec64.
    assert (M : mag radix2 (IZR (3 * t)) <= 53).
    { apply mag_le_bpow; [intro E; apply NZ; apply eq_IZR in E; exact E|].
      rewrite <- abs_IZR. change (bpow radix2 53) with (IZR (2 ^ 53)). apply IZR_lt. lia. }
    lia. }
  assert (B : (Rabs (rnd64 (B2R oneAndHalf * B2R (f_ofZ t))) < bpow radix2 emax64)%R).
  { rewrite O1, T1, rnd64_id by exact G. apply Rlt_trans with (bpow radix2 40).
    - change (bpow radix2 40) with (IZR (2 ^ 40)). rewrite Rabs_pos_eq.
      + assert (IZR t <= IZR 2147483647)%R by (apply IZR_le; lia). 
        change (2 ^ 40) with 1099511627776. lra.
      + assert (0 <= IZR t)%R by (apply IZR_le; lia). lra.
    - apply bpow_lt. unfold emax64; lia. }
  destruct (fmul_R oneAndHalf (f_ofZ t) O2 T2 B) as [M1 M2].
  rewrite O1, T1, rnd64_id in M1 by exact G.
  apply eq_true_iff_eq. rewrite (flt_R _ _ M2 N2), M1, N1, Z.ltb_lt. split; intros H.
  - apply lt_IZR. rewrite !mult_IZR. lra.
  - apply IZR_lt in H. rewrite !mult_IZR in H. lra.
Qed.

(** invariant: the tree was made for [treeSylinderNumber] objects, or for more after a reinitialisation with no objects *)
Definition inv (s : treeState) : Prop :=
  0 <= treeSylinderNumber s <= INT_MAX /\ exists c, capacity s = Some c /\ 2 * treeSylinderNumber s <= c.

Lemma set_ok n s : 0 <= n < 2 ^ 30 -> 0 <= treeSylinderNumber s <= INT_MAX ->
  (capacity s = None \/ inv s) ->
  exists s', setTreeSylinder n s = Done s' /\ inv s' /\ room (capacity s') n.
Proof.
  intros Hn Ht Hs. unfold setTreeSylinder. rewrite test_exact by (unfold INT_MAX in *; lia).
  assert (O : (INT_MAX <? 2 * n) = false) by (apply Z.ltb_ge; unfold INT_MAX; lia).
  rewrite O.
  assert (New : forall k, inv (TreeState (Some (2 * n)) n k) /\ room (Some (2 * n)) n).
  { intros k. split; [|exists (2 * n); split; [reflexivity | lia]].
    split; [cbn; unfold INT_MAX; lia|]. exists (2 * n). cbn. split; [reflexivity | lia]. }
  destruct (Z.ltb_spec (3 * treeSylinderNumber s) (2 * n)) as [L|L]; cbn [orb].
  - eexists. split; [reflexivity|]. apply New.
  - destruct (capacity s) as [c|] eqn:E.
    + exists s. split; [reflexivity|]. destruct Hs as [Hs|Hs]; [discriminate|].
      split; [exact Hs|]. destruct Hs as (_ & c' & E' & Hc). exists c'. split; [exact E' | lia].
    + eexists. split; [reflexivity|]. apply New.
Qed.

Lemma step_ok s e : 0 <= objects e < 2 ^ 30 -> (inv s \/ (capacity s = None /\ exists n, e = Initialize n)) ->
  exists s', step s e = Done s' /\ inv s' /\ room (capacity s') (objects e).
Proof.
  intros Hn Hs. destruct e as [n|n]; cbn [step objects] in *.
  - apply set_ok; [exact Hn | cbn; unfold INT_MAX; lia|]. cbn.
    destruct Hs as [(A & c & E & Hc)|(E & _)]; [right | left; exact E].
    split; [cbn; unfold INT_MAX; lia|]. exists c. cbn. split; [exact E | lia].
  - destruct Hs as [Hs|(E & m & ?)]; [|discriminate].
    destruct Hs as (A & c & E & Hc). rewrite E.
    apply set_ok; [exact Hn | exact A | right]. split; [exact A | exists c; auto].
Qed.

Lemma run_app es : forall s fs, run s (es ++ fs) = do s' <- run s es ; run s' fs.
Proof.
  induction es as [|e es IH]; intros s fs; [reflexivity|]. cbn [app run].
  destruct (step s e) as [s1| |]; cbn [obind]; [apply IH | reflexivity..].
Qed.

Lemma run_inv es : forall s, Forall (fun e => 0 <= objects e < 2 ^ 30) es -> inv s -> exists s', run s es = Done s' /\ inv s'.
Proof.
  induction es as [|e es IH]; intros s Hf Hs; [exists s; split; [reflexivity | exact Hs]|].
  inversion Hf as [|? ? He Hes]; subst.
  destruct (step_ok s e He (or_introl Hs)) as (s1 & E1 & I1 & _).
  destruct (IH s1 Hes I1) as (s2 & E2 & I2). exists s2. cbn [run]. rewrite E1. cbn [obind]. auto.
Qed.

Theorem run_room junk es e : startsWell (es ++ [e]) -> Forall (fun e => 0 <= objects e < 2 ^ 30) (es ++ [e]) ->
  exists s, run (fresh junk) (es ++ [e]) = Done s /\ room (capacity s) (objects e).
Proof.
  intros Hw Hf. destruct es as [|e0 es].
  - cbn [app] in *. destruct e as [n|n]; [|contradiction]. inversion Hf as [|? ? He _]; subst.
    destruct (step_ok (fresh junk) (Initialize n) He) as (s & E & _ & R).
    { right. split; [reflexivity | exists n; reflexivity]. }
    exists s. cbn [run]. rewrite E. split; [reflexivity | exact R].
  - cbn [app] in *. destruct e0 as [n|n]; [|contradiction]. inversion Hf as [|? ? He Hr]; subst.
    apply Forall_app in Hr. destruct Hr as [Hr Hl]. inversion Hl as [|? ? Hl' _]; subst.
    destruct (step_ok (fresh junk) (Initialize n) He) as (s1 & E1 & I1 & _).
    { right. split; [reflexivity | exists n; reflexivity]. }
    destruct (run_inv es s1 Hr I1) as (s2 & E2 & I2).
    destruct (step_ok s2 e Hl' (or_introl I2)) as (s3 & E3 & _ & R3).
    exists s3. cbn [run]. rewrite E1. cbn [obind]. rewrite run_app, E2. cbn [obind run]. rewrite E3. split; [reflexivity | exact R3].
Qed.

(** a tree is built again only after the number of objects grew by half *)
Lemma collect_grow s n s' : inv s -> 0 <= n < 2 ^ 30 -> step s (Collect n) = Done s' ->
  (s' = s /\ 2 * n <= 3 * treeSylinderNumber s) \/
  (builds s' = S (builds s) /\ treeSylinderNumber s' = n /\ 3 * treeSylinderNumber s < 2 * treeSylinderNumber s').
Proof.
  intros (A & c & E & Hc) Hn H. cbn [step] in H. rewrite E in H. unfold setTreeSylinder in H.
  rewrite test_exact in H by (unfold INT_MAX in *; lia). rewrite E in H. rewrite orb_false_r in H.
  destruct (Z.ltb_spec (3 * treeSylinderNumber s) (2 * n)) as [L|L].
  - assert (O : (INT_MAX <? 2 * n) = false) by (apply Z.ltb_ge; unfold INT_MAX; lia).
    rewrite O in H. injection H as <-. right. cbn. auto.
  - injection H as <-. left. auto.
Qed.

(** trees built while collecting: with [k] of them the number grew by (3/2)^k *)
Theorem builds_bound ns : forall s s', inv s -> Forall (fun n => 0 <= n < 2 ^ 30) ns -> run s (map Collect ns) = Done s' ->
  (builds s <= builds s')%nat /\
  3 ^ Z.of_nat (builds s' - builds s) * treeSylinderNumber s <= 2 ^ Z.of_nat (builds s' - builds s) * treeSylinderNumber s'.
Proof.
  induction ns as [|n ns IH]; intros s s' Hs Hf H.
  - cbn in H. injection H as <-. split; [lia|]. rewrite Nat.sub_diag. lia.
  - inversion Hf as [|? ? Hn Hr]; subst. cbn [map run] in H.
    destruct (step_ok s (Collect n) Hn (or_introl Hs)) as (s1 & E1 & I1 & _). rewrite E1 in H. cbn [obind] in H.
    destruct (IH s1 s' I1 Hr H) as [B1 B2].
    destruct (collect_grow s n s1 Hs Hn E1) as [(-> & _)|(K & _ & G)]; [split; assumption|].
    split; [lia|].
    replace (builds s' - builds s)%nat with (S (builds s' - builds s1))%nat by lia.
    remember (builds s' - builds s1)%nat as k.
    rewrite Nat2Z.inj_succ, !Z.pow_succ_r by lia.
    assert (P3 : 0 < 3 ^ Z.of_nat k) by (apply Z.pow_pos_nonneg; lia).
    assert (3 ^ Z.of_nat k * (3 * treeSylinderNumber s) <= 3 ^ Z.of_nat k * (2 * treeSylinderNumber s1)) by (apply Z.mul_le_mono_nonneg_l; lia).
    lia.
Qed.

Lemma number_in ns : forall s s', inv s -> Forall (fun n => 0 <= n < 2 ^ 30) ns -> run s (map Collect ns) = Done s' ->
  In (treeSylinderNumber s') (treeSylinderNumber s :: ns).
Proof.
  induction ns as [|n ns IH]; intros s s' Hs Hf H.
  - cbn in H. injection H as <-. left. reflexivity.
  - inversion Hf as [|? ? Hn Hr]; subst. cbn [map run] in H.
    destruct (step_ok s (Collect n) Hn (or_introl Hs)) as (s1 & E1 & I1 & _). rewrite E1 in H. cbn [obind] in H.
    specialize (IH s1 s' I1 Hr H).
    destruct (collect_grow s n s1 Hs Hn E1) as [(-> & _)|(_ & K & _)].
    + destruct IH as [E|I]; [left; exact E | right; right; exact I].
    + rewrite K in IH. destruct IH as [E|I]; [right; left; exact E | right; right; exact I].
Qed.

Theorem few_builds junk n0 ns s : Forall (fun n => 0 <= n < 2 ^ 30) (n0 :: ns) -> run (fresh junk) (Initialize n0 :: map Collect ns) = Done s ->
  exists m, In m (n0 :: ns) /\ 3 ^ (Z.of_nat (builds s) - 1) * n0 <= 2 ^ (Z.of_nat (builds s) - 1) * m.
Proof.
  intros Hf H. inversion Hf as [|? ? Hn Hr]; subst. cbn [run] in H.
  destruct (step_ok (fresh junk) (Initialize n0) Hn) as (s1 & E1 & I1 & _).
  { right. split; [reflexivity | exists n0; reflexivity]. }
  rewrite E1 in H. cbn [obind] in H.
  assert (K : treeSylinderNumber s1 = n0 /\ builds s1 = 1%nat).
  { cbn [step fresh capacity builds] in E1. unfold setTreeSylinder in E1. cbn [capacity builds] in E1. rewrite orb_true_r in E1.
    destruct (INT_MAX <? 2 * n0); [discriminate|]. injection E1 as <-. auto. }
  destruct K as [K1 K2]. pose proof (number_in ns s1 s I1 Hr H) as I. destruct (builds_bound ns s1 s I1 Hr H) as [B1 B2].
  rewrite K1 in I, B2. rewrite K2 in B1, B2.
  exists (treeSylinderNumber s). split; [exact I|].
  replace (Z.of_nat (builds s) - 1) with (Z.of_nat (builds s - 1)) by lia. exact B2.
Qed.

Theorem too_many junk n : 2 ^ 30 <= n <= INT_MAX -> run (fresh junk) [Initialize n] = UB.
Proof.
  intros H. cbn [run step fresh capacity builds]. unfold setTreeSylinder. cbn [capacity]. rewrite orb_true_r.
  assert (E : (INT_MAX <? 2 * n) = true) by (apply Z.ltb_lt; unfold INT_MAX in *; lia). rewrite E. reflexivity.
Qed.
Theorem limit : exists n, 0 <= n <= 2147483647 /\ forall junk, run (fresh junk) [Initialize n] = UB.
Proof. exists (2 ^ 30). split; [lia|]. intros junk. apply too_many. unfold INT_MAX. lia. Qed.
