(** Proofs about the constraints of all ranks. *)
From Coq Require Import List Arith ZArith Bool Reals Lia Lra Permutation.
From Flocq Require Import Core.
From Verif Require Import Outcome ListUtil Arith ParticleModel VecModel VecSpec PointsModel IndexModel SylModel SylSpec ConModel ConSpec ConProofs StepModel StepSpec QPModel QPSpec LinProofs QPProofs QPSolver QPReal PipeModel PipeSpec PipeProofs WholeModel WholeSpec.
Import ListNotations.
Local Open Scope R_scope.

(** ** Distributed vectors *)

Lemma parts_length {A} : forall sizes (x : list A), length (parts sizes x) = length sizes.
Proof. induction sizes as [|n ns IH]; intro x; [reflexivity|]. cbn. rewrite IH. reflexivity. Qed.
Lemma parts_ok {A} : forall sizes (x : list A), length x = sum_list sizes -> concat (parts sizes x) = x /\ map (@length A) (parts sizes x) = sizes.
Proof.
  induction sizes as [|n ns IH]; intros x H; [destruct x; [split; reflexivity|discriminate]|]. change (sum_list (n :: ns)) with (n + sum_list ns)%nat in H. cbn [parts concat map].
  assert (L : length (firstn n x) = n) by (rewrite firstn_length; lia). destruct (IH (skipn n x)) as (E1 & E2); [rewrite skipn_length; lia|].
  rewrite E1, E2, L, firstn_skipn. split; reflexivity.
Qed.
Lemma parts_concat {A} : forall (ls : list (list A)), parts (map (@length A) ls) (concat ls) = ls.
Proof.
  induction ls as [|l ls IH]; [reflexivity|]. cbn [map parts concat]. rewrite firstn_app, Nat.sub_diag, firstn_all, firstn_O, app_nil_r. f_equal.
  rewrite skipn_app, Nat.sub_diag, skipn_all. exact IH.
Qed.
Lemma parts_nth {A} : forall sizes (x : list A) r n, length x = sum_list sizes -> nth_error sizes r = Some n -> exists l, nth_error (parts sizes x) r = Some l /\ length l = n.
Proof.
  intros sizes x r n H Hr. destruct (parts_ok sizes x H) as (_ & E). rewrite <- E in Hr. rewrite nth_error_map in Hr.
  destruct (nth_error (parts sizes x) r) as [l|]; [|discriminate]. injection Hr as <-. eauto.
Qed.

(** element g of a list cut in pieces *)
Lemma find_piece {A} : forall (ss : list (list A)) g a, nth_error (concat ss) g = Some a -> exists r l i, nth_error ss r = Some l /\ nth_error l i = Some a /\
  (forall B (ts : list (list B)), map (@length B) ts = map (@length A) ss -> exists t, nth_error ts r = Some t /\ length t = length l /\ forall j, (j < length l)%nat -> (j = i -> nth_error (concat ts) g = nth_error t j)) /\
  (forall (xs : list (list R)) (d : nat), map (@length R) xs = map (fun l => (6 * length l)%nat) ss -> (d < 6)%nat -> exists x, nth_error xs r = Some x /\ length x = (6 * length l)%nat /\ nth (6 * g + d) (concat xs) 0 = nth (6 * i + d) x 0).
Proof.
  induction ss as [|s ss IH]; intros g a H; [destruct g; discriminate|]. cbn [concat] in H. destruct (Nat.lt_ge_cases g (length s)) as [C|C].
  - rewrite nth_error_app1 in H by exact C. exists 0%nat, s, g. split; [reflexivity|]. split; [exact H|]. split.
    + intros B [|t ts] E; [discriminate|]. cbn in E. injection E as E1 E2. exists t. split; [reflexivity|]. split; [exact E1|]. intros j Hj ->. cbn [concat]. apply nth_error_app1. lia.
    + intros [|x xs] d E Hd; [discriminate|]. cbn in E. injection E as E1 E2. exists x. split; [reflexivity|]. split; [cbn; lia|]. cbn [concat]. apply app_nth1. lia.
  - rewrite nth_error_app2 in H by exact C. destruct (IH _ _ H) as (r & l & i & E1 & E2 & E3 & E4). exists (S r), l, i. split; [exact E1|]. split; [exact E2|]. split.
    + intros B [|t ts] E; [discriminate|]. cbn in E. injection E as F1 F2. destruct (E3 B ts F2) as (t' & T1 & T2 & T3). exists t'. split; [exact T1|]. split; [exact T2|]. intros j Hj Hji. cbn [concat].
      rewrite nth_error_app2 by lia. rewrite F1. apply T3; assumption.
    + intros [|x xs] d E Hd; [discriminate|]. cbn in E. injection E as F1 F2. destruct (E4 xs d F2 Hd) as (x' & T1 & T2 & T3). exists x'. split; [exact T1|]. split; [exact T2|]. rewrite <- T3. cbn [concat].
      rewrite app_nth2 by lia. f_equal. lia.
Qed.

(** ** The matrix of all ranks *)

Definition rowNat (b : block R_arith) : list (nat * R) := map (fun e => (Z.to_nat (fst e), snd e)) (bent b).

Lemma maps_ok sizes : (Z.of_nat (sum_list sizes) <= INT_MAX)%Z -> exists m, getTMAPFromLocalSize sizes = Done m /\ length m = length sizes /\
  forall r l, nth_error m r = Some l -> exists a n, nth_error sizes r = Some n /\ l = map Z.of_nat (seq a n).
Proof.
  intros H. unfold getTMAPFromLocalSize. destruct (Z.ltb_spec INT_MAX (Z.of_nat (sum_list sizes))); [lia|]. eexists. split; [reflexivity|].
  split; [rewrite map_length, seq_length; reflexivity|]. intros r l Hr.
  assert (r < length sizes)%nat. { assert (X : nth_error (map (fun r => map Z.of_nat (seq (sum_list (firstn r sizes)) (nth r sizes 0%nat))) (seq 0 (length sizes))) r <> None) by congruence. apply nth_error_Some in X. rewrite map_length, seq_length in X. exact X. }
  rewrite nth_error_map, nth_error_seq in Hr by assumption. cbn in Hr. injection Hr as <-. destruct (nth_error sizes r) as [n|] eqn:E; [|apply nth_error_None in E; lia].
  eexists _, n. split; [reflexivity|]. rewrite (nth_error_nth _ _ _ E). reflexivity.
Qed.

Lemma index_ok none a n lo hi : indexRange none (map Z.of_nat (seq a n)) = (lo, hi) -> (lo <= hi + 1)%Z /\ (hi - lo + 1 = Z.of_nat n)%Z.
Proof.
  destruct n as [|n]; cbn [seq map indexRange]; intros E; injection E as <- <-; [lia|].
  assert (L : last (Z.of_nat a :: map Z.of_nat (seq (S a) n)) 0%Z = Z.of_nat (a + n)).
  { change (Z.of_nat a :: map Z.of_nat (seq (S a) n)) with (map Z.of_nat (seq a (S n))). rewrite seq_S, map_app. cbn [map]. apply last_last. }
  change (match map Z.of_nat (seq (S a) n) with [] => Z.of_nat a | _ :: _ => last (map Z.of_nat (seq (S a) n)) 0%Z end) with (last (Z.of_nat a :: map Z.of_nat (seq (S a) n)) 0%Z). rewrite L. lia.
Qed.

Lemma num_ok (p : pool R_arith) : getLocalNumberOfConstraints p = length (concat p).
Proof.
  unfold getLocalNumberOfConstraints. rewrite concat_length.
  assert (G : forall (p : pool R_arith) a, fold_left (fun sum q => (sum + length q)%nat) p a = (a + sum_list (map (@length _) p))%nat).
  { induction p0 as [|q r IH]; intro a; [unfold sum_list; cbn; lia|]. cbn [fold_left map]. rewrite IH, sum_list_cons. lia. }
  rewrite G. reflexivity.
Qed.

Lemma sum_ge sizes : forall r n, nth_error sizes r = Some n -> (n <= sum_list sizes)%nat.
Proof. induction sizes as [|a s IH]; intros [|r] n H; try discriminate; change (sum_list (a :: s)) with (a + sum_list s)%nat; cbn in H; [injection H as ->; lia|]. apply IH in H. lia. Qed.
Lemma sum6 : forall sizes, sum_list (map (Nat.mul 6) sizes) = (6 * sum_list sizes)%nat.
Proof. induction sizes as [|a s IH]; [reflexivity|]. change (6 * a + sum_list (map (Nat.mul 6) s) = 6 * (a + sum_list s))%nat. rewrite IH. lia. Qed.

Lemma nth_error_ext_len {A} : forall (l m : list A), length l = length m -> (forall i a, nth_error l i = Some a -> nth_error m i = Some a) -> l = m.
Proof.
  intros l m L H. apply nth_error_ext. intro i. destruct (nth_error l i) as [a|] eqn:E; [symmetry; apply H; exact E|]. symmetry. apply nth_error_None. apply nth_error_None in E. lia.
Qed.

Lemma build_all y sizes (pools : list (pool R_arith)) : length pools = length sizes -> (6 * Z.of_nat (sum_list sizes) <= INT_MAX)%Z -> (Z.of_nat (length (concat (concat pools))) <= INT_MAX)%Z ->
  (forall r p, nth_error pools r = Some p -> Permutation (y_fill1 (y r)) (seq 0 (length p)) /\ Permutation (y_fill2 (y r)) (seq 0 (length p))) ->
  Forall (Forall (Forall block_fits)) pools ->
  buildAll y sizes pools = Done (map rowNat (concat (concat pools)), map rowOf (concat (concat pools))).
Proof.
  intros L H6 HN HO HF. unfold buildAll.
  destruct (maps_ok (map (Nat.mul 6) sizes)) as (mm & Em & Lm & Pm); [rewrite sum6; lia|]. rewrite Em. cbn [obind]. rewrite map_length in Lm.
  destruct (maps_ok (map (@getLocalNumberOfConstraints R_arith) pools)) as (gm & Eg & _).
  { replace (sum_list (map (@getLocalNumberOfConstraints R_arith) pools)) with (length (concat (concat pools))); [exact HN|]. rewrite (map_ext _ _ num_ok pools).
    clear. induction pools as [|p ps IH]; [reflexivity|]. cbn [concat map]. rewrite concat_app, app_length, IH. reflexivity. }
  rewrite Eg. cbn [obind].
  destruct (PipeProofs.omap_seq (fun r p => do m <- mread mm r; let '(lo, hi) := indexRange (y_min (y r)) m in buildConstraintMatrixVector (y_fill1 (y r)) (y_fill2 (y r)) (y_junk (y r)) lo hi p)
    (fun r p o => map (crsRow (fst o)) (seq 0 (length (snd o))) = map bent (concat p) /\ snd o = map rowOf (concat p)) pools) as (out & Eo & Lo & Po).
  { intros r p Hp. assert (R1 : (r < length mm)%nat) by (rewrite Lm, <- L; apply nth_error_Some; congruence).
    destruct (nth_error mm r) as [l|] eqn:El; [|apply nth_error_None in El; lia]. unfold mread. rewrite El. cbn [obind].
    destruct (Pm r l El) as (a & n & En & ->). destruct (indexRange (y_min (y r)) (map Z.of_nat (seq a n))) as (lo, hi) eqn:Ei. apply index_ok in Ei. destruct Ei as (I1 & I2).
    apply sum_ge in En. rewrite sum6 in En. destruct (HO r p Hp) as (O1 & O2).
    destruct (build_ok (y_fill1 (y r)) (y_fill2 (y r)) (y_junk (y r)) lo hi p O1 O2) as (m & E & _ & _ & _ & _ & _ & Hrow); [rewrite Forall_forall in HF; apply HF; eapply nth_error_In; exact Hp|lia|lia|].
    exists (m, map rowOf (concat p)). split; [exact E|]. cbn [fst snd]. split; [|reflexivity]. rewrite map_length.
    apply nth_error_ext_len; [rewrite !map_length, seq_length; reflexivity|]. intros i e He. rewrite nth_error_map in He. destruct (nth_error (seq 0 (length (concat p))) i) as [j|] eqn:Ej; [|discriminate]. cbn in He. injection He as <-.
    assert (Hi : (i < length (concat p))%nat) by (rewrite <- (seq_length (length (concat p)) 0); apply nth_error_Some; congruence).
    rewrite nth_error_seq in Ej by exact Hi. injection Ej as <-. rewrite nth_error_map. destruct (nth_error (concat p) i) as [b|] eqn:Eb; [|apply nth_error_None in Eb; lia]. cbn. rewrite (Hrow _ _ Eb). reflexivity. }
  rewrite Eo. cbn [obind]. f_equal. clear Eo HO HF Eg Em HN H6 L Lm Pm.
  assert (K : forall (ps : list (pool R_arith)) (os : list (crs R_arith * list (conRow R_arith))), length os = length ps -> (forall r p o, nth_error ps r = Some p -> nth_error os r = Some o -> map (crsRow (fst o)) (seq 0 (length (snd o))) = map bent (concat p) /\ snd o = map rowOf (concat p)) ->
    (concat (map (fun o => map (fun i => map (fun e : Z * R => (Z.to_nat (fst e), snd e)) (crsRow (fst o) i)) (seq 0 (length (snd o)))) os), concat (map snd os)) = (map rowNat (concat (concat ps)), map rowOf (concat (concat ps)))).
  { induction ps as [|p ps IH]; intros [|o os] L H; try discriminate; [reflexivity|]. cbn [map concat]. rewrite concat_app, !map_app.
    destruct (H 0%nat p o eq_refl eq_refl) as (A1 & A2). injection (IH os ltac:(cbn in L; lia) (fun r => H (S r))) as B1 B2. rewrite B1, B2, <- A2.
    f_equal. f_equal. unfold rowNat. transitivity (map (map (fun e : Z * R => (Z.to_nat (fst e), snd e))) (map bent (concat p))); [rewrite <- A1|]; rewrite map_map; reflexivity. }
  apply K; [exact Lo|]. intros r p o Hp Ho. exact (proj2 (Po r p o Hp Ho)).
Qed.
