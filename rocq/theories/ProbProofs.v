(** Proofs about ProbModel. *)
From Coq Require Import List Arith ZArith Lia Bool Reals Lra Sorted.
From Flocq Require Import IEEE754.BinarySingleNaN.
From Verif Require Import Outcome ListUtil F64 Arith SortModel ParticleModel ParticleProofs QPModel ProbModel ProbSpec.
Import ListNotations.
Local Open Scope R_scope.

(** ** Sums *)
Lemma total_0 f : total 0 f = 0. Proof. reflexivity. Qed.
Lemma fold_plus_init l a : fold_right Rplus a l = fold_right Rplus 0 l + a.
Proof. induction l as [|x l IH]; cbn; [lra|]. rewrite IH. lra. Qed.
Lemma total_S n f : total (S n) f = total n f + f n.
Proof. unfold total. rewrite seq_S, map_app, fold_right_app. cbn. rewrite fold_plus_init. lra. Qed.
Lemma total_ext n f g : (forall i, (i < n)%nat -> f i = g i) -> total n f = total n g.
Proof. induction n as [|n IH]; intros H; [reflexivity|]. rewrite !total_S, IH by (intros; apply H; lia). rewrite H by lia. reflexivity. Qed.
Lemma total_plus n f g : total n (fun i => f i + g i) = total n f + total n g.
Proof. induction n as [|n IH]; [cbn; unfold total; cbn; lra|]. rewrite !total_S, IH. lra. Qed.
Lemma total_scale n c f : total n (fun i => c * f i) = c * total n f.
Proof. induction n as [|n IH]; [unfold total; cbn; lra|]. rewrite !total_S, IH. lra. Qed.
Lemma total_zero n f : (forall i, (i < n)%nat -> f i = 0) -> total n f = 0.
Proof. intros H. rewrite (total_ext n f (fun _ => 0 * 0)) by (intros; rewrite H by assumption; lra). rewrite total_scale. lra. Qed.
Lemma total_swap n m f : total n (fun i => total m (fun j => f i j)) = total m (fun j => total n (fun i => f i j)).
Proof. induction n as [|n IH]; [symmetry; apply total_zero; intros; reflexivity|]. rewrite total_S, IH. rewrite <- total_plus. apply total_ext. intros j _. rewrite total_S. reflexivity. Qed.
Lemma total_le n f g : (forall i, (i < n)%nat -> f i <= g i) -> total n f <= total n g.
Proof. induction n as [|n IH]; intros H; [unfold total; cbn; lra|]. rewrite !total_S. apply Rplus_le_compat; [apply IH; intros; apply H; lia|apply H; lia]. Qed.
Lemma total_nonneg n f : (forall i, (i < n)%nat -> 0 <= f i) -> 0 <= total n f.
Proof. intros H. rewrite <- (total_zero n (fun _ => 0)) by reflexivity. apply total_le. exact H. Qed.
Lemma total_pos n f i : (i < n)%nat -> 0 < f i -> (forall k, (k < n)%nat -> 0 <= f k) -> 0 < total n f.
Proof.
  induction n as [|n IH]; intros Hi Hf H; [lia|]. rewrite total_S. destruct (Nat.eq_dec i n) as [->|Hn]; [assert (0 <= total n f) by (apply total_nonneg; intros; apply H; lia); lra|].
  assert (0 < total n f) by (apply IH; [lia|exact Hf|intros; apply H; lia]). assert (0 <= f n) by (apply H; lia). lra.
Qed.
Lemma total_add a b f : total (a + b) f = total a f + total b (fun i => f (a + i)%nat).
Proof. induction b as [|b IH]; [rewrite Nat.add_0_r, total_0; lra|]. rewrite Nat.add_succ_r, !total_S, IH. lra. Qed.
Lemma total_blocks a n f : total (a * n) f = total a (fun r => total n (fun i => f (r * n + i)%nat)).
Proof. induction a as [|a IH]; [reflexivity|]. rewrite total_S, <- IH. replace (S a * n)%nat with (a * n + n)%nat by lia. apply total_add. Qed.
Lemma total_one n f k : (k < n)%nat -> (forall i, (i < n)%nat -> i <> k -> f i = 0) -> total n f = f k.
Proof.
  induction n as [|n IH]; intros Hk H; [lia|]. rewrite total_S. destruct (Nat.eq_dec k n) as [->|Hn]; [rewrite total_zero by (intros; apply H; lia); lra|]. rewrite IH by (try lia; intros; apply H; lia). rewrite (H n) by lia. lra.
Qed.
Lemma total_fold n f : fold_left (fun s k => s + f k) (seq 0 n) 0 = total n f.
Proof. induction n as [|n IH]; [reflexivity|]. rewrite seq_S, fold_left_app, IH, total_S. reflexivity. Qed.

(** ** The dense matrix *)
Lemma nth_seq_map {A} n (f : nat -> A) d i : (i < n)%nat -> nth i (map f (seq 0 n)) d = f i.
Proof. intros H. rewrite (nth_indep _ d (f 0%nat)) by (rewrite map_length, seq_length; exact H). rewrite map_nth, seq_nth by exact H. reflexivity. Qed.
Lemma entry_fill n (f : nat -> nat -> R_arith) i j : (i < n)%nat -> (j < n)%nat -> entry (N := R_arith) (fill n f) i j = f i j.
Proof. intros Hi Hj. unfold entry, fill. rewrite nth_seq_map by exact Hi. apply nth_seq_map. exact Hj. Qed.
Lemma entry_mul n (f g : nat -> nat -> R_arith) i j : (i < n)%nat -> (j < n)%nat -> entry (N := R_arith) (multiply n f g) i j = total n (fun k => f i k * g k j).
Proof. intros Hi Hj. unfold multiply. rewrite entry_fill by assumption. exact (total_fold n (fun k => f i k * g k j)). Qed.

Lemma aLocal_gram n diagonal (D : list R) (B : list (list R)) i j : (i < n)%nat -> (j < n)%nat -> entry (N := R_arith) (aLocal (N := R_arith) n diagonal D B) i j = gram n diagonal D B i j.
Proof.
  intros Hi Hj. unfold aLocal. rewrite entry_fill by assumption.
  assert (X : entry (N := R_arith) (multiply n (fun i0 k => entry B k i0) (entry (multiply n (entry (diagonalOf n D)) (entry B)))) i j = total n (fun k => at0 D k * at0 (nth k B []) i * at0 (nth k B []) j)).
  { rewrite entry_mul by assumption. apply total_ext. intros k Hk. rewrite entry_mul by assumption.
    rewrite (total_one n _ k Hk).
    - unfold diagonalOf. rewrite entry_fill by assumption. rewrite Nat.eqb_refl. unfold entry, at0. cbn. ring.
    - intros l Hl Hn. unfold diagonalOf. rewrite entry_fill by assumption. destruct (Nat.eqb_spec k l) as [->|_]; [congruence|]. cbn. ring. }
  unfold gram. destruct (Nat.eqb i j); [exact (f_equal (fun v => v + diagonal) X)|]. exact (eq_trans X (eq_sym (Rplus_0_r _))).
Qed.

Lemma tol_eq : droptol (N := R_arith) = tol.
Proof. unfold droptol, tol. cbn. field. Qed.
Lemma kept_cols n diagonal D B i j : (i < n)%nat -> In j (keptCols (N := R_arith) n (aLocal (N := R_arith) n diagonal D B) i) <-> (j < n)%nat /\ tol < Rabs (gram n diagonal D B i j).
Proof.
  intros Hi. unfold keptCols. rewrite filter_In, in_seq. split.
  - intros (H1 & H2). assert (Hj : (j < n)%nat) by lia. split; [exact Hj|]. rewrite aLocal_gram in H2 by assumption. rewrite tol_eq in H2. cbn in H2. revert H2. rcase; [auto|discriminate].
  - intros (Hj & H). split; [lia|]. rewrite aLocal_gram by assumption. rewrite tol_eq. cbn. rcase; [reflexivity|lra].
Qed.

(** ** The column map *)
Lemma sorted_same : forall l m : list Z, StronglySorted Z.lt l -> StronglySorted Z.lt m -> (forall z, In z l <-> In z m) -> l = m.
Proof.
  induction l as [|a l IH]; intros m Hl Hm H; [destruct m as [|b m]; [reflexivity|]; exfalso; apply (proj2 (H b)); now left|]. destruct m as [|b m]; [exfalso; apply (proj1 (H a)); now left|].
  apply StronglySorted_inv in Hl, Hm. destruct Hl as (Sl & Fl), Hm as (Sm & Fm). rewrite Forall_forall in Fl, Fm. assert (a = b) as ->.
  { destruct (proj1 (H a) (or_introl eq_refl)) as [->|X]; [reflexivity|]. destruct (proj2 (H b) (or_introl eq_refl)) as [->|Y]; [reflexivity|]. apply Fm in X. apply Fl in Y. lia. }
  f_equal. apply IH; [exact Sl|exact Sm|]. intros z. split; intros X; [destruct (proj1 (H z) (or_intror X)) as [<-|]|destruct (proj2 (H z) (or_intror X)) as [<-|]]; try assumption; [apply Fl in X|apply Fm in X]; lia.
Qed.
Lemma sorted_seq c a n : StronglySorted Z.lt (map (fun j => (Z.of_nat j + c)%Z) (seq a n)).
Proof. revert a. induction n as [|n IH]; intros a; cbn; constructor; [apply IH|]. apply Forall_forall. intros z Hz. apply in_map_iff in Hz. destruct Hz as (j & <- & Hj). apply in_seq in Hj. lia. Qed.
Lemma col_map n c (cols : list nat) : (forall j, In j cols <-> (j < n)%nat) -> unique (stable_sort Z.ltb (map (fun j => (Z.of_nat j + c)%Z) cols)) = map (fun j => (Z.of_nat j + c)%Z) (seq 0 n).
Proof.
  intros H. destruct (sorted_unique_index (map (fun j => (Z.of_nat j + c)%Z) cols)) as (S & I). apply sorted_same; [exact S|apply sorted_seq|]. intros z. rewrite I, !in_map_iff. split; intros (j & E & Hj); exists j; (split; [exact E|]); [apply H in Hj; apply in_seq; lia|apply H; apply in_seq in Hj; lia].
Qed.

(** ** One row *)
Lemma filter_total n (p : nat -> bool) (f : nat -> R) : fold_left (fun s j => s + f j) (filter p (seq 0 n)) 0 = total n (fun j => if p j then f j else 0).
Proof. induction n as [|n IH]; [reflexivity|]. rewrite seq_S, filter_app, fold_left_app, IH, total_S. cbn. destruct (p n); cbn; lra. Qed.
Lemma read_range {A} (b : list A) (f : R -> A -> outcome R) (g : R -> A -> R) : (forall s a, In a b -> f s a = Done (g s a)) -> forall (pre post : list A) s,
  ofold (fun s p => do a <- mread (pre ++ b ++ post) p; f s a) (seq (length pre) (length b)) s = Done (fold_left g b s).
Proof.
  induction b as [|a b IH]; intros H pre post s; [reflexivity|]. cbn [length seq ofold fold_left]. replace (length pre) with (length pre + 0)%nat at 1 by lia. rewrite mread_app2. cbn [mread nth_error app]. cbn [mread nth_error obind]. unfold mread at 1. cbn [nth_error obind]. rewrite H by (now left). cbn [obind].
  specialize (IH (fun s x Hx => H s x (or_intror Hx)) (pre ++ [a]) post (g s a)). rewrite app_length in IH. cbn [length] in IH. replace (length pre + 1)%nat with (S (length pre)) in IH by lia. rewrite <- app_assoc in IH. exact IH.
Qed.
Lemma ofold_same {A S} (f g : S -> A -> outcome S) l s : (forall s a, f s a = g s a) -> ofold f l s = ofold g l s.
Proof. intros H. revert s. induction l as [|a l IH]; intros s; [reflexivity|]. cbn [ofold]. rewrite H. destruct (g s a); cbn [obind]; auto. Qed.
Lemma mread_map {A B} (f : A -> B) l p : mread (map f l) p = (do a <- mread l p; Done (f a)).
Proof. unfold mread. rewrite nth_error_map. destruct (nth_error l p); reflexivity. Qed.
Lemma fold_left_map {A B S} (f : S -> B -> S) (g : A -> B) l s : fold_left f (map g l) s = fold_left (fun s a => f s (g a)) l s.
Proof. revert s. induction l; intros s; cbn; auto. Qed.
Lemma concat_at {A} (ls : list (list A)) i b : nth_error ls i = Some b -> concat ls = concat (firstn i ls) ++ b ++ concat (skipn (S i) ls).
Proof. intros H. rewrite <- (firstn_skipn i ls) at 1. rewrite concat_app. f_equal. revert ls H. induction i as [|i IH]; intros [|a ls] H; try discriminate; [injection H as ->; reflexivity|exact (IH ls H)]. Qed.

Section Rank.
  Context (n : nat) (diagonal : R) (D : list R) (B : list (list R)) (r total_ranks : nat) (x : list R).
  Hypothesis Hc : columns n diagonal D B.
  Hypothesis Hr : (r < total_ranks)%nat.
  Hypothesis Hfit : fits n total_ranks.
  Hypothesis Hx : length x = (total_ranks * n)%nat.
  Let A := aLocal (N := R_arith) n diagonal D B.

  Lemma rank_rows : exists m, rankMatrix (N := R_arith) n (Z.of_nat r) A = Done m /\
    omap (applyRow (N := R_arith) m x) (seq 0 n) = Done (map (fun i => total n (fun j => kept (gram n diagonal D B i j) * at0 x (r * n + j))) (seq 0 n)).
  Proof using Hc Hr Hfit Hx.
    unfold rankMatrix. destruct (Z.ltb_spec (2 ^ 31) ((Z.of_nat r + 1) * Z.of_nat n)) as [Y|_]; [exfalso; unfold fits in Hfit; assert ((Z.of_nat r + 1) * Z.of_nat n <= Z.of_nat total_ranks * Z.of_nat n)%Z by (apply Z.mul_le_mono_nonneg_r; lia); lia|].
    eexists. split; [reflexivity|]. apply omap_pure. intros i Hi. apply in_seq in Hi. assert (Hi' : (i < n)%nat) by lia. clear Hi. rename Hi' into Hi.
    set (rows := map (keptCols (N := R_arith) n A) (seq 0 n)). pose (ps := map (fun i => map (fun j => (j, entry (N := R_arith) A i j) : nat * R) (keptCols (N := R_arith) n A i)) (seq 0 n) : list (list (nat * R))).
    assert (E1 : concat rows = map fst (concat ps)) by (unfold rows, ps; rewrite concat_map, map_map; f_equal; apply map_ext; intros k; rewrite map_map; cbn [fst]; symmetry; apply map_id).
    assert (E2 : concat (map (fun i => map (entry (N := R_arith) A i) (keptCols (N := R_arith) n A i)) (seq 0 n)) = map snd (concat ps)) by (unfold ps; rewrite concat_map, map_map; f_equal; apply map_ext; intros k; rewrite map_map; reflexivity).
    assert (EL : map (@length nat) rows = map (@length (nat * R)) ps) by (unfold rows, ps; rewrite !map_map; apply map_ext; intros k; rewrite map_length; reflexivity).
    rewrite (col_map n (Z.of_nat r * Z.of_nat n)).
    2: { intros j. unfold rows. rewrite in_concat. split.
      - intros (l & Hl & Hj). apply in_map_iff in Hl. destruct Hl as (k & <- & Hk). apply in_seq in Hk. apply kept_cols in Hj; [apply Hj|lia].
      - intros Hj. destruct (Hc j Hj) as (k & Hk & Hg). exists (keptCols (N := R_arith) n A k). split; [apply in_map, in_seq; lia|]. apply kept_cols; auto. }
    unfold applyRow. cbn [c_ptr c_idx c_val c_map]. fold rows. rewrite E1, EL. unfold dense in *. rewrite E2.
    assert (Lp : length ps = n) by (unfold ps; rewrite map_length; apply seq_length).
    assert (Lq : length (map (@length (nat * R)) ps) = n) by (rewrite map_length; exact Lp).
    unfold mread at 1. rewrite psum_nth by (eapply Nat.le_trans; [|apply Nat.eq_le_incl; symmetry; exact Lq]; lia). cbn [obind]. unfold mread at 1. rewrite psum_nth by (eapply Nat.le_trans; [|apply Nat.eq_le_incl; symmetry; exact Lq]; lia). cbn [obind].
    pose (b := map (fun j => (j, entry (N := R_arith) A i j) : nat * R) (keptCols (N := R_arith) n A i) : list (nat * R)). assert (Hb : nth_error ps i = Some b) by (unfold ps; rewrite nth_error_map, nth_error_seq by exact Hi; reflexivity).
    rewrite (sum_firstn_S _ i (length b)) by (refine (eq_trans (nth_error_map _ _ _) _); exact (f_equal (option_map _) Hb)). replace (sum_list (firstn i (map (@length (nat * R)) ps)) + length b - sum_list (firstn i (map (@length (nat * R)) ps)))%nat with (length b) by lia.
    rewrite firstn_map, <- concat_length.
    set (f := fun (s : R) (ja : nat * R) => do g <- mread (map (fun j => (Z.of_nat j + Z.of_nat r * Z.of_nat n)%Z) (seq 0 n)) (fst ja); do v <- mread x (Z.to_nat g); Done (s + snd ja * v)).
    transitivity (ofold (fun s p => do a <- mread (concat ps) p; f s a) (seq (length (concat (firstn i ps))) (length b)) 0).
    { apply ofold_same. intros s p. rewrite !mread_map. destruct (mread (concat ps) p) as [(j & a)| |]; reflexivity. }
    rewrite (concat_at ps i b Hb). rewrite (read_range b f (fun s ja => s + snd ja * at0 x (r * n + fst ja))).
    - unfold b. rewrite fold_left_map. unfold keptCols. cbn [fst snd]. rewrite (filter_total n _ (fun j => entry (N := R_arith) A i j * at0 x (r * n + j))). apply (f_equal Done). apply total_ext. intros j Hj. unfold A. rewrite aLocal_gram by assumption. rewrite tol_eq. unfold kept. cbn. rcase; destruct (Rle_dec _ tol); lra.
    - intros s (j & a) Hj. unfold b in Hj. apply in_map_iff in Hj. destruct Hj as (j' & E & Hj). injection E as -> _. apply kept_cols in Hj; [|exact Hi]. destruct Hj as (Hj & _). unfold f. cbn [fst snd]. unfold mread at 1. rewrite nth_error_map, nth_error_seq by exact Hj. cbn [option_map obind].
      replace (Z.to_nat (Z.of_nat (0 + j) + Z.of_nat r * Z.of_nat n)) with (r * n + j)%nat by nia. assert (Hin : (r * n + j < length x)%nat) by (rewrite Hx; nia). unfold mread. destruct (nth_error x (r * n + j)) as [v|] eqn:Ev; [|apply nth_error_None in Ev; lia]. cbn [obind]. unfold at0. rewrite (nth_error_nth x _ 0 Ev). reflexivity.
  Qed.
End Rank.

(** ** All ranks *)
Lemma nth_concat_same {A} (d : A) n (ls : list (list A)) r i l : (forall k, In k ls -> length k = n) -> nth_error ls r = Some l -> (i < n)%nat -> nth (r * n + i) (concat ls) d = nth i l d.
Proof.
  intros HL. revert r. induction ls as [|a ls IH]; intros r Hr Hi; [destruct r; discriminate|]. assert (La : length a = n) by (apply HL; now left). destruct r as [|r]; cbn [nth_error] in Hr; cbn [concat].
  - injection Hr as ->. cbn. rewrite app_nth1 by lia. reflexivity.
  - rewrite app_nth2 by nia. replace (S r * n + i - length a)%nat with (r * n + i)%nat by nia. apply IH; [intros k Hk; apply HL; now right|exact Hr|exact Hi].
Qed.

Lemma test_apply n diagonal ranks x : length x = (length ranks * n)%nat -> fits n (length ranks) -> (forall D B, In (D, B) ranks -> columns n diagonal D B) ->
  exists y, applyTest (N := R_arith) n diagonal ranks x = Done y /\ blockwise n diagonal ranks x y.
Proof.
  intros Hx Hf Hc. unfold applyTest.
  set (row := fun (rd : nat * (list R * list (list R))) => map (fun i => total n (fun j => kept (gram n diagonal (fst (snd rd)) (snd (snd rd)) i j) * at0 x (fst rd * n + j))) (seq 0 n)).
  assert (E : omap (fun rd : nat * (list R_arith * dense (N := R_arith)) => do m <- rankMatrix (N := R_arith) n (Z.of_nat (fst rd)) (aLocal (N := R_arith) n diagonal (fst (snd rd)) (snd (snd rd))); omap (applyRow (N := R_arith) m x) (seq 0 n)) (combine (seq 0 (length ranks)) ranks) = Done (map row (combine (seq 0 (length ranks)) ranks))).
  { apply omap_pure. intros (r & (D & B)) H. cbn [fst snd]. assert (Hr : (r < length ranks)%nat) by (apply in_combine_l in H; apply in_seq in H; lia). apply in_combine_r in H.
    destruct (rank_rows n diagonal D B r (length ranks) x (Hc D B H) Hr Hf Hx) as (m & M1 & M2). refine (eq_trans (f_equal (fun o => obind o _) M1) _). exact M2. }
  exists (concat (map row (combine (seq 0 (length ranks)) ranks))). split; [exact (f_equal (fun o => obind o _) E)|]. 
  assert (HL : forall k, In k (map row (combine (seq 0 (length ranks)) ranks)) -> length k = n) by (intros k Hk; apply in_map_iff in Hk; destruct Hk as (rd & <- & _); unfold row; rewrite map_length; apply seq_length).
  split.
  - rewrite concat_length. rewrite (map_ext_in (@length R) (fun _ => n)) by exact HL. rewrite map_map. assert (G : forall l : list (nat * (list R * list (list R))), sum_list (map (fun _ => n) l) = (length l * n)%nat) by (clear; induction l as [|a l IH]; [reflexivity|]; cbn; unfold sum_list in IH; rewrite IH; reflexivity). rewrite G, combine_length, seq_length, Nat.min_id. reflexivity.
  - intros r D B i Hr Hi. unfold at0 at 1. assert (Hn : nth_error (combine (seq 0 (length ranks)) ranks) r = Some (r, (D, B))).
    { assert (Hl : (r < length ranks)%nat) by (apply nth_error_Some; congruence). assert (G : forall a (l : list (list R * list (list R))) k, nth_error l k = Some (D, B) -> nth_error (combine (seq a (length l)) l) k = Some ((a + k)%nat, (D, B))). { clear. intros a l. revert a. induction l as [|x l IH]; intros a [|k] H; try discriminate; cbn in *; [injection H as ->; rewrite Nat.add_0_r; reflexivity|]. rewrite (IH (S a) k H). f_equal. f_equal. lia. } rewrite (G 0%nat ranks r Hr). reflexivity. }
    rewrite (nth_concat_same 0 n _ r i (row (r, (D, B))) HL); [|rewrite nth_error_map, Hn; reflexivity|exact Hi]. unfold row. rewrite nth_seq_map by exact Hi. reflexivity.
Qed.

(** ** The matrix *)
Lemma gram_sym n d D B i j : gram n d D B i j = gram n d D B j i.
Proof. unfold gram. rewrite Nat.eqb_sym. f_equal. apply total_ext. intros k _. ring. Qed.
Lemma gram_form n d D B (v : nat -> R) : total n (fun i => v i * total n (fun j => gram n d D B i j * v j)) = total n (fun k => at0 D k * total n (fun i => at0 (nth k B []) i * v i) ^ 2) + d * total n (fun i => v i ^ 2).
Proof.
  rewrite (total_ext n _ (fun i => total n (fun k => at0 D k * (at0 (nth k B []) i * v i) * total n (fun j => at0 (nth k B []) j * v j)) + d * v i ^ 2)).
  - rewrite total_plus, total_scale. f_equal. rewrite total_swap. apply total_ext. intros k _. rewrite (total_ext n _ (fun i => at0 D k * total n (fun j => at0 (nth k B []) j * v j) * (at0 (nth k B []) i * v i))) by (intros; ring). rewrite total_scale. ring.
  - intros i Hi. unfold gram. rewrite (total_ext n _ (fun j => total n (fun k => at0 D k * at0 (nth k B []) i * (at0 (nth k B []) j * v j)) + (if Nat.eqb i j then d else 0) * v j)).
    + rewrite total_plus, Rmult_plus_distr_l. f_equal.
      * rewrite total_swap, <- total_scale. apply total_ext. intros k _. rewrite total_scale. ring.
      * rewrite (total_one n _ i Hi); [rewrite Nat.eqb_refl; ring|]. intros j _ Hn. destruct (Nat.eqb_spec i j); [congruence|ring].
    + intros j _. rewrite Rmult_plus_distr_r. f_equal. rewrite (Rmult_comm (total _ _)), <- total_scale. apply total_ext. intros; ring.
Qed.
Lemma kept_near a : Rabs (a - kept a) <= tol.
Proof. unfold kept. assert (0 < tol) by (unfold tol; lra). destruct (Rle_dec (Rabs a) tol) as [H'|H']; [rewrite Rminus_0_r; exact H'|]. rewrite Rminus_diag_eq by reflexivity. rewrite Rabs_R0. lra. Qed.
Lemma half_mul e a b t : - t <= e <= t -> a * (e * b) <= t / 2 * a ^ 2 + t / 2 * b ^ 2.
Proof. intros (H1 & H2). assert (0 <= (t - e) * (a + b) ^ 2) by (apply Rmult_le_pos; [lra|apply pow2_ge_0]). assert (0 <= (t + e) * (a - b) ^ 2) by (apply Rmult_le_pos; [lra|apply pow2_ge_0]). lra. Qed.
Lemma kept_form n d D B (v : nat -> R) : (forall k, (k < n)%nat -> 0 <= at0 D k) -> (d - INR n * tol) * total n (fun i => v i ^ 2) <= total n (fun i => v i * total n (fun j => kept (gram n d D B i j) * v j)).
Proof.
  intros HD. pose proof (gram_form n d D B v) as G. assert (P : 0 <= total n (fun k => at0 D k * total n (fun i => at0 (nth k B []) i * v i) ^ 2)) by (apply total_nonneg; intros k Hk; apply Rmult_le_pos; [auto|apply pow2_ge_0]).
  assert (T : 0 < tol) by (unfold tol; lra).
  assert (Q : total n (fun i => v i * total n (fun j => gram n d D B i j * v j)) <= total n (fun i => v i * total n (fun j => kept (gram n d D B i j) * v j)) + total n (fun i => total n (fun j => tol / 2 * v i ^ 2 + tol / 2 * v j ^ 2))).
  { rewrite <- total_plus. apply total_le. intros i _. rewrite <- !total_scale, <- total_plus. apply total_le. intros j _. pose proof (kept_near (gram n d D B i j)) as K. remember (gram n d D B i j) as g eqn:Hg. remember (g - kept g) as e eqn:He. assert (K' : - tol <= e <= tol) by (revert K; unfold Rabs; destruct Rcase_abs; lra).
    assert (v i * (e * v j) <= tol / 2 * v i ^ 2 + tol / 2 * v j ^ 2). { apply half_mul; assumption. } replace g with (kept g + e) at 1 by lra. lra. }
  assert (Z : forall c m, total m (fun _ => c) = INR m * c). { intros c m. induction m as [|m IH]; [unfold total; cbn; lra|]. rewrite total_S, IH, S_INR. lra. }
  assert (S : total n (fun i => total n (fun j => tol / 2 * v i ^ 2 + tol / 2 * v j ^ 2)) = INR n * tol * total n (fun i => v i ^ 2)).
  { rewrite (total_ext n _ (fun i => INR n * (tol / 2) * v i ^ 2 + tol / 2 * total n (fun j => v j ^ 2))) by (intros i _; rewrite total_plus, Z, total_scale; ring). rewrite total_plus, total_scale, Z. field. }
  rewrite S in Q. lra.
Qed.

Lemma columns_ok n d D B : (forall k, (k < n)%nat -> 0 <= at0 D k) -> tol < d -> columns n d D B.
Proof.
  intros HD Hd j Hj. exists j. split; [exact Hj|]. unfold gram. rewrite Nat.eqb_refl. assert (P : 0 <= total n (fun k => at0 D k * at0 (nth k B []) j * at0 (nth k B []) j)). { apply total_nonneg. intros k Hk. rewrite Rmult_assoc. apply Rmult_le_pos; [auto|apply Rle_0_sqr]. }
  assert (0 < tol) by (unfold tol; lra). rewrite Rabs_pos_eq; lra.
Qed.

Lemma block_inner n d ranks x y z : blockwise n d ranks x y ->
  inner (length ranks * n) z y = total (length ranks) (fun r => let '(D, B) := nth r ranks ([], []) in total n (fun i => at0 z (r * n + i) * total n (fun j => kept (gram n d D B i j) * at0 x (r * n + j)))).
Proof.
  intros (_ & H). unfold inner. rewrite total_blocks. apply total_ext. intros r Hr. destruct (nth_error ranks r) as [(D & B)|] eqn:E; [|apply nth_error_None in E; lia]. rewrite (nth_error_nth ranks r ([], []) E). apply total_ext. intros i Hi. rewrite (H r D B i E Hi). reflexivity.
Qed.
Lemma test_symmetric n d ranks x y x' y' : blockwise n d ranks x y -> blockwise n d ranks x' y' -> inner (length ranks * n) x' y = inner (length ranks * n) x y'.
Proof.
  intros H H'. rewrite (block_inner _ _ _ _ _ _ H), (block_inner _ _ _ _ _ _ H'). apply total_ext. intros r _. destruct (nth r ranks ([], [])) as (D & B).
  rewrite (total_ext n _ (fun i => total n (fun j => at0 x' (r * n + i) * (kept (gram n d D B i j) * at0 x (r * n + j))))) by (intros; rewrite total_scale; reflexivity). rewrite total_swap. apply total_ext. intros j _. rewrite <- total_scale. apply total_ext. intros i _. rewrite (gram_sym n d D B i j). ring.
Qed.
Lemma test_definite n d ranks x y : (forall D B, In (D, B) ranks -> forall k, (k < n)%nat -> 0 <= at0 D k) -> INR n * tol < d -> blockwise n d ranks x y -> (exists i, (i < length ranks * n)%nat /\ at0 x i <> 0) -> 0 < inner (length ranks * n) x y.
Proof.
  intros HD Hd H (i & Hi & Hx). rewrite (block_inner _ _ _ _ _ _ H).
  assert (Hn : (0 < n)%nat) by nia.
  apply Rlt_le_trans with (total (length ranks) (fun r => (d - INR n * tol) * total n (fun i => at0 x (r * n + i) ^ 2))).
  - rewrite total_scale. apply Rmult_lt_0_compat; [lra|]. rewrite <- (total_blocks (length ranks) n (fun k => at0 x k ^ 2)). apply (total_pos _ _ i Hi); [|intros; apply pow2_ge_0]. pose proof (Rsqr_pos_lt _ Hx) as Y. unfold Rsqr in Y. lra.
  - apply total_le. intros r Hr. destruct (nth_error ranks r) as [(D & B)|] eqn:E; [|apply nth_error_None in E; lia]. rewrite (nth_error_nth ranks r ([], []) E). apply (kept_form n d D B (fun i => at0 x (r * n + i))). exact (HD D B (nth_error_In _ _ E)).
Qed.
Lemma test_problem n d ranks : fits n (length ranks) -> (forall D B, In (D, B) ranks -> forall k, (k < n)%nat -> 0 <= at0 D k) -> INR n * tol < d -> forall x, length x = (length ranks * n)%nat ->
  exists y, applyTest (N := R_arith) n d ranks x = Done y /\ blockwise n d ranks x y /\ ((exists i, (i < length ranks * n)%nat /\ at0 x i <> 0) -> 0 < inner (length ranks * n) x y).
Proof.
  intros Hf HD Hd x Hx. destruct (test_apply n d ranks x Hx Hf) as (y & Y1 & Y2).
  - intros D B HB j Hj. apply columns_ok; [exact (HD D B HB)| |exact Hj]. assert (1 <= INR n) by (change 1 with (INR 1); apply le_INR; lia). assert (0 < tol) by (unfold tol; lra). nra.
  - exists y. split; [exact Y1|]. split; [exact Y2|]. intros He. exact (test_definite n d ranks x y HD Hd Y2 He).
Qed.

(** ** The bounds *)
Lemma bounds_ok (v1 v2 : list f64) i a b : nth_error v1 i = Some a -> nth_error v2 i = Some b -> is_finite a = true -> is_finite b = true ->
  exists l u, nth_error (fst (generateRandomBounds (N := F_arith) v1 v2)) i = Some l /\ nth_error (snd (generateRandomBounds (N := F_arith) v1 v2)) i = Some u /\
    (l = a /\ u = b \/ l = b /\ u = a \/ l = u) /\ B2R l = Rmin (B2R a) (B2R b) /\ B2R u = Rmax (B2R a) (B2R b).
Proof.
  intros Ha Hb Fa Fb. assert (Hc : nth_error (combine v1 v2) i = Some (a, b)).
  { clear Fa Fb. revert v2 i Ha Hb. induction v1 as [|p v1 IH]; intros [|q v2] [|i] Ha Hb; try discriminate; cbn in *; [congruence|auto]. }
  exists (stdmin (N := F_arith) a b), (stdmax (N := F_arith) a b). unfold generateRandomBounds. cbn [fst snd].
  split; [exact (eq_trans (nth_error_map _ _ _) (f_equal (option_map _) Hc))|]. split; [exact (eq_trans (nth_error_map _ _ _) (f_equal (option_map _) Hc))|].
  unfold stdmin, stdmax. cbn. pose proof (flt_R a b Fa Fb) as L1. pose proof (flt_R b a Fb Fa) as L2. unfold Rmin, Rmax.
  destruct (flt a b), (flt b a); destruct (Rle_dec (B2R a) (B2R b)); repeat match goal with H : true = true <-> _ |- _ => apply proj1 in H; specialize (H eq_refl) | H : false = true <-> ?P |- _ => assert (~ P) by (intros Q; apply H in Q; discriminate); clear H end; split; auto; split; lra.
Qed.

(** ** Without an addition to the diagonal *)
Lemma flat_form : let D := [1; 1] in let B := [[/ 8192; 1]; [0; 0]] in let x := [1; - / 16384] in
  exists y, applyTest (N := R_arith) 2 0 [(D, B)] x = Done y /\ inner 2 x y < 0.
Proof.
  intros D B x. assert (G00 : gram 2 0 D B 0 0 = / 67108864) by (unfold gram, total, at0, D, B; cbn; field). assert (G01 : gram 2 0 D B 0 1 = / 8192) by (unfold gram, total, at0, D, B; cbn; field). assert (G11 : gram 2 0 D B 1 1 = 1) by (unfold gram, total, at0, D, B; cbn; field). pose proof (gram_sym 2 0 D B 1 0) as G10. rewrite G01 in G10.
  destruct (test_apply 2 0 [(D, B)] x) as (y & Y1 & _ & Y2).
  - reflexivity.
  - unfold fits. cbn. lia.
  - intros D' B' [E|[]]. injection E as <- <-. intros j Hj. exists 1%nat. split; [lia|]. destruct j as [|[|j]]; [rewrite G10|rewrite G11|lia]; unfold tol; rewrite Rabs_pos_eq; lra.
  - exists y. split; [exact Y1|]. pose proof (Y2 0%nat D B 0%nat eq_refl ltac:(lia)) as E0. pose proof (Y2 0%nat D B 1%nat eq_refl ltac:(lia)) as E1.
    unfold total in E0, E1. cbn [seq map fold_right Nat.mul Nat.add] in E0, E1. rewrite G00, G01 in E0. rewrite G10, G11 in E1.
    assert (K0 : kept (/ 67108864) = 0) by (unfold kept, tol; rewrite Rabs_pos_eq by lra; destruct Rle_dec; lra). assert (K1 : kept (/ 8192) = / 8192) by (unfold kept, tol; rewrite Rabs_pos_eq by lra; destruct Rle_dec; lra). assert (K2 : kept 1 = 1) by (unfold kept, tol; rewrite Rabs_pos_eq by lra; destruct Rle_dec; lra).
    rewrite K0, K1 in E0. rewrite K1, K2 in E1. unfold inner, total. cbn [seq map fold_right]. rewrite E0, E1. unfold x, at0. cbn [nth]. lra.
Qed.
Lemma flat_case : exists n (D : list R) (B : list (list R)) (x y : list R), length D = n /\ Forall (fun d => / 10 <= d <= 10) D /\ Forall (Forall (fun b => -1 <= b <= 1)) B /\
  applyTest (N := R_arith) n 0 [(D, B)] x = Done y /\ inner n x y < 0.
Proof.
  destruct flat_form as (y & Y1 & Y2). exists 2%nat, [1; 1], [[/ 8192; 1]; [0; 0]], [1; - / 16384], y. split; [reflexivity|]. split; [repeat constructor; lra|]. split; [repeat constructor; lra|]. split; assumption.
Qed.
Lemma apply_symmetric n diagonal ranks x x' y y' : length x = (length ranks * n)%nat -> length x' = (length ranks * n)%nat -> fits n (length ranks) -> (forall D B, In (D, B) ranks -> columns n diagonal D B) ->
  applyTest (N := R_arith) n diagonal ranks x = Done y -> applyTest (N := R_arith) n diagonal ranks x' = Done y' -> inner (length ranks * n) x' y = inner (length ranks * n) x y'.
Proof.
  intros L L' Hf Hc E E'. destruct (test_apply n diagonal ranks x L Hf Hc) as (z & Z1 & Z2). destruct (test_apply n diagonal ranks x' L' Hf Hc) as (z' & Z1' & Z2').
  assert (y = z) by congruence. assert (y' = z') by congruence. subst z z'. exact (test_symmetric n diagonal ranks x y x' y' Z2 Z2').
Qed.
