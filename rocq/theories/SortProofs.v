(** Proofs about SortModel. *)
From Coq Require Import List Arith Lia Permutation Sorted Bool.
From Verif Require Import Outcome ListUtil SortModel SortSpec.
Import ListNotations.

Section Generic.
  Context {A : Type} (lt : A -> A -> bool).

  Lemma insert_perm x l : Permutation (x :: l) (insert lt x l).
  Proof.
    induction l as [|y r IH]; cbn; [reflexivity|].
    destruct (lt y x); [|reflexivity].
    rewrite perm_swap. constructor. exact IH.
  Qed.

  Lemma stable_sort_perm l : Permutation l (stable_sort lt l).
  Proof.
    induction l as [|x r IH]; cbn; [constructor|].
    rewrite <- insert_perm. constructor. exact IH.
  Qed.

  Lemma stable_sort_length l : length (stable_sort lt l) = length l.
  Proof. symmetry. apply Permutation_length, stable_sort_perm. Qed.
End Generic.

Section MapSort.
  Context {A B : Type} (ltA : A -> A -> bool) (ltB : B -> B -> bool) (f : A -> B).

  Lemma insert_map x l :
    (forall a, In a l -> ltA a x = ltB (f a) (f x)) ->
    map f (insert ltA x l) = insert ltB (f x) (map f l).
  Proof.
    induction l as [|y r IH]; intros H; cbn; [reflexivity|].
    rewrite <- (H y (or_introl eq_refl)). destruct (ltA y x); cbn; [|reflexivity].
    f_equal. apply IH. intros a Ha. apply H. now right.
  Qed.

  Lemma stable_sort_map l :
    (forall a b, In a l -> In b l -> ltA a b = ltB (f a) (f b)) ->
    map f (stable_sort ltA l) = stable_sort ltB (map f l).
  Proof.
    induction l as [|x r IH]; intros H; cbn; [reflexivity|].
    rewrite insert_map.
    - f_equal. apply IH. intros a b Ha Hb. apply H; now right.
    - intros a Ha. apply H; [right|now left].
      apply (Permutation_in a (Permutation_sym (stable_sort_perm ltA r)) Ha).
  Qed.
End MapSort.

Section Stable.
  Context {K D : Type} (lt : K -> K -> bool) (W : strict_weak_order lt).
  Let plt (p q : K * D) := lt (fst p) (fst q).

  Lemma lt_asym a b : lt a b = true -> lt b a = false.
  Proof.
    intros H. destruct (lt b a) eqn:E; [|reflexivity].
    pose proof (swo_trans lt W a b a H E) as X. rewrite (swo_irrefl lt W a) in X. discriminate.
  Qed.

  (* not (b < a) and not (c < b) imply not (c < a) *)
  Lemma ge_trans a b c : lt b a = false -> lt c b = false -> lt c a = false.
  Proof.
    intros H1 H2. destruct (lt c a) eqn:E; [|reflexivity].
    destruct (lt a b) eqn:E1.
    { pose proof (swo_trans lt W c a b E E1) as X. congruence. }
    destruct (lt b c) eqn:E2.
    { pose proof (swo_trans lt W b c a E2 E) as X. congruence. }
    destruct (swo_incomp lt W a b c E1 H1 E2 H2) as [_ X]. congruence.
  Qed.

  Lemma insert_sorted x l :
    StronglySorted (fun p q => plt q p = false) l ->
    StronglySorted (fun p q => plt q p = false) (insert plt x l).
  Proof.
    induction l as [|y r IH]; intros Hs; cbn [insert].
    - constructor; constructor.
    - destruct (plt y x) eqn:E.
      + inversion Hs as [|? ? Hr Hy]; subst. constructor; [apply IH; assumption|].
        apply (Permutation_Forall (insert_perm plt x r)). constructor; [|assumption].
        apply lt_asym, E.
      + constructor; [assumption|]. constructor; [exact E|].
        inversion Hs as [|? ? Hr Hy]; subst.
        eapply Forall_impl; [|exact Hy]. cbn beta. intros q Hq.
        apply (ge_trans (fst x) (fst y) (fst q) E Hq).
  Qed.

  Lemma stable_sort_sorted l : StronglySorted (fun p q => plt q p = false) (stable_sort plt l).
  Proof. induction l as [|x r IH]; cbn; [constructor|]. apply insert_sorted, IH. Qed.

  Lemma insert_filter t x l :
    filter (fun p => same lt t (fst p)) (insert plt x l)
    = filter (fun p => same lt t (fst p)) (x :: l).
  Proof.
    induction l as [|y r IH]; [reflexivity|]. cbn [insert].
    destruct (plt y x) eqn:E; [|reflexivity].
    cbn [filter] in *. rewrite IH.
    destruct (same lt t (fst x)) eqn:Sx, (same lt t (fst y)) eqn:Sy; try reflexivity.
    (* both equivalent to t, yet y < x: impossible *)
    exfalso. unfold same in *. apply andb_prop in Sx, Sy. destruct Sx as [Sx1 Sx2], Sy as [Sy1 Sy2].
    apply negb_true_iff in Sx1, Sx2, Sy1, Sy2.
    destruct (swo_incomp lt W (fst y) t (fst x) Sy2 Sy1 Sx1 Sx2) as [X _].
    unfold plt in E. congruence.
  Qed.

  Lemma stable_sort_filter t l :
    filter (fun p => same lt t (fst p)) (stable_sort plt l) = filter (fun p => same lt t (fst p)) l.
  Proof.
    induction l as [|x r IH]; [reflexivity|]. cbn [stable_sort].
    rewrite insert_filter. cbn [filter]. rewrite IH. reflexivity.
  Qed.

  Lemma stable_sort_spec l : sorted_stably lt l (stable_sort plt l).
  Proof.
    split; [apply stable_sort_sorted|]. split; [intros t; apply stable_sort_filter|].
    apply stable_sort_perm.
  Qed.

  (** Uniqueness: a sorted list is determined by its equivalence classes. *)
  Lemma sorted_unique (l1 : list (K * D)) : forall l2,
    StronglySorted (fun p q => lt (fst q) (fst p) = false) l1 ->
    StronglySorted (fun p q => lt (fst q) (fst p) = false) l2 ->
    (forall t, filter (fun p => same lt t (fst p)) l1 = filter (fun p => same lt t (fst p)) l2) ->
    l1 = l2.
  Proof.
    assert (R : forall a, same lt a a = true).
    { intros a. unfold same. rewrite (swo_irrefl lt W a). reflexivity. }
    induction l1 as [|x r IH]; intros l2 S1 S2 F.
    - destruct l2 as [|y l2]; [reflexivity|]. specialize (F (fst y)). cbn in F.
      rewrite R in F. discriminate.
    - destruct l2 as [|y l2].
      { specialize (F (fst x)). cbn in F. rewrite R in F. discriminate. }
      inversion S1 as [|? ? S1r Hx]; subst. inversion S2 as [|? ? S2r Hy]; subst.
      assert (Sxy : same lt (fst x) (fst y) = true).
      { destruct (same lt (fst x) (fst y)) eqn:E; [reflexivity|exfalso].
        (* the first element equivalent to x in l2 is later: x's class is in l2, so lt x y = false;
           symmetric for y *)
        pose proof (F (fst x)) as Fx. cbn [filter] in Fx. rewrite R, E in Fx.
        assert (Ix : In x (filter (fun p => same lt (fst x) (fst p)) l2)) by (rewrite <- Fx; now left).
        apply filter_In in Ix. destruct Ix as [Ix _].
        rewrite Forall_forall in Hy. pose proof (Hy x Ix) as L1. cbn in L1.
        assert (E' : same lt (fst y) (fst x) = false).
        { unfold same in *. rewrite andb_comm. exact E. }
        pose proof (F (fst y)) as Fy. cbn [filter] in Fy. rewrite R, E' in Fy.
        assert (Iy : In y (filter (fun p => same lt (fst y) (fst p)) r)) by (rewrite Fy; now left).
        apply filter_In in Iy. destruct Iy as [Iy _].
        rewrite Forall_forall in Hx. pose proof (Hx y Iy) as L2. cbn in L2.
        unfold same in E. rewrite L1, L2 in E. discriminate. }
      pose proof (F (fst x)) as Fx. cbn [filter] in Fx. rewrite R, Sxy in Fx.
      injection Fx as Exy _. subst y. f_equal. apply IH; auto.
      intros t. specialize (F t). cbn [filter] in F.
      destruct (same lt t (fst x)); [injection F as F; exact F | exact F].
  Qed.

  Lemma stable_sort_unique l out : sorted_stably lt l out -> out = stable_sort plt l.
  Proof.
    intros (S & F & _). apply sorted_unique.
    - exact S.
    - apply stable_sort_sorted.
    - intros t. rewrite F, stable_sort_filter. reflexivity.
  Qed.

  Lemma stable_sort_sorted_id l :
    StronglySorted (fun p q => lt (fst q) (fst p) = false) l -> stable_sort plt l = l.
  Proof.
    intros S. symmetry. apply stable_sort_unique. split; [exact S|]. split; [reflexivity|reflexivity].
  Qed.

  (** ** sortDataWithTag = stable sort of the pairs *)

  Lemma sortDataWithTag_pairs (tags : list K) (data : list D) : length tags = length data ->
    sortDataWithTag lt tags data
    = Done (map fst (stable_sort plt (combine tags data)),
            map snd (stable_sort plt (combine tags data))).
  Proof.
    intros HL. unfold sortDataWithTag. rewrite (proj2 (Nat.eqb_eq _ _) HL).
    destruct tags as [|t0 tags0] eqn:Et.
    { destruct data; [reflexivity | discriminate]. }
    destruct data as [|d0 data0] eqn:Ed; [discriminate|].
    rewrite <- Et, <- Ed in *. clear Et Ed tags0 data0.
    set (idx := stable_sort (index_lt lt tags) (seq 0 (length tags))).
    assert (Hidx : forall i, In i idx -> i < length tags).
    { intros i Hi. apply (Permutation_in i (Permutation_sym (stable_sort_perm _ _))) in Hi.
      apply in_seq in Hi. lia. }
    rewrite (omap_pure (mread tags) (fun i => nth i tags t0)).
    2:{ intros i Hi. unfold mread. rewrite (nth_error_nth' tags t0) by auto. reflexivity. }
    rewrite (omap_pure (mread data) (fun i => nth i data d0)).
    2:{ intros i Hi. unfold mread. rewrite (nth_error_nth' data d0) by (rewrite <- HL; auto). reflexivity. }
    cbn [obind].
    assert (M : map (fun i => (nth i tags t0, nth i data d0)) idx
                = stable_sort plt (combine tags data)).
    { unfold idx. rewrite (stable_sort_map (index_lt lt tags) plt).
      - f_equal. transitivity (map (fun i => nth i (combine tags data) (t0, d0)) (seq 0 (length (combine tags data)))).
        + rewrite combine_length, <- HL, Nat.min_id.
          apply map_ext. intros i. rewrite combine_nth by assumption. reflexivity.
        + apply nth_seq_id.
      - intros a b Ha Hb. apply in_seq in Ha, Hb. unfold index_lt, plt. cbn [fst].
        rewrite (nth_error_nth' tags t0) by lia. rewrite (nth_error_nth' tags t0) by lia. reflexivity. }
    rewrite <- M, !map_map. cbn [fst snd]. reflexivity.
  Qed.

  Lemma sortDataWithTag_spec (tags : list K) (data : list D) : length tags = length data ->
    exists tags' data', sortDataWithTag lt tags data = Done (tags', data') /\
      length tags' = length data' /\
      sorted_stably lt (combine tags data) (combine tags' data').
  Proof.
    intros HL. rewrite sortDataWithTag_pairs by assumption.
    eexists _, _. split; [reflexivity|]. split; [now rewrite !map_length|].
    rewrite combine_fst_snd. apply stable_sort_spec.
  Qed.

  Lemma sortDataWithTag_complete (tags : list K) (data : list D) tags' data' :
    length tags = length data -> length tags' = length data' ->
    sorted_stably lt (combine tags data) (combine tags' data') ->
    sortDataWithTag lt tags data = Done (tags', data').
  Proof.
    intros HL HL' S. rewrite sortDataWithTag_pairs by assumption.
    apply stable_sort_unique in S. fold plt in S. rewrite <- S.
    rewrite combine_fst, combine_snd by assumption. reflexivity.
  Qed.

  Lemma sortDataWithTag_idem (tags : list K) (data : list D) tags' data' :
    sortDataWithTag lt tags data = Done (tags', data') ->
    sortDataWithTag lt tags' data' = Done (tags', data').
  Proof.
    intros H. assert (HL : length tags = length data).
    { unfold sortDataWithTag in H. destruct (Nat.eqb_spec (length tags) (length data)); [assumption|discriminate]. }
    rewrite sortDataWithTag_pairs in H by assumption. injection H as <- <-.
    rewrite sortDataWithTag_pairs by now rewrite !map_length.
    rewrite combine_fst_snd.
    rewrite stable_sort_sorted_id by apply stable_sort_sorted. reflexivity.
  Qed.
End Stable.
