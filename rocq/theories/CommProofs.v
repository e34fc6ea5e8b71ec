(** Proofs about CommModel. *)
From Coq Require Import List Arith ZArith Lia Permutation Sorted Bool.
From Verif Require Import Outcome ListUtil MPIModel MPIProofs SortModel SortSpec SortProofs
  CommModel CommSpec.
Import ListNotations.

Lemma Zltb_swo : strict_weak_order Z.ltb.
Proof. split; intros; rewrite ?Z.ltb_lt, ?Z.ltb_ge in *; lia. Qed.

Lemma same_Z a b : same Z.ltb a b = (b =? a)%Z.
Proof. unfold same. destruct (Z.ltb_spec a b), (Z.ltb_spec b a), (Z.eqb_spec b a); cbn; try reflexivity; lia. Qed.

Lemma filter_concat {A} (f : A -> bool) ls : filter f (concat ls) = concat (map (filter f) ls).
Proof. induction ls as [|a r IH]; cbn; [reflexivity|]. rewrite filter_app, IH. reflexivity. Qed.

Lemma filter_filter {A} (f g : A -> bool) l : filter f (filter g l) = filter (fun a => g a && f a) l.
Proof.
  induction l as [|a r IH]; cbn; [reflexivity|].
  destruct (g a); cbn; [destruct (f a)|]; rewrite IH; reflexivity.
Qed.

Lemma concat_single {A} (X : list A) k n :
  concat (map (fun r => if r =? k then X else []) (seq 0 n)) = if k <? n then X else [].
Proof.
  assert (G : forall s m, concat (map (fun r => if r =? k then X else []) (seq s m))
              = if (s <=? k) && (k <? s + m) then X else []).
  { intros s m. revert s. induction m as [|m IH]; intros s.
    - destruct (Nat.leb_spec s k), (Nat.ltb_spec k (s + 0)); try reflexivity; lia.
    - cbn [seq map concat]. rewrite IH.
      destruct (Nat.eqb_spec s k), (Nat.leb_spec (S s) k), (Nat.ltb_spec k (S s + m)),
        (Nat.leb_spec s k), (Nat.ltb_spec k (s + S m)); cbn; try reflexivity; try lia;
        try apply app_nil_r. }
  apply G.
Qed.

Section Buckets.
  Context {D : Type}.
  Definition bucket (r : nat) (l : list (Z * D)) : list (Z * D) :=
    filter (fun p => Z.eqb (fst p) (Z.of_nat r)) l.

  Lemma StronglySorted_app {A} (R : A -> A -> Prop) l1 l2 :
    StronglySorted R l1 -> StronglySorted R l2 ->
    (forall a b, In a l1 -> In b l2 -> R a b) -> StronglySorted R (l1 ++ l2).
  Proof.
    induction 1 as [|a l1 S1 IH Ha]; intros S2 H; cbn; [assumption|].
    constructor.
    - apply IH; [assumption|]. intros x y Hx Hy. apply H; [now right|assumption].
    - apply Forall_app. split; [assumption|]. apply Forall_forall. intros b Hb. apply H; [now left|assumption].
  Qed.

  Lemma buckets_sorted (l : list (Z * D)) s m :
    StronglySorted (fun p q => Z.ltb (fst q) (fst p) = false) (concat (map (fun r => bucket r l) (seq s m))).
  Proof.
    revert s. induction m as [|m IH]; intros s; cbn [seq map concat]; [constructor|].
    apply StronglySorted_app; [|apply IH|].
    - assert (G : forall l', Forall (fun p : Z * D => fst p = Z.of_nat s) l' ->
                StronglySorted (fun p q => Z.ltb (fst q) (fst p) = false) l').
      { induction 1 as [|a r Ha Hr IHr]; constructor; [assumption|].
        eapply Forall_impl; [|exact Hr]. cbn. intros q Hq. rewrite Hq, Ha. apply Z.ltb_irrefl. }
      apply G, Forall_forall. intros p Hp. apply filter_In in Hp. destruct Hp as [_ Hp].
      apply Z.eqb_eq, Hp.
    - intros p q Hp Hq. apply filter_In in Hp. destruct Hp as [_ Hp]. apply Z.eqb_eq in Hp.
      apply in_concat in Hq. destruct Hq as (b & Hb & Hq). apply in_map_iff in Hb.
      destruct Hb as (k & <- & Hk). apply in_seq in Hk. apply filter_In in Hq.
      destruct Hq as [_ Hq]. apply Z.eqb_eq in Hq. apply Z.ltb_ge. lia.
  Qed.

  (** the stable sort by destination is the concatenation of the buckets *)
  Lemma stable_sort_buckets n (l : list (Z * D)) :
    Forall (fun p => (0 <= fst p < Z.of_nat n)%Z) l ->
    stable_sort (fun p q => Z.ltb (fst p) (fst q)) l = concat (map (fun r => bucket r l) (seq 0 n)).
  Proof.
    intros HA. symmetry. apply (stable_sort_unique Z.ltb Zltb_swo). split; [apply buckets_sorted|].
    split.
    - intros t. rewrite filter_concat, map_map.
      assert (E : map (fun r => filter (fun p => same Z.ltb t (fst p)) (bucket r l)) (seq 0 n)
                  = map (fun r => if r =? Z.to_nat t then filter (fun p => same Z.ltb t (fst p)) l else [])
                        (seq 0 n)).
      { apply map_ext_in. intros r Hr. unfold bucket. rewrite filter_filter.
        destruct (Nat.eqb_spec r (Z.to_nat t)) as [E|E].
        - apply filter_ext_in. intros p Hp. rewrite Forall_forall in HA. specialize (HA p Hp).
          rewrite same_Z. destruct (Z.eqb_spec (fst p) t) as [Et|Et]; [|apply andb_false_r].
          rewrite andb_true_r. apply Z.eqb_eq. lia.
        - apply filter_none. intros p Hp. rewrite Forall_forall in HA. specialize (HA p Hp).
          rewrite same_Z. destruct (Z.eqb_spec (fst p) t) as [Et|Et]; [|apply andb_false_r].
          rewrite andb_true_r. apply Z.eqb_neq. lia. }
      rewrite E, concat_single. destruct (Nat.ltb_spec (Z.to_nat t) n) as [L|L]; [reflexivity|].
      symmetry. apply filter_none. intros p Hp. rewrite Forall_forall in HA. specialize (HA p Hp).
      rewrite same_Z. apply Z.eqb_neq. lia.
    - symmetry. etransitivity; [|apply (bucket_permutation (fun p => Z.to_nat (fst p)) n l)].
      2:{ intros p Hp. rewrite Forall_forall in HA. specialize (HA p Hp). lia. }
      erewrite map_ext_in; [reflexivity|]. intros r Hr. apply filter_ext_in. intros p Hp.
      rewrite Forall_forall in HA. specialize (HA p Hp). cbn beta.
      destruct (Z.eqb_spec (fst p) (Z.of_nat r)), (Nat.eqb_spec (Z.to_nat (fst p)) r); try reflexivity; lia.
  Qed.
End Buckets.

Lemma mwrite_map_seq {A} (f : nat -> A) n k v : k < n ->
  mwrite (map f (seq 0 n)) k v = Done (map (fun i => if i =? k then v else f i) (seq 0 n)).
Proof.
  intros Hk.
  assert (E : seq 0 n = seq 0 k ++ k :: seq (S k) (n - S k)).
  { replace n with (k + S (n - S k)) at 1 by lia. rewrite seq_app. reflexivity. }
  rewrite E, !map_app. cbn [map].
  unfold mwrite. rewrite app_length, map_length, seq_length. cbn [length].
  destruct (Nat.ltb_spec k (k + S (length (map f (seq (S k) (n - S k)))))); [|lia].
  f_equal. rewrite firstn_app, map_length, seq_length, Nat.sub_diag. cbn [firstn].
  rewrite app_nil_r, firstn_all2 by (rewrite map_length, seq_length; lia).
  rewrite skipn_app, map_length, seq_length.
  rewrite skipn_all2 by (rewrite map_length, seq_length; lia).
  replace (S k - k) with 1 by lia. cbn [skipn app]. rewrite Nat.eqb_refl.
  f_equal; [|f_equal].
  - apply map_ext_in. intros i Hi. apply in_seq in Hi. destruct (Nat.eqb_spec i k); [lia|reflexivity].
  - apply map_ext_in. intros i Hi. apply in_seq in Hi. destruct (Nat.eqb_spec i k); [lia|reflexivity].
Qed.

Lemma repeat_map_seq {A} (v : A) n s : repeat v n = map (fun _ => v) (seq s n).
Proof. revert s. induction n as [|n IH]; intros s; cbn; [reflexivity|]. f_equal. apply IH. Qed.

Lemma countDest_spec n dests : Forall (fun d => (0 <= d < Z.of_nat n)%Z) dests ->
  countDest n dests = Done (map (fun r => length (filter (fun d => Z.eqb d (Z.of_nat r)) dests)) (seq 0 n)).
Proof.
  intros HA. unfold countDest. rewrite (repeat_map_seq 0 n 0).
  assert (G : forall c, ofold (fun counts d =>
    if (0 <=? d)%Z && (d <? Z.of_nat n)%Z then
      do c <- mread counts (Z.to_nat d);
      mwrite counts (Z.to_nat d) (S c)
    else UB) dests (map c (seq 0 n))
    = Done (map (fun r => c r + length (filter (fun d => Z.eqb d (Z.of_nat r)) dests)) (seq 0 n))).
  { induction HA as [|d ds Hd HA IH]; intros c; cbn [ofold].
    - f_equal. apply map_ext. intros r. cbn. lia.
    - destruct (Z.leb_spec 0 d), (Z.ltb_spec d (Z.of_nat n)); try lia. cbn [andb].
      rewrite mread_map_seq by lia. cbn [obind].
      rewrite mwrite_map_seq by lia. cbn [obind]. rewrite IH. f_equal.
      apply map_ext. intros r. cbn [filter].
      destruct (Nat.eqb_spec r (Z.to_nat d)) as [E|E], (Z.eqb_spec d (Z.of_nat r)) as [E'|E'];
        cbn [length]; try subst r; lia. }
  apply G.
Qed.

Lemma vresize_length {A} (d : A) l n : length (vresize d l n) = n.
Proof. unfold vresize. rewrite app_length, firstn_length, repeat_length. lia. Qed.

Lemma fillSrc_spec n (cnt : nat -> nat) src :
  length src = sum_list (map cnt (seq 0 n)) ->
  fillSrc n (psum (map cnt (seq 0 n))) src
  = Done (concat (map (fun s => repeat (Z.of_nat s) (cnt s)) (seq 0 n))).
Proof.
  intros HL. unfold fillSrc.
  set (bs := map (fun s => repeat (Z.of_nat s) (cnt s)) (seq 0 n)).
  assert (ML : map (@length Z) bs = map cnt (seq 0 n)).
  { unfold bs. rewrite map_map. apply map_ext. intros s. apply repeat_length. }
  pose proof (place_blocks [] bs src) as PB. rewrite ML in PB. specialize (PB HL).
  cbn [app] in PB. rewrite <- PB.
  assert (Lb : length bs = n) by (unfold bs; rewrite map_length, seq_length; reflexivity).
  rewrite Lb. apply ofold_ext_in. intros i buf Hi. apply in_seq in Hi.
  rewrite !mread_psum by (rewrite map_length, seq_length; lia). cbn [obind].
  unfold bs at 1. rewrite mread_map_seq by lia. cbn [obind].
  rewrite mread_map_seq by lia. cbn [obind].
  unfold mread at 1. rewrite nth_error_map, psum_nth by (rewrite map_length, seq_length; lia).
  cbn [option_map obind length Nat.add].
  rewrite repeat_length, Nat.eqb_refl.
  rewrite (sum_firstn_S _ i (cnt i)) by (apply nth_error_map_seq; lia).
  replace (sum_list (firstn i (map cnt (seq 0 n))) + cnt i - sum_list (firstn i (map cnt (seq 0 n))))
    with (cnt i) by lia.
  reflexivity.
Qed.

Section Exchange.
  Context {D : Type} (dflt : D).


  Notation plt := (fun p q : Z * D => Z.ltb (fst p) (fst q)).

  Lemma addressed_bucket r (l : list (Z * D)) : addressed_to r l = map snd (bucket r l).
  Proof. reflexivity. Qed.

  Lemma exchange_spec args :
    xsizes_ok args -> well_addressed (map xitems args) ->
    exchangeAllToAllV dflt args
    = Done (map (fun s => let a := nth s args (Build_xarg [] [] [] []) in
        Build_xres (map fst (stable_sort plt (xitems a))) (map snd (stable_sort plt (xitems a)))
          (map fst (delivery (map xitems args) s)) (map snd (delivery (map xitems args) s)))
        (seq 0 (length args))).
  Proof.
    intros HS HW. unfold exchangeAllToAllV. set (n := length args).
    set (d0 := Build_xarg (@nil Z) (@nil D) [] []).
    set (a := fun s => nth s args d0).
    assert (EA : args = map a (seq 0 n)) by apply map_seq_nth.
    set (P := fun s => stable_sort plt (xitems (a s))).
    assert (Hin : forall s, s < n -> In (a s) args) by (intros s Hs; apply nth_In, Hs).
    assert (HA : forall s, s < n -> Forall (fun p => (0 <= fst p < Z.of_nat n)%Z) (xitems (a s))).
    { intros s Hs. unfold well_addressed in HW. rewrite map_length in HW.
      rewrite Forall_map, Forall_forall in HW. apply HW, Hin, Hs. }
    assert (HL : forall s, s < n -> length (xa_dest (a s)) = length (xa_send (a s))).
    { intros s Hs. unfold xsizes_ok in HS. rewrite Forall_forall in HS. apply HS, Hin, Hs. }
    set (B := fun s r => map snd (bucket r (xitems (a s)))).
    (* step 1 *)
    assert (E1 : omap (fun a => sortDataWithTag Z.ltb (xa_dest a) (xa_send a)) args
                 = Done (map (fun s => (map fst (P s), map snd (P s))) (seq 0 n))).
    { rewrite EA at 1. rewrite omap_map. apply omap_pure. intros s Hs. apply in_seq in Hs.
      apply sortDataWithTag_pairs, HL. lia. }
    rewrite E1. cbn [obind].
    assert (EP : forall s, s < n -> P s = concat (map (fun r => bucket r (xitems (a s))) (seq 0 n))).
    { intros s Hs. apply stable_sort_buckets, HA, Hs. }
    assert (ES : forall s, s < n -> map snd (P s) = sendrow B n s).
    { intros s Hs. rewrite EP by assumption. rewrite concat_map, map_map. reflexivity. }
    (* counts *)
    assert (E2 : omap (fun p : list Z * list D => countDest n (fst p))
                   (map (fun s => (map fst (P s), map snd (P s))) (seq 0 n))
                 = Done (map (cnts B n) (seq 0 n))).
    { rewrite omap_map. apply omap_pure. intros s Hs. apply in_seq in Hs. cbn [fst].
      assert (PP : Permutation (map fst (xitems (a s))) (map fst (P s)))
        by apply Permutation_map, stable_sort_perm.
      rewrite countDest_spec.
      - unfold cnts. f_equal. apply map_ext. intros r. unfold B. rewrite map_length.
        transitivity (length (filter (fun d => (d =? Z.of_nat r)%Z) (map fst (xitems (a s))))).
        + symmetry. clear -PP. revert PP. generalize (map fst (xitems (a s))) as l1. generalize (map fst (P s)) as l2.
          intros l2 l1 PP. induction PP; cbn; auto.
          * destruct (x =? Z.of_nat r)%Z; cbn; congruence.
          * destruct (x =? Z.of_nat r)%Z, (y =? Z.of_nat r)%Z; reflexivity.
          * congruence.
        + unfold bucket. generalize (xitems (a s)) as l. induction l as [|p l IH]; cbn; [reflexivity|].
          destruct (fst p =? Z.of_nat r)%Z; cbn; congruence.
      - apply (Permutation_Forall PP). apply Forall_map, HA. lia. }
    rewrite E2. cbn [obind]. rewrite alltoall_counts. cbn [obind].
    rewrite !map_map.
    assert (ET : map (fun x => last (psum (rcnts B n x)) 0) (seq 0 n)
                 = map (fun x => length (recvcol B n x)) (seq 0 n)).
    { apply map_ext. intros x. rewrite psum_last. apply rcnts_sum. }
    rewrite ET.
    assert (EC : combine args (map (fun x => length (recvcol B n x)) (seq 0 n))
                 = map (fun s => (a s, length (recvcol B n s))) (seq 0 n)).
    { rewrite EA at 1. apply combine_map_same. }
    rewrite EC. rewrite !map_map. cbn [fst snd].
    rewrite !combine_map_same, !map_map. cbn [fst snd].
    assert (EB : map (fun x => Build_vbuf (map snd (P x)) (cnts B n x) (psum (cnts B n x))) (seq 0 n)
                 = map (fun x => Build_vbuf (sendrow B n x) (cnts B n x) (psum (cnts B n x))) (seq 0 n)).
    { apply map_ext_in. intros s Hs. apply in_seq in Hs. rewrite ES by lia. reflexivity. }
    rewrite EB.
    pose proof (alltoallv_blocks B n (fun s => psum (cnts B n s)) (fun r => psum (rcnts B n r))
      (fun _ => []) (fun r => vresize dflt (xa_recv0 (a r)) (length (recvcol B n r)))) as AV.
    cbn [app] in AV. rewrite AV; clear AV.
    2:{ reflexivity. }
    2:{ intros r i Hr Hi. cbn [length]. change (Nat.add 0) with (fun x : nat => x). rewrite map_id. reflexivity. }
    2:{ intros r Hr. apply vresize_length. }
    cbn [obind].
    rewrite omap_map. cbn [fst snd].
    rewrite (omap_pure _ (fun r => concat (map (fun s => repeat (Z.of_nat s) (length (B s r))) (seq 0 n)))).
    2:{ intros r Hr. apply fillSrc_spec. rewrite vresize_length. symmetry. apply rcnts_sum. }
    cbn [obind]. f_equal. rewrite !combine_map_same, map_map. cbn [fst snd].
    apply map_ext. intros r. fold (a r). fold (P r).
    assert (DL : delivery (map xitems args) r
                 = concat (map (fun s => map (fun d => (Z.of_nat s, d)) (B s r)) (seq 0 n))).
    { unfold delivery. rewrite map_length. fold n. f_equal. apply map_ext. intros s.
      rewrite addressed_bucket. unfold B, a. change (@nil (Z * D)) with (xitems d0). rewrite map_nth. reflexivity. }
    rewrite DL. cbv zeta. f_equal.
    - rewrite concat_map, map_map. f_equal. apply map_ext. intros s. rewrite map_map. cbn [fst].
      generalize (B s r) as l. induction l as [|x l IH]; cbn; congruence.
    - unfold recvcol. rewrite concat_map, map_map. f_equal. apply map_ext. intros s.
      rewrite map_map. cbn [snd]. symmetry. apply map_id.
  Qed.

  (** Sending everything back *)
  Lemma delivery_length (items : list (list (Z * D))) r :
    Forall (fun p => (0 <= fst p < Z.of_nat (length items))%Z) (delivery items r).
  Proof.
    apply Forall_forall. intros p Hp. apply in_concat in Hp. destruct Hp as (b & Hb & Hp).
    apply in_map_iff in Hb. destruct Hb as (s & <- & Hs). apply in_seq in Hs.
    apply in_map_iff in Hp. destruct Hp as (d & <- & _). cbn. lia.
  Qed.

  Lemma bucket_delivery (items : list (list (Z * D))) r s :
    s < length items ->
    bucket s (delivery items r) = map (fun d => (Z.of_nat s, d)) (addressed_to r (nth s items [])).
  Proof.
    intros Hs. unfold bucket, delivery. rewrite filter_concat, map_map.
    rewrite (map_ext _ (fun k => if k =? s then map (fun d => (Z.of_nat s, d)) (addressed_to r (nth s items [])) else [])).
    - rewrite concat_single. destruct (Nat.ltb_spec s (length items)); [reflexivity|lia].
    - intros k. destruct (Nat.eqb_spec k s) as [->|E].
      + apply filter_all. intros p Hp. apply in_map_iff in Hp. destruct Hp as (d & <- & _). apply Z.eqb_refl.
      + apply filter_none. intros p Hp. apply in_map_iff in Hp. destruct Hp as (d & <- & _).
        cbn. apply Z.eqb_neq. lia.
  Qed.

  Lemma delivery_back (items : list (list (Z * D))) s :
    well_addressed items -> s < length items ->
    delivery (map (fun r => delivery items r) (seq 0 (length items))) s
    = stable_sort plt (nth s items []).
  Proof.
    intros HW Hs. unfold well_addressed in HW.
    rewrite (stable_sort_buckets (length items)).
    2:{ rewrite Forall_forall in HW. apply HW, nth_In, Hs. }
    unfold delivery at 1. rewrite map_length, seq_length. f_equal.
    apply map_ext_in. intros r Hr. apply in_seq in Hr.
    rewrite addressed_bucket.
    assert (E : nth r (map (fun r0 => delivery items r0) (seq 0 (length items))) [] = delivery items r).
    { apply nth_error_nth. apply nth_error_map_seq. lia. }
    rewrite E, bucket_delivery by assumption.
    assert (E2 : map snd (map (fun d : D => (Z.of_nat s, d)) (addressed_to r (nth s items [])))
                 = addressed_to r (nth s items [])).
    { rewrite map_map. cbn [snd]. apply map_id. }
    rewrite E2.
    unfold addressed_to, bucket. rewrite map_map.
    generalize (nth s items []) as l. induction l as [|[z d] l IH]; cbn [filter]; [reflexivity|].
    cbn [fst]. destruct (Z.eqb_spec z (Z.of_nat r)) as [->|E']; cbn [map snd]; [f_equal|]; exact IH.
  Qed.

  Lemma exchange_back args old res :
    xsizes_ok args -> well_addressed (map xitems args) -> length old = length args ->
    exchangeAllToAllV dflt args = Done res ->
    exists res', exchangeAllToAllV dflt (reply res old) = Done res' /\
      map xr_src res' = map xr_dest res /\ map xr_recv res' = map xr_send res /\
      map xr_dest res' = map xr_src res /\ map xr_send res' = map xr_recv res.
  Proof.
    intros HS HW HO HE. rewrite exchange_spec in HE by assumption.
    set (n := length args) in *. set (items := map xitems args) in *.
    assert (En : length items = n) by (unfold items; rewrite map_length; reflexivity).
    assert (ER : res = map (fun s => let a := nth s args (Build_xarg [] [] [] []) in
        Build_xres (map fst (stable_sort plt (xitems a))) (map snd (stable_sort plt (xitems a)))
          (map fst (delivery items s)) (map snd (delivery items s))) (seq 0 n)) by congruence.
    clear HE. cbv zeta in ER.
    set (o := fun s => nth s old ([], [])).
    assert (EO : old = map o (seq 0 n)) by (rewrite <- HO; apply map_seq_nth).
    assert (EI : map xitems (reply res old) = map (fun r => delivery items r) (seq 0 n)).
    { unfold reply. rewrite EO, ER, combine_map_same, !map_map. apply map_ext. intros r.
      unfold xitems. cbn [fst snd xa_dest xa_send xr_src xr_recv]. apply combine_fst_snd. }
    assert (LR : length (reply res old) = n).
    { unfold reply. rewrite map_length, combine_length, EO, ER, !map_length, seq_length. lia. }
    rewrite exchange_spec.
    - eexists. split; [reflexivity|]. rewrite EI, LR. cbv zeta.
      assert (NR : forall s, s < n -> xitems (nth s (reply res old) (Build_xarg [] [] [] [])) = delivery items s).
      { intros s Hs. change (@nil (Z * D)) with (xitems (D:=D) (Build_xarg [] [] [] [])).
        rewrite <- (map_nth xitems). rewrite EI. change (xitems (D:=D) (Build_xarg [] [] [] [])) with (@nil (Z * D)).
        apply nth_error_nth, nth_error_map_seq, Hs. }
      assert (NA : forall s, s < n -> nth s items [] = xitems (nth s args (Build_xarg [] [] [] []))).
      { intros s Hs. unfold items. change (@nil (Z * D)) with (xitems (D:=D) (Build_xarg [] [] [] [])) at 1. apply map_nth. }
      assert (SD : forall s, s < n -> stable_sort plt (delivery items s) = delivery items s).
      { intros s Hs. rewrite (stable_sort_buckets n) by (rewrite <- En; apply delivery_length).
        unfold delivery at 2. rewrite En. f_equal. apply map_ext_in. intros k Hk. apply in_seq in Hk.
        apply bucket_delivery. lia. }
      rewrite ER in NR |- *. rewrite !map_map. cbn [xr_src xr_dest xr_send xr_recv].
      repeat split; apply map_ext_in; intros s Hs; apply in_seq in Hs.
      + rewrite <- En. rewrite delivery_back by (assumption || lia). rewrite NA by lia. reflexivity.
      + rewrite <- En. rewrite delivery_back by (assumption || lia). rewrite NA by lia. reflexivity.
      + rewrite NR, SD by lia. reflexivity.
      + rewrite NR, SD by lia. reflexivity.
    - unfold xsizes_ok, reply. rewrite EO, ER, combine_map_same, map_map, Forall_map.
      apply Forall_forall. intros s _. cbn. rewrite !map_length. reflexivity.
    - unfold well_addressed. rewrite EI, map_length, seq_length, Forall_map. apply Forall_forall.
      intros s _. rewrite <- En. apply delivery_length.
  Qed.

  (** everything is delivered: the multiset of (destination, source, datum) *)
  Lemma Permutation_concat_swap {A} (f : nat -> nat -> list A) m n :
    Permutation (concat (map (fun r => concat (map (fun s => f s r) (seq 0 m))) (seq 0 n)))
                (concat (map (fun s => concat (map (fun r => f s r) (seq 0 n))) (seq 0 m))).
  Proof.
    assert (G : forall k, Permutation
      (concat (map (fun r => concat (map (fun s => f s r) (seq k m))) (seq 0 n)))
      (concat (map (fun s => concat (map (fun r => f s r) (seq 0 n))) (seq k m)))).
    { induction m as [|m IH]; intros k.
      - cbn [seq map concat]. rewrite concat_map_nil by reflexivity. reflexivity.
      - cbn [seq map concat]. rewrite <- IH. generalize (seq 0 n) as l.
        induction l as [|r l IHl]; cbn [map concat]; [reflexivity|].
        rewrite IHl. rewrite <- !app_assoc. apply Permutation_app_head.
        rewrite !app_assoc. apply Permutation_app_tail. apply Permutation_app_comm. }
    apply G.
  Qed.

  Lemma concat_map_cons_map {A B} (g : A -> B) ls : map g (concat ls) = concat (map (map g) ls).
  Proof. apply concat_map. Qed.

  Lemma delivery_conserves (items : list (list (Z * D))) :
    well_addressed items ->
    Permutation
      (concat (map (fun r => map (fun p => (Z.of_nat r, fst p, snd p)) (delivery items r))
                   (seq 0 (length items))))
      (concat (map (fun s => map (fun p => (fst p, Z.of_nat s, snd p)) (nth s items []))
                   (seq 0 (length items)))).
  Proof.
    intros HW. set (n := length items).
    transitivity (concat (map (fun r => concat (map (fun s =>
       map (fun d => (Z.of_nat r, Z.of_nat s, d)) (addressed_to r (nth s items []))) (seq 0 n))) (seq 0 n))).
    { erewrite map_ext; [reflexivity|]. intros r. unfold delivery. rewrite concat_map, map_map. fold n.
      f_equal. apply map_ext. intros s. rewrite map_map. reflexivity. }
    rewrite Permutation_concat_swap.
    assert (G : forall l, (forall s, In s l -> s < n) -> Permutation
      (concat (map (fun s => concat (map (fun r => map (fun d => (Z.of_nat r, Z.of_nat s, d))
         (addressed_to r (nth s items []))) (seq 0 n))) l))
      (concat (map (fun s => map (fun p => (fst p, Z.of_nat s, snd p)) (nth s items [])) l))).
    { induction l as [|s l IH]; intros Hl; cbn [map concat]; [reflexivity|].
      apply Permutation_app; [|apply IH; intros k Hk; apply Hl; now right].
      assert (Hs : s < n) by (apply Hl; now left).
      assert (HA : Forall (fun p => (0 <= fst p < Z.of_nat n)%Z) (nth s items [])).
      { unfold well_addressed in HW. rewrite Forall_forall in HW. apply HW, nth_In, Hs. }
      etransitivity; [|apply Permutation_map, Permutation_sym, (stable_sort_perm plt (nth s items []))].
      rewrite (stable_sort_buckets n) by assumption.
      rewrite concat_map, map_map. erewrite map_ext; [reflexivity|]. intros r. cbn beta.
      unfold addressed_to, bucket. rewrite map_map.
      generalize (nth s items []) as q. induction q as [|[z d] q IHq]; cbn [filter fst]; [reflexivity|].
      destruct (Z.eqb_spec z (Z.of_nat r)) as [->|E']; cbn [map fst snd]; [f_equal|]; exact IHq. }
    apply G. intros s Hs. apply in_seq in Hs. lia.
  Qed.
End Exchange.
