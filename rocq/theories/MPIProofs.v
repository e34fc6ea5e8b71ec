(** Facts about the MPI collectives of MPIModel. *)
From Coq Require Import List Arith Lia Permutation.
From Verif Require Import Outcome ListUtil MPIModel.
Import ListNotations.

Lemma combine_map_same {A B C} (f : A -> B) (g : A -> C) l :
  combine (map f l) (map g l) = map (fun x => (f x, g x)) l.
Proof. induction l as [|a r IH]; cbn; [reflexivity|]. f_equal. exact IH. Qed.

Lemma omap_map {A B C} (f : B -> outcome C) (g : A -> B) l :
  omap f (map g l) = omap (fun a => f (g a)) l.
Proof. induction l as [|a r IH]; cbn; [reflexivity|]. rewrite IH. reflexivity. Qed.

Lemma omap_ext_in {A B} (f g : A -> outcome B) l :
  (forall a, In a l -> f a = g a) -> omap f l = omap g l.
Proof.
  induction l as [|a r IH]; intros H; [reflexivity|]. cbn [omap].
  rewrite (H a (or_introl eq_refl)), IH; [reflexivity|]. intros b Hb. apply H. now right.
Qed.

Lemma ofold_ext_in {A S} (f g : S -> A -> outcome S) l :
  (forall a s, In a l -> f s a = g s a) -> forall s, ofold f l s = ofold g l s.
Proof.
  induction l as [|a r IH]; intros H s; [reflexivity|]. cbn [ofold].
  rewrite (H a s (or_introl eq_refl)). destruct (g s a); cbn [obind]; auto.
  apply IH. intros b s' Hb. apply H. now right.
Qed.

Lemma ofold_map {A B S} (f : S -> B -> outcome S) (g : A -> B) l s :
  ofold f (map g l) s = ofold (fun s a => f s (g a)) l s.
Proof. revert s. induction l as [|a r IH]; intros s; [reflexivity|]. cbn [map ofold].
  destruct (f s (g a)); cbn [obind]; auto. Qed.

Lemma map_seq_nth {A} (l : list A) (d : A) : l = map (fun i => nth i l d) (seq 0 (length l)).
Proof. symmetry. apply nth_seq_id. Qed.

Lemma nth_error_map_seq {A} (f : nat -> A) n i : i < n -> nth_error (map f (seq 0 n)) i = Some (f i).
Proof. intros H. rewrite nth_error_map, nth_error_seq by assumption. reflexivity. Qed.

Lemma mread_map_seq {A} (f : nat -> A) n i : i < n -> mread (map f (seq 0 n)) i = Done (f i).
Proof. intros H. unfold mread. rewrite nth_error_map_seq by assumption. reflexivity. Qed.

Lemma mread_psum l i : i <= length l -> mread (psum l) i = Done (sum_list (firstn i l)).
Proof. intros H. unfold mread. rewrite psum_nth by assumption. reflexivity. Qed.

Lemma psum_from_last acc l d : last (psum_from acc l) d = acc + sum_list l.
Proof.
  revert acc. induction l as [|a r IH]; intros acc.
  - cbn. lia.
  - cbn [psum_from]. destruct (psum_from (acc + a) r) eqn:E.
    + destruct r; discriminate.
    + change (last (acc :: n :: l) d) with (last (n :: l) d). rewrite <- E, IH, sum_list_cons. lia.
Qed.
Lemma psum_last l d : last (psum l) d = sum_list l.
Proof. unfold psum. rewrite psum_from_last. reflexivity. Qed.

Section Matrix.
  Context {A : Type} (B : nat -> nat -> list A) (n : nat).
  (** [B s r] is the block rank s sends to rank r. *)

  Definition sendrow (s : nat) : list A := concat (map (B s) (seq 0 n)).
  Definition recvcol (r : nat) : list A := concat (map (fun s => B s r) (seq 0 n)).
  Definition cnts (s : nat) : list nat := map (fun r => length (B s r)) (seq 0 n).
  Definition rcnts (r : nat) : list nat := map (fun s => length (B s r)) (seq 0 n).

  Lemma alltoall_counts :
    MPI_Alltoall (map cnts (seq 0 n)) = Done (map rcnts (seq 0 n)).
  Proof.
    unfold MPI_Alltoall. rewrite map_length, seq_length.
    apply omap_pure. intros r Hr. apply in_seq in Hr.
    rewrite omap_map. apply (omap_pure _ (fun s => length (B s r))). intros s Hs. unfold cnts.
    apply (mread_map_seq (fun r => length (B s r))). lia.
  Qed.

  Lemma rcnts_sum r : sum_list (rcnts r) = length (recvcol r).
  Proof. unfold rcnts, recvcol. rewrite concat_length, map_map. reflexivity. Qed.

  Lemma vblock_row s r displs : r < n -> (forall i, i < n -> nth_error displs i = nth_error (psum (cnts s)) i) ->
    vblock (Build_vbuf (sendrow s) (cnts s) displs) r = Done (B s r).
  Proof.
    intros Hr HD. unfold vblock. cbn [vcounts vdispls vdata].
    unfold cnts at 1. rewrite mread_map_seq by assumption. cbn [obind].
    unfold mread. rewrite (HD r Hr), psum_nth by (unfold cnts; rewrite map_length, seq_length; lia).
    cbn [obind].
    assert (E : sum_list (firstn r (cnts s))
                = sum_list (map (@length A) (firstn r (map (B s) (seq 0 n))))).
    { unfold cnts. rewrite !firstn_map, map_map. reflexivity. }
    assert (HB : nth_error (map (B s) (seq 0 n)) r = Some (B s r)) by (apply nth_error_map_seq; assumption).
    rewrite E. pose proof (slice_concat _ _ _ HB) as SL. fold (sendrow s) in SL.
    destruct (Nat.leb_spec (sum_list (map (@length A) (firstn r (map (B s) (seq 0 n)))) + length (B s r))
                           (length (sendrow s))) as [L|L].
    - rewrite SL. reflexivity.
    - exfalso. unfold sendrow in L. rewrite concat_length in L.
      rewrite <- firstn_map in L.
      rewrite <- (sum_firstn_S (map (@length A) (map (B s) (seq 0 n))) r (length (B s r))) in L
        by (rewrite nth_error_map, HB; reflexivity).
      pose proof (sum_firstn_le (map (@length A) (map (B s) (seq 0 n))) (S r)). lia.
  Qed.

  (** receiving n blocks at prefix-sum displacements behind a fixed prefix *)
  Lemma place_blocks (pre : list A) (bs : list (list A)) junk :
    length junk = sum_list (map (@length A) bs) ->
    ofold (fun buf s =>
      do b <- mread bs s;
      do c <- mread (map (@length A) bs) s;
      do d <- mread (map (Nat.add (length pre)) (psum (map (@length A) bs))) s;
      if length b =? c then splice buf d b else UB) (seq 0 (length bs)) (pre ++ junk)
    = Done (pre ++ concat bs).
  Proof.
    intros HJ. rewrite <- (splice_blocks bs pre junk HJ).
    assert (E : combine (psum_from (length pre) (map (@length A) bs)) bs
                = map (fun s => (length pre + sum_list (firstn s (map (@length A) bs)), nth s bs []))
                      (seq 0 (length bs))).
    { apply nth_error_ext. intros i. destruct (Nat.lt_ge_cases i (length bs)) as [L|L].
      - rewrite nth_error_map_seq by assumption.
        assert (X1 : nth_error (psum_from (length pre) (map (@length A) bs)) i
                     = Some (length pre + sum_list (firstn i (map (@length A) bs))))
          by (apply psum_from_nth; rewrite map_length; lia).
        assert (X2 : nth_error bs i = Some (nth i bs [])) by (apply nth_error_nth'; assumption).
        revert X1 X2. generalize (psum_from (length pre) (map (@length A) bs)) as l1.
        generalize (length pre + sum_list (firstn i (map (@length A) bs))) as v.
        generalize (nth i bs []) as w. clear. revert i.
        induction bs as [|b r IH]; intros i w v l1 X1 X2.
        + destruct i; discriminate.
        + destruct l1 as [|x l1]; [destruct i; discriminate|].
          destruct i; cbn in *; [congruence | apply IH; assumption].
      - rewrite (proj2 (nth_error_None _ _)).
        + rewrite (proj2 (nth_error_None _ _)); [reflexivity|]. now rewrite map_length, seq_length.
        + rewrite combine_length, psum_from_length, map_length. lia. }
    rewrite E, ofold_map. apply ofold_ext_in. intros s buf Hs. apply in_seq in Hs.
    cbn [fst snd]. unfold mread.
    rewrite (nth_error_nth' bs []) by lia. cbn [obind].
    rewrite !nth_error_map, (nth_error_nth' bs []) by lia. cbn [option_map obind].
    rewrite psum_nth by (rewrite map_length; lia). cbn [option_map obind].
    rewrite Nat.eqb_refl. reflexivity.
  Qed.

  (** Alltoallv of the rows gives the columns, behind a kept prefix *)
  Lemma alltoallv_blocks (sdispls : nat -> list nat) (rdispls : nat -> list nat)
    (pre junk : nat -> list A) :
    (forall s i, s < n -> i < n -> nth_error (sdispls s) i = nth_error (psum (cnts s)) i) ->
    (forall r i, r < n -> i < n ->
      nth_error (rdispls r) i = nth_error (map (Nat.add (length (pre r))) (psum (rcnts r))) i) ->
    (forall r, r < n -> length (junk r) = length (recvcol r)) ->
    MPI_Alltoallv (map (fun s => Build_vbuf (sendrow s) (cnts s) (sdispls s)) (seq 0 n))
      (map (fun r => Build_vbuf (pre r ++ junk r) (rcnts r) (rdispls r)) (seq 0 n))
    = Done (map (fun r => pre r ++ recvcol r) (seq 0 n)).
  Proof.
    intros HS HR HJ. unfold MPI_Alltoallv. rewrite !map_length, !seq_length.
    apply omap_pure. intros r Hr. apply in_seq in Hr.
    rewrite mread_map_seq by lia. cbn [obind vdata vcounts vdispls].
    pose proof (place_blocks (pre r) (map (fun s => B s r) (seq 0 n)) (junk r)) as PB.
    rewrite map_length, seq_length, map_map in PB.
    fold (rcnts r) in PB. fold (recvcol r) in PB. rewrite <- PB.
    2:{ rewrite HJ by lia. symmetry. apply rcnts_sum. }
    apply ofold_ext_in. intros s buf Hs. apply in_seq in Hs.
    rewrite !mread_map_seq by lia. cbn [obind].
    rewrite vblock_row by (try lia; intros; apply HS; lia). cbn [obind].
    unfold rcnts at 1. rewrite mread_map_seq by lia. cbn [obind].
    unfold rcnts at 1. rewrite mread_map_seq by lia. cbn [obind].
    unfold mread. rewrite HR by lia. reflexivity.
  Qed.
End Matrix.
