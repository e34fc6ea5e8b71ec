(** Generic list facts (no model content). *)
From Coq Require Import List Arith Lia Permutation Bool.
From Verif Require Import Outcome.
Import ListNotations.

(** ** Monadic map *)

Fixpoint omap {A B} (f : A -> outcome B) (l : list A) : outcome (list B) :=
  match l with
  | [] => Done []
  | a :: r => do b <- f a; do bs <- omap f r; Done (b :: bs)
  end.

Lemma omap_pure {A B} (f : A -> outcome B) (g : A -> B) l :
  (forall a, In a l -> f a = Done (g a)) -> omap f l = Done (map g l).
Proof.
  induction l as [|a r IH]; intros H; [reflexivity|]. cbn [omap map].
  rewrite (H a (or_introl eq_refl)). cbn [obind].
  rewrite IH; [reflexivity|]. intros b Hb. apply H. now right.
Qed.

Lemma omap_Done {A B} (f : A -> outcome B) l bs :
  omap f l = Done bs -> Forall2 (fun a b => f a = Done b) l bs.
Proof.
  revert bs. induction l as [|a r IH]; intros bs H; cbn [omap] in H.
  - injection H as <-. constructor.
  - destruct (f a) as [b| |] eqn:E; cbn [obind] in H; try discriminate.
    destruct (omap f r) as [bs'| |] eqn:E'; cbn [obind] in H; try discriminate.
    injection H as <-. constructor; auto.
Qed.

(** Sequential fold in the outcome monad. *)
Fixpoint ofold {A S} (f : S -> A -> outcome S) (l : list A) (s : S) : outcome S :=
  match l with
  | [] => Done s
  | a :: r => do s' <- f s a; ofold f r s'
  end.

Lemma ofold_app {A S} (f : S -> A -> outcome S) l1 l2 s :
  ofold f (l1 ++ l2) s = do s' <- ofold f l1 s; ofold f l2 s'.
Proof.
  revert s. induction l1 as [|a r IH]; intros s; [reflexivity|].
  cbn [app ofold]. destruct (f s a) as [s'| |]; cbn [obind]; auto.
Qed.

(** ** Sums and prefix sums *)

Definition sum_list (l : list nat) : nat := fold_right Nat.add 0 l.

Lemma sum_list_app l1 l2 : sum_list (l1 ++ l2) = sum_list l1 + sum_list l2.
Proof. unfold sum_list. induction l1 as [|a r IH]; cbn; lia. Qed.

Lemma sum_list_cons a l : sum_list (a :: l) = a + sum_list l.
Proof. reflexivity. Qed.

Lemma sum_firstn_le l i : sum_list (firstn i l) <= sum_list l.
Proof.
  rewrite <- (firstn_skipn i l) at 2. rewrite sum_list_app. lia.
Qed.

Lemma sum_firstn_S l i a : nth_error l i = Some a ->
  sum_list (firstn (S i) l) = sum_list (firstn i l) + a.
Proof.
  revert l. induction i as [|i IH]; intros l H.
  - destruct l; [discriminate|]. injection H as ->. cbn. lia.
  - destruct l as [|b l]; [discriminate|]. cbn in H.
    rewrite !firstn_cons, !sum_list_cons, (IH l H). lia.
Qed.

Lemma concat_length {A} (ls : list (list A)) :
  length (concat ls) = sum_list (map (@length A) ls).
Proof. induction ls as [|a r IH]; cbn; [reflexivity|]. rewrite app_length, IH. reflexivity. Qed.

(** prefix sums starting from 0: [0; a0; a0+a1; ...], one longer than the list *)
Fixpoint psum_from (acc : nat) (l : list nat) : list nat :=
  match l with
  | [] => [acc]
  | a :: r => acc :: psum_from (acc + a) r
  end.
Definition psum (l : list nat) : list nat := psum_from 0 l.

Lemma psum_from_length acc l : length (psum_from acc l) = S (length l).
Proof. revert acc. induction l as [|a r IH]; intros acc; cbn; [reflexivity|]. rewrite IH. reflexivity. Qed.

Lemma psum_from_nth acc l i : i <= length l ->
  nth_error (psum_from acc l) i = Some (acc + sum_list (firstn i l)).
Proof.
  revert acc i. induction l as [|a r IH]; intros acc i Hi.
  - destruct i; [|cbn in Hi; lia]. cbn. f_equal. lia.
  - destruct i as [|i]; cbn [psum_from nth_error firstn].
    + f_equal. cbn. lia.
    + rewrite IH by (cbn in Hi; lia). rewrite sum_list_cons. f_equal. lia.
Qed.

Lemma psum_nth l i : i <= length l -> nth_error (psum l) i = Some (sum_list (firstn i l)).
Proof. intros H. unfold psum. rewrite psum_from_nth by assumption. reflexivity. Qed.

Lemma psum_length l : length (psum l) = S (length l).
Proof. apply psum_from_length. Qed.

(** ** Slices and splices *)

Definition slice {A} (off cnt : nat) (l : list A) : list A := firstn cnt (skipn off l).

Lemma slice_concat {A} (ls : list (list A)) i b :
  nth_error ls i = Some b ->
  slice (sum_list (map (@length A) (firstn i ls))) (length b) (concat ls) = b.
Proof.
  revert ls. induction i as [|i IH]; intros ls H.
  - destruct ls as [|x ls]; [discriminate|]. injection H as ->.
    cbn. unfold slice. cbn [skipn]. rewrite firstn_app, Nat.sub_diag, firstn_all.
    cbn. apply app_nil_r.
  - destruct ls as [|x ls]; [discriminate|]. cbn [nth_error] in H.
    cbn [firstn map concat]. rewrite sum_list_cons. unfold slice.
    rewrite skipn_app. rewrite skipn_all2 by lia. cbn [app].
    replace (length x + sum_list (map (@length A) (firstn i ls)) - length x)
      with (sum_list (map (@length A) (firstn i ls))) by lia.
    apply (IH ls H).
Qed.

Definition splice {A} (l : list A) (off : nat) (b : list A) : outcome (list A) :=
  if off + length b <=? length l
  then Done (firstn off l ++ b ++ skipn (off + length b) l) else UB.

Lemma splice_app {A} (pre mid post b : list A) :
  length mid = length b ->
  splice (pre ++ mid ++ post) (length pre) b = Done (pre ++ b ++ post).
Proof.
  intros H. unfold splice. rewrite !app_length.
  destruct (Nat.leb_spec (length pre + length b) (length pre + (length mid + length post))); [|lia].
  rewrite firstn_app, firstn_all, Nat.sub_diag. cbn [firstn]. rewrite app_nil_r.
  rewrite (app_assoc pre mid post).
  rewrite skipn_app. rewrite skipn_all2 by (rewrite app_length; lia).
  rewrite app_length, H. rewrite Nat.sub_diag. reflexivity.
Qed.

(** placing blocks one after another at the prefix-sum offsets fills the buffer *)
Lemma splice_blocks {A} (bs : list (list A)) : forall (pre junk : list A),
  length junk = sum_list (map (@length A) bs) ->
  ofold (fun buf (ob : nat * list A) => splice buf (fst ob) (snd ob))
    (combine (psum_from (length pre) (map (@length A) bs)) bs) (pre ++ junk)
  = Done (pre ++ concat bs).
Proof.
  induction bs as [|b r IH]; intros pre junk Hj.
  - cbn in Hj. apply length_zero_iff_nil in Hj. subst junk. cbn. rewrite app_nil_r. reflexivity.
  - cbn [map psum_from combine ofold fst snd concat]. cbn [map] in Hj. rewrite sum_list_cons in Hj.
    rewrite <- (firstn_skipn (length b) junk).
    rewrite splice_app by (rewrite firstn_length; lia). cbn [obind].
    rewrite (app_assoc pre b _).
    replace (length pre + length b) with (length (pre ++ b)) by (rewrite app_length; reflexivity).
    rewrite IH by (rewrite skipn_length; lia).
    rewrite <- app_assoc. reflexivity.
Qed.

(** ** nth_error helpers *)

Lemma nth_error_seq s n i : i < n -> nth_error (seq s n) i = Some (s + i).
Proof.
  revert s i. induction n as [|n IH]; intros s i Hi; [lia|].
  destruct i as [|i]; cbn; [f_equal; lia|]. rewrite IH by lia. f_equal. lia.
Qed.

Lemma map_nth_error_seq {A B} (l : list A) (f : A -> B) (d : A) :
  map (fun i => f (nth i l d)) (seq 0 (length l)) = map f l.
Proof.
  induction l as [|a r IH]; [reflexivity|].
  cbn [length seq map nth]. f_equal. rewrite <- seq_shift, map_map. exact IH.
Qed.

Lemma nth_seq_id {A} (l : list A) (d : A) : map (fun i => nth i l d) (seq 0 (length l)) = l.
Proof. rewrite (map_nth_error_seq l (fun a => a) d). apply map_id. Qed.

Lemma nth_error_ext {A} (l1 l2 : list A) :
  (forall i, nth_error l1 i = nth_error l2 i) -> l1 = l2.
Proof.
  revert l2. induction l1 as [|a r IH]; intros l2 H.
  - destruct l2 as [|b l2]; [reflexivity|]. specialize (H 0). discriminate.
  - destruct l2 as [|b l2]; [specialize (H 0); discriminate|].
    pose proof (H 0) as H0. cbn in H0. injection H0 as ->. f_equal. apply IH.
    intros i. apply (H (S i)).
Qed.

Lemma nth_error_map_some {A B} (f : A -> B) l i b :
  nth_error (map f l) i = Some b -> exists a, nth_error l i = Some a /\ b = f a.
Proof.
  rewrite nth_error_map. destruct (nth_error l i); cbn; [|discriminate].
  intros [= <-]. eauto.
Qed.

Lemma filter_app_ {A} (f : A -> bool) l1 l2 : filter f (l1 ++ l2) = filter f l1 ++ filter f l2.
Proof. apply filter_app. Qed.

Lemma filter_none {A} (f : A -> bool) l : (forall a, In a l -> f a = false) -> filter f l = [].
Proof.
  induction l as [|a r IH]; intros H; [reflexivity|]. cbn.
  rewrite (H a (or_introl eq_refl)). apply IH. intros b Hb. apply H. now right.
Qed.

Lemma filter_all {A} (f : A -> bool) l : (forall a, In a l -> f a = true) -> filter f l = l.
Proof.
  induction l as [|a r IH]; intros H; [reflexivity|]. cbn.
  rewrite (H a (or_introl eq_refl)). f_equal. apply IH. intros b Hb. apply H. now right.
Qed.

Lemma combine_fst {A B} (l1 : list A) (l2 : list B) :
  length l1 = length l2 -> map fst (combine l1 l2) = l1.
Proof.
  revert l2. induction l1 as [|a r IH]; intros [|b l2] H; cbn in *; try discriminate; auto.
  f_equal. apply IH. lia.
Qed.
Lemma combine_snd {A B} (l1 : list A) (l2 : list B) :
  length l1 = length l2 -> map snd (combine l1 l2) = l2.
Proof.
  revert l2. induction l1 as [|a r IH]; intros [|b l2] H; cbn in *; try discriminate; auto.
  f_equal. apply IH. lia.
Qed.
Lemma combine_fst_snd {A B} (l : list (A * B)) : combine (map fst l) (map snd l) = l.
Proof. induction l as [|[a b] r IH]; cbn; [reflexivity|]. f_equal. exact IH. Qed.

Lemma concat_map_nil {A B} (f : A -> list B) l : (forall a, In a l -> f a = []) -> concat (map f l) = [].
Proof.
  induction l as [|a r IH]; intros H; [reflexivity|]. cbn.
  rewrite (H a (or_introl eq_refl)). apply IH. intros b Hb. apply H. now right.
Qed.

Lemma Forall2_nth_error {A B} (R : A -> B -> Prop) l1 l2 i a b :
  Forall2 R l1 l2 -> nth_error l1 i = Some a -> nth_error l2 i = Some b -> R a b.
Proof.
  intros H. revert i. induction H as [|x y l1 l2 Hxy H IH]; intros i Ha Hb.
  - destruct i; discriminate.
  - destruct i; cbn in *; [congruence | eauto].
Qed.

(** Distributing a list over buckets [0..n-1] is a permutation of it. *)
Lemma bucket_permutation {A} (f : A -> nat) n (l : list A) :
  (forall a, In a l -> f a < n) ->
  Permutation (concat (map (fun r => filter (fun a => f a =? r) l) (seq 0 n))) l.
Proof.
  induction l as [|a r IH]; intros H.
  - rewrite concat_map_nil; auto.
  - assert (Hfa : f a < n) by (apply H; now left).
    transitivity (a :: concat (map (fun k => filter (fun b => f b =? k) r) (seq 0 n))).
    2:{ constructor. apply IH. intros b Hb. apply H. now right. }
    clear IH H.
    assert (G : forall s m, s <= f a < s + m ->
      Permutation (concat (map (fun k => filter (fun b => f b =? k) (a :: r)) (seq s m)))
        (a :: concat (map (fun k => filter (fun b => f b =? k) r) (seq s m)))).
    { intros s m. revert s. induction m as [|m IHm]; intros s Hs; [lia|].
      cbn [seq map concat filter].
      destruct (Nat.eqb_spec (f a) s) as [E|E].
      - cbn [app]. constructor. apply Permutation_app_head.
        assert (E2 : map (fun k => if f a =? k then a :: filter (fun b => f b =? k) r
                              else filter (fun b => f b =? k) r) (seq (S s) m)
                     = map (fun k => filter (fun b => f b =? k) r) (seq (S s) m)).
        { apply map_ext_in. intros k Hk. apply in_seq in Hk.
          destruct (Nat.eqb_spec (f a) k); [lia|reflexivity]. }
        rewrite E2. reflexivity.
      - specialize (IHm (S s) ltac:(lia)). cbn [filter] in IHm.
        rewrite IHm. rewrite Permutation_middle. reflexivity. }
    apply G. lia.
Qed.
