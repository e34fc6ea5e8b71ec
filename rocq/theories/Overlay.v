(** Lemmas about loops that fill an array piecewise in any order. *)
From Coq Require Import List Arith Lia Bool Permutation.
From Verif Require Import Outcome ListUtil MPIProofs RngProofs.
Import ListNotations.

(** ** position of list element j of list t in the concatenation *)
Definition off {A} (Qs : list (list A)) (t : nat) : nat := sum_list (map (@length A) (firstn t Qs)).

Lemma nth_error_concat {A} (Qs : list (list A)) : forall t q j, nth_error Qs t = Some q -> j < length q ->
  nth_error (concat Qs) (off Qs t + j) = nth_error q j.
Proof.
  unfold off. induction Qs as [|x Qs IH]; intros [|t] q j E H; try discriminate; cbn [nth_error] in E.
  - assert (x = q) by congruence. subst x. cbn. rewrite nth_error_app1 by exact H. reflexivity.
  - rewrite firstn_cons. cbn [map concat]. rewrite sum_list_cons, nth_error_app2 by lia.
    replace (length x + sum_list (map (@length A) (firstn t Qs)) + j - length x) with (sum_list (map (@length A) (firstn t Qs)) + j) by lia.
    apply IH; assumption.
Qed.

Lemma locate {A} (Qs : list (list A)) : forall i, i < length (concat Qs) ->
  exists t q j, nth_error Qs t = Some q /\ j < length q /\ i = off Qs t + j.
Proof.
  unfold off. induction Qs as [|x Qs IH]; intros i H; cbn in H; [lia|].
  destruct (Nat.lt_ge_cases i (length x)) as [C|C].
  - exists 0, x, i. cbn. auto.
  - rewrite app_length in H. destruct (IH (i - length x) ltac:(lia)) as (t & q & j & E & Hj & Ei).
    exists (S t), q, j. split; [exact E|]. split; [exact Hj|]. rewrite firstn_cons. cbn [map]. rewrite sum_list_cons. lia.
Qed.

Lemma off_bound {A} (Qs : list (list A)) t q : nth_error Qs t = Some q -> off Qs t + length q <= length (concat Qs).
Proof.
  unfold off. intros E. pose proof (sum_firstn_S (map (@length A) Qs) t (length q)) as H.
  rewrite nth_error_map, E in H. specialize (H eq_refl). rewrite !firstn_map in H.
  rewrite concat_length. pose proof (sum_firstn_le (map (@length A) Qs) (S t)). rewrite firstn_map in *. lia.
Qed.

(** ** splice *)
Lemma splice_nth {A} (m m' : list A) k xs : splice m k xs = Done m' ->
  length m' = length m /\
  forall i, nth_error m' i = if (k <=? i) && (i <? k + length xs) then nth_error xs (i - k) else nth_error m i.
Proof.
  unfold splice. destruct (Nat.leb_spec (k + length xs) (length m)) as [H|H]; [|discriminate].
  intros E. assert (E' : m' = firstn k m ++ xs ++ skipn (k + length xs) m) by congruence. subst m'. clear E.
  assert (LF : length (firstn k m) = k) by (rewrite firstn_length; lia).
  split. { rewrite !app_length, LF, skipn_length. lia. }
  intros i. destruct (Nat.leb_spec k i) as [C|C]; cbn [andb].
  - rewrite nth_error_app2 by lia. rewrite LF. destruct (Nat.ltb_spec i (k + length xs)) as [D|D].
    + apply nth_error_app1. lia.
    + rewrite nth_error_app2 by lia. rewrite nth_error_skipn_add. f_equal. lia.
  - rewrite nth_error_app1 by lia. apply nth_error_firstn_lt, C.
Qed.

Lemma splice_ok {A} (m : list A) k xs : k + length xs <= length m -> exists m', splice m k xs = Done m'.
Proof. intros H. unfold splice. destruct (Nat.leb_spec (k + length xs) (length m)); [eauto|lia]. Qed.

Lemma splice_splice {A} (m : list A) k xs ys :
  (do m1 <- splice m k xs; splice m1 (k + length xs) ys) = splice m k (xs ++ ys).
Proof.
  destruct (Nat.le_gt_cases (k + length (xs ++ ys)) (length m)) as [H|H]; rewrite app_length in H.
  - destruct (splice_ok m k xs ltac:(lia)) as (m1 & E1). rewrite E1. cbn [obind].
    destruct (splice_nth _ _ _ _ E1) as (L1 & N1).
    destruct (splice_ok m1 (k + length xs) ys ltac:(lia)) as (m2 & E2). rewrite E2.
    destruct (splice_nth _ _ _ _ E2) as (L2 & N2).
    destruct (splice_ok m k (xs ++ ys)) as (m3 & E3); [rewrite app_length; lia|]. rewrite E3.
    destruct (splice_nth _ _ _ _ E3) as (L3 & N3).
    f_equal. apply nth_error_ext. intros i. rewrite N2, N3, N1, app_length.
    destruct (Nat.leb_spec k i), (Nat.ltb_spec i (k + (length xs + length ys))), (Nat.leb_spec (k + length xs) i),
      (Nat.ltb_spec i (k + length xs + length ys)), (Nat.ltb_spec i (k + length xs)); cbn [andb]; try lia; auto.
    + rewrite nth_error_app2 by lia. f_equal. lia.
    + rewrite nth_error_app1 by lia. reflexivity.
  - unfold splice. rewrite app_length.
    destruct (Nat.leb_spec (k + (length xs + length ys)) (length m)); [lia|].
    destruct (Nat.leb_spec (k + length xs) (length m)); [|reflexivity]. cbn [obind].
    assert (LL : length (firstn k m ++ xs ++ skipn (k + length xs) m) = length m).
    { rewrite !app_length, firstn_length, skipn_length. lia. }
    rewrite LL. destruct (Nat.leb_spec (k + length xs + length ys) (length m)); [lia|reflexivity].
Qed.

Lemma splice_nil {A} (m : list A) k : k <= length m -> splice m k [] = Done m.
Proof.
  intros H. unfold splice. cbn [length app]. rewrite Nat.add_0_r. destruct (Nat.leb_spec k (length m)); [|lia].
  f_equal. apply firstn_skipn.
Qed.

(** all pieces written, in any order: the array is the concatenation *)
Lemma splice_order {A} (Qs : list (list A)) order (m : list A) :
  (forall t, t < length Qs -> In t order) -> (forall t, In t order -> t < length Qs) ->
  length m = length (concat Qs) ->
  ofold (fun m t => splice m (off Qs t) (nth t Qs [])) order m = Done (concat Qs).
Proof.
  intros Hall Hin Hm. set (T := concat Qs).
  assert (G : forall order m, (forall t, In t order -> t < length Qs) -> length m = length T ->
    exists m', ofold (fun m t => splice m (off Qs t) (nth t Qs [])) order m = Done m' /\ length m' = length T /\
      (forall i, nth_error m i = nth_error T i -> nth_error m' i = nth_error T i) /\
      (forall t q j, In t order -> nth_error Qs t = Some q -> j < length q ->
         nth_error m' (off Qs t + j) = nth_error T (off Qs t + j))).
  { clear order m Hall Hin Hm. induction order as [|t order IH]; intros m Hin Hm.
    - exists m. cbn. repeat split; auto. intros t q j [].
    - assert (Ht : t < length Qs) by (apply Hin; left; reflexivity).
      destruct (nth_error Qs t) as [q|] eqn:E; [|apply nth_error_None in E; lia].
      assert (En : nth t Qs [] = q) by (apply nth_error_nth; exact E).
      cbn [ofold]. rewrite En. destruct (splice_ok m (off Qs t) q) as (m1 & E1).
      { rewrite Hm. apply off_bound, E. }
      rewrite E1. cbn [obind]. destruct (splice_nth _ _ _ _ E1) as (L1 & N1).
      assert (W : forall i, nth_error m1 i = nth_error m i \/ nth_error m1 i = nth_error T i).
      { intros i. rewrite N1. destruct (Nat.leb_spec (off Qs t) i); cbn [andb]; [|auto].
        destruct (Nat.ltb_spec i (off Qs t + length q)); [|auto]. right.
        replace i with (off Qs t + (i - off Qs t)) at 2 by lia. symmetry. apply nth_error_concat; [exact E|lia]. }
      destruct (IH m1) as (m' & E' & L' & K' & I').
      { intros t' H'. apply Hin. right. exact H'. } { congruence. }
      exists m'. split; [exact E'|]. split; [exact L'|]. split.
      + intros i Hi. apply K'. destruct (W i) as [->|]; assumption.
      + intros t' q' j [->|H'] Eq Hj.
        * apply K'. rewrite N1. assert (q' = q) by congruence. subst q'.
          destruct (Nat.leb_spec (off Qs t') (off Qs t' + j)); [|lia]. cbn [andb].
          destruct (Nat.ltb_spec (off Qs t' + j) (off Qs t' + length q)); [|lia].
          replace (off Qs t' + j - off Qs t') with j by lia. symmetry. apply nth_error_concat; assumption.
        * apply (I' t' q'); assumption. }
  destruct (G order m Hin Hm) as (m' & E & L & _ & I). rewrite E. f_equal. apply nth_error_ext. intros i.
  destruct (Nat.lt_ge_cases i (length T)) as [H|H].
  - destruct (locate Qs i H) as (t & q & j & Eq & Hj & ->). apply (I t q); auto. apply Hall. apply nth_error_Some. congruence.
  - transitivity (@None A); [|symmetry]; apply nth_error_None; lia.
Qed.

(** ** in-place update of distinct positions, in any order *)
Lemma inplace {A} n (g : nat -> A -> outcome A) (h : nat -> A) order : forall f,
  (forall j, In j order -> j < n) -> NoDup order -> (forall j, In j order -> g j (f j) = Done (h j)) ->
  ofold (fun q j => do b <- mread q j; do v <- g j b; mwrite q j v) order (map f (seq 0 n))
  = Done (map (fun j => if existsb (Nat.eqb j) order then h j else f j) (seq 0 n)).
Proof.
  induction order as [|j0 order IH]; intros f Hr Hn Hg; [reflexivity|].
  cbn [ofold]. rewrite mread_map_seq by (apply Hr; left; reflexivity). cbn [obind].
  rewrite (Hg j0) by (left; reflexivity). cbn [obind].
  rewrite mwrite_map_seq by (apply Hr; left; reflexivity). cbn [obind].
  apply NoDup_cons_iff in Hn. destruct Hn as (Hn0 & Hn).
  rewrite IH; [|intros j Hj; apply Hr; right; exact Hj|exact Hn|].
  - f_equal. apply map_ext. intros j. cbn [existsb]. destruct (Nat.eqb_spec j j0) as [->|C]; cbn [orb].
    + destruct (existsb (Nat.eqb j0) order); reflexivity.
    + reflexivity.
  - intros j Hj. destruct (Nat.eqb_spec j j0) as [->|C]; [contradiction|]. apply Hg. right. exact Hj.
Qed.

Lemma inplace_all {A} n (g : nat -> A -> outcome A) (h : nat -> A) order f :
  Permutation order (seq 0 n) -> (forall j, j < n -> g j (f j) = Done (h j)) ->
  ofold (fun q j => do b <- mread q j; do v <- g j b; mwrite q j v) order (map f (seq 0 n))
  = Done (map h (seq 0 n)).
Proof.
  intros Hp Hg.
  assert (Hi : forall j, In j order <-> j < n).
  { intros j. split; intros H.
    - apply (Permutation_in _ Hp) in H. apply in_seq in H. lia.
    - apply (Permutation_in _ (Permutation_sym Hp)). apply in_seq. lia. }
  rewrite (inplace n g h); [|apply Hi|eapply Permutation_NoDup; [symmetry; exact Hp|apply seq_NoDup]|intros j Hj; apply Hg, Hi, Hj].
  f_equal. apply map_ext_in. intros j Hj. apply in_seq in Hj.
  replace (existsb (Nat.eqb j) order) with true; [reflexivity|]. symmetry. apply existsb_exists. exists j. split; [apply Hi; lia|apply Nat.eqb_refl].
Qed.

Lemma ofold_concat {A S} (f : S -> A -> outcome S) ls : forall s,
  ofold f (concat ls) s = ofold (fun s l => ofold f l s) ls s.
Proof.
  induction ls as [|l ls IH]; intros s; cbn [concat ofold]; [reflexivity|].
  rewrite ofold_app. destruct (ofold f l s); cbn [obind]; [apply IH|reflexivity|reflexivity].
Qed.

Lemma map_add_seq a b : forall s, map (fun j => a + j) (seq s b) = seq (a + s) b.
Proof. induction b as [|b IH]; intros s; cbn [seq map]; [reflexivity|]. f_equal. rewrite IH. f_equal. lia. Qed.

Lemma seq_app_off a b : seq 0 (a + b) = seq 0 a ++ map (fun j => a + j) (seq 0 b).
Proof. rewrite seq_app, map_add_seq. do 2 f_equal. lia. Qed.

(** the positions of all pieces, in order, are all positions *)
Lemma positions {A} (Qs : list (list A)) :
  concat (map (fun t => map (fun j => off Qs t + j) (seq 0 (length (nth t Qs [])))) (seq 0 (length Qs)))
  = seq 0 (length (concat Qs)).
Proof.
  induction Qs as [|q Qs IH] using rev_ind; [reflexivity|].
  rewrite app_length. cbn [length]. rewrite Nat.add_1_r, seq_S, map_app, concat_app. cbn [map concat].
  rewrite app_nil_r, Nat.add_0_l.
  rewrite concat_app, app_length. cbn [concat]. rewrite app_nil_r, seq_app_off. f_equal.
  - rewrite <- IH. f_equal. apply map_ext_in. intros t Ht. apply in_seq in Ht.
    unfold off. rewrite firstn_app. replace (t - length Qs) with 0 by lia. cbn [firstn]. rewrite app_nil_r.
    rewrite app_nth1 by lia. reflexivity.
  - unfold off. rewrite firstn_app, Nat.sub_diag, firstn_all. cbn [firstn]. rewrite app_nil_r.
    rewrite <- concat_length. rewrite app_nth2 by lia. rewrite Nat.sub_diag. reflexivity.
Qed.

Lemma concat_perm {A} (l1 l2 : list (list A)) : Permutation l1 l2 -> Permutation (concat l1) (concat l2).
Proof.
  intros P. induction P; cbn.
  - constructor.
  - apply Permutation_app_head, IHP.
  - rewrite !app_assoc. apply Permutation_app_tail, Permutation_app_comm.
  - eapply Permutation_trans; eassumption.
Qed.

Lemma inplace_list {A} (d : A) (g : nat -> A -> outcome A) (h : nat -> A) order q :
  Permutation order (seq 0 (length q)) -> (forall j, j < length q -> g j (nth j q d) = Done (h j)) ->
  ofold (fun q j => do b <- mread q j; do v <- g j b; mwrite q j v) order q = Done (map h (seq 0 (length q))).
Proof.
  intros Hp Hg. etransitivity; [|apply (inplace_all (length q) g h order (fun j => nth j q d) Hp Hg)].
  f_equal. apply map_seq_nth.
Qed.
