From Coq Require Import List Arith ZArith Lia Bool.
From Verif Require Import Outcome ListUtil MPIProofs RngModel.
Import ListNotations.

(** position of the k-th number of thread t on rank r *)
Definition pos (P : nat) (T : nat -> nat) (r t k : nat) : nat := r + P * (t + T r * k).

(** draws of one (rank, thread) so far *)
Definition drawn (ops : list (nat * nat)) (r t : nat) : nat :=
  length (filter (fun o => (fst o =? r) && (snd o =? t)) ops).

Lemma pool_engine P T r t : r < P -> t < T r ->
  mread (TRngPool P r (T r)) t = Done (Engine (pos P T r t 0) (P * T r)).
Proof.
  intros Hr Ht. unfold TRngPool. rewrite mread_map_seq by exact Ht. f_equal. unfold pos.
  destruct (Nat.ltb_spec 1 P) as [H|H]; unfold split, seeded; cbn [next stride].
  - f_equal; lia.
  - assert (P = 1) by lia. assert (r = 0) by lia. subst. f_equal; lia.
Qed.

Lemma pos_inj P T r t k r' t' k' : r < P -> t < T r -> r' < P -> t' < T r' ->
  pos P T r t k = pos P T r' t' k' -> r = r' /\ t = t' /\ k = k'.
Proof.
  unfold pos. intros Hr Ht Hr' Ht' E.
  assert (r = r' /\ t + T r * k = t' + T r' * k') as (-> & E2).
  { rewrite (Nat.mul_comm P (t + _)), (Nat.mul_comm P (t' + _)) in E.
    assert (M := f_equal (fun x => x mod P) E). cbn in M. rewrite !Nat.mod_add, !Nat.mod_small in M by lia.
    split; [exact M|]. assert (D := f_equal (fun x => x / P) E). cbn in D.
    rewrite !Nat.div_add, !Nat.div_small in D by lia. exact D. }
  split; [reflexivity|].
  rewrite (Nat.mul_comm _ k), (Nat.mul_comm _ k') in E2.
  assert (M := f_equal (fun x => x mod T r') E2). cbn in M. rewrite !Nat.mod_add, !Nat.mod_small in M by lia.
  split; [exact M|]. assert (D := f_equal (fun x => x / T r') E2). cbn in D.
  rewrite !Nat.div_add, !Nat.div_small in D by lia. exact D.
Qed.

Lemma pos_onto P T j : 0 < P -> (forall r, r < P -> 0 < T r) ->
  exists r t k, r < P /\ t < T r /\ j = pos P T r t k.
Proof.
  intros HP HT. set (r := j mod P). assert (Hr : r < P) by (apply Nat.mod_upper_bound; lia).
  specialize (HT r Hr). exists r, (j / P mod T r), (j / P / T r).
  split; [exact Hr|]. split; [apply Nat.mod_upper_bound; lia|]. unfold pos.
  pose proof (Nat.div_mod j P ltac:(lia)) as E1. pose proof (Nat.div_mod (j / P) (T r) ltac:(lia)) as E2.
  fold r in E1. nia.
Qed.

(** the state of all pools after some draws *)
Definition pools_after (P : nat) (T : nat -> nat) (cnt : nat -> nat -> nat) : list (list engine) :=
  map (fun r => map (fun t => Engine (pos P T r t (cnt r t)) (P * T r)) (seq 0 (T r))) (seq 0 P).

Lemma allPools_start P T : allPools P T = pools_after P T (fun _ _ => 0).
Proof.
  unfold allPools, pools_after. apply map_ext_in. intros r Hr. apply in_seq in Hr.
  apply nth_error_ext. intros t. destruct (Nat.lt_ge_cases t (T r)) as [H|H].
  - rewrite nth_error_map_seq by exact H. pose proof (pool_engine P T r t ltac:(lia) H) as E.
    unfold mread in E. destruct (nth_error (TRngPool P r (T r)) t); congruence.
  - transitivity (@None engine); [|symmetry]; apply nth_error_None; unfold TRngPool; rewrite map_length, seq_length; exact H.
Qed.

Lemma nth_error_firstn_lt {A} (l : list A) : forall n j, j < n -> nth_error (firstn n l) j = nth_error l j.
Proof. induction l as [|x l IH]; intros [|n] [|j] H; cbn; try lia; auto. apply IH. lia. Qed.

Lemma nth_error_skipn_add {A} (l : list A) : forall n j, nth_error (skipn n l) j = nth_error l (n + j).
Proof. induction l as [|x l IH]; intros [|n] j; cbn [skipn plus nth_error]; auto. destruct j; reflexivity. Qed.

Lemma mwrite_map_seq {A} (f : nat -> A) n i v : i < n ->
  mwrite (map f (seq 0 n)) i v = Done (map (fun j => if j =? i then v else f j) (seq 0 n)).
Proof.
  intros H. unfold mwrite. rewrite map_length, seq_length. destruct (Nat.ltb_spec i n); [|lia]. f_equal.
  apply nth_error_ext. intros j.
  destruct (Nat.lt_ge_cases j n) as [Hj|Hj].
  - rewrite (nth_error_map_seq (fun j => if j =? i then v else f j)) by exact Hj.
    assert (LF : length (firstn i (map f (seq 0 n))) = i) by (rewrite firstn_length, map_length, seq_length; lia).
    destruct (Nat.lt_trichotomy j i) as [C|[C|C]].
    + rewrite nth_error_app1 by lia. destruct (Nat.eqb_spec j i); [lia|].
      rewrite nth_error_firstn_lt by exact C. apply nth_error_map_seq, Hj.
    + subst j. rewrite nth_error_app2 by lia. rewrite LF, Nat.sub_diag, Nat.eqb_refl. reflexivity.
    + rewrite nth_error_app2 by lia. rewrite LF. destruct (Nat.eqb_spec j i); [lia|].
      destruct (j - i) as [|d] eqn:ED; [lia|]. cbn [nth_error].
      rewrite nth_error_skipn_add. replace (S i + d) with j by lia. apply nth_error_map_seq, Hj.
  - transitivity (@None A); [|symmetry]; apply nth_error_None.
    + rewrite app_length, firstn_length. change (length (v :: skipn (S i) (map f (seq 0 n)))) with (S (length (skipn (S i) (map f (seq 0 n))))). rewrite skipn_length, map_length, seq_length. lia.
    + rewrite map_length, seq_length. exact Hj.
Qed.

Lemma drawAll_spec P T ops : forall cnt, Forall (fun o => fst o < P /\ snd o < T (fst o)) ops ->
  exists out, drawAll (pools_after P T cnt) ops = Done out /\ length out = length ops /\
    forall i o, nth_error ops i = Some o ->
      nth_error out i = Some (pos P T (fst o) (snd o) (cnt (fst o) (snd o) + drawn (firstn i ops) (fst o) (snd o))).
Proof.
  induction ops as [|(r, t) ops IH]; intros cnt HF.
  - exists []. split; [reflexivity|]. split; [reflexivity|]. intros [|i] o; discriminate.
  - inversion HF as [|? ? (Hr & Ht) HF']; subst. cbn [fst snd] in Hr, Ht. cbn [drawAll].
    unfold pools_after at 1. rewrite mread_map_seq by exact Hr. cbn [obind]. unfold getU01.
    rewrite mread_map_seq by exact Ht. cbn [obind draw next stride].
    rewrite mwrite_map_seq by exact Ht. cbn [obind snd fst].
    unfold pools_after. rewrite mwrite_map_seq by exact Hr. cbn [obind].
    set (cnt' := fun r' t' => if (r' =? r) && (t' =? t) then S (cnt r' t') else cnt r' t').
    assert (EP : map (fun j => if j =? r then map (fun j0 => if j0 =? t then Engine (pos P T r t (cnt r t) + P * T r) (P * T r)
                   else Engine (pos P T r j0 (cnt r j0)) (P * T r)) (seq 0 (T r))
                   else map (fun t0 => Engine (pos P T j t0 (cnt j t0)) (P * T j)) (seq 0 (T j))) (seq 0 P)
                 = pools_after P T cnt').
    { unfold pools_after. apply map_ext. intros j. unfold cnt'. destruct (Nat.eqb_spec j r) as [->|N].
      - apply map_ext. intros j0. rewrite ?Nat.eqb_refl. cbn [andb]. destruct (Nat.eqb_spec j0 t) as [->|N0]; [|reflexivity].
        f_equal. unfold pos. lia.
      - apply map_ext. intros j0. cbn [andb]. reflexivity. }
    rewrite EP. destruct (IH cnt' HF') as (out & E & L & N). rewrite E. cbn [obind].
    eexists. split; [reflexivity|]. split; [cbn [length]; congruence|].
    intros [|i] o Eo; cbn [nth_error] in Eo |- *.
    + assert (o = (r, t)) by congruence. subst o. cbn [fst snd firstn]. unfold drawn. cbn. rewrite Nat.add_0_r. reflexivity.
    + rewrite (N i o Eo). rewrite firstn_cons. unfold drawn. cbn [filter fst snd]. unfold cnt'.
      rewrite (Nat.eqb_sym (fst o) r), (Nat.eqb_sym (snd o) t).
      destruct ((r =? fst o) && (t =? snd o)); cbn [length]; do 2 f_equal; lia.
Qed.

Lemma drawn_lt ops i j o : i < j -> nth_error ops i = Some o -> nth_error ops j <> None ->
  drawn (firstn i ops) (fst o) (snd o) < drawn (firstn j ops) (fst o) (snd o).
Proof.
  intros H E _. unfold drawn. replace j with (i + (S (j - S i))) by lia.
  revert i j H E. induction ops as [|x ops IH]; intros [|i] j H E; try discriminate; cbn [nth_error] in E.
  - assert (x = o) by congruence. subst x. replace (0 + S (j - 1)) with (S (j - 1)) by lia. cbn [firstn filter]. rewrite !Nat.eqb_refl. cbn. lia.
  - replace (S i + S (j - S (S i))) with (S (i + S (j - S (S i)))) by lia. rewrite !firstn_cons. cbn [filter].
    specialize (IH i (j - 1) ltac:(lia) E). replace (j - 1 - S i) with (j - S (S i)) in IH by lia.
    destruct ((fst x =? fst o) && (snd x =? snd o)); cbn [length]; lia.
Qed.

Lemma draws_disjoint P T ops : Forall (fun o => fst o < P /\ snd o < T (fst o)) ops ->
  exists out, drawAll (allPools P T) ops = Done out /\ length out = length ops /\ NoDup out /\
    forall i o, nth_error ops i = Some o ->
      nth_error out i = Some (pos P T (fst o) (snd o) (drawn (firstn i ops) (fst o) (snd o))).
Proof.
  intros HF. rewrite allPools_start. destruct (drawAll_spec P T ops (fun _ _ => 0) HF) as (out & E & L & N).
  exists out. split; [exact E|]. split; [exact L|]. split; [|exact N].
  assert (W : forall i j, i < j -> j < length out -> nth_error out i <> nth_error out j).
  { intros i j Hij Hj C. rewrite L in Hj.
    destruct (nth_error ops i) as [o|] eqn:Ei; [|apply nth_error_None in Ei; lia].
    destruct (nth_error ops j) as [o'|] eqn:Ej; [|apply nth_error_None in Ej; lia].
    rewrite (N i o Ei), (N j o' Ej) in C.
    rewrite Forall_forall in HF. destruct (HF o (nth_error_In _ _ Ei)) as (A1 & A2). destruct (HF o' (nth_error_In _ _ Ej)) as (B1 & B2).
    assert (C' : pos P T (fst o) (snd o) (0 + drawn (firstn i ops) (fst o) (snd o))
               = pos P T (fst o') (snd o') (0 + drawn (firstn j ops) (fst o') (snd o'))) by congruence.
    apply pos_inj in C'; try assumption. destruct C' as (R1 & R2 & R3). rewrite <- R1, <- R2 in R3.
    pose proof (drawn_lt ops i j o Hij Ei ltac:(congruence)). lia. }
  apply NoDup_nth_error. intros i j Hi Hij. destruct (Nat.lt_trichotomy i j) as [C|[C|C]]; [|exact C|].
  - exfalso. apply (W i j C); [|exact Hij]. apply nth_error_Some. rewrite <- Hij. apply nth_error_Some, Hi.
  - exfalso. apply (W j i C Hi). symmetry. exact Hij.
Qed.

Lemma firstn_repeat {A} (x : A) n : forall i, i <= n -> firstn i (repeat x n) = repeat x i.
Proof. induction n as [|n IH]; intros [|i] H; try lia; cbn [repeat firstn]; [reflexivity|reflexivity|]. f_equal. apply IH. lia. Qed.

Lemma draws_serial n : drawAll (allPools 1 (fun _ => 1)) (repeat (0, 0) n) = Done (seq 0 n).
Proof.
  destruct (draws_disjoint 1 (fun _ => 1) (repeat (0, 0) n)) as (out & E & L & _ & N).
  { apply Forall_forall. intros o Ho. apply repeat_spec in Ho. subst o. cbn. lia. }
  rewrite E. f_equal. rewrite repeat_length in L. apply nth_error_ext. intros i.
  destruct (Nat.lt_ge_cases i n) as [H|H].
  - rewrite nth_error_seq by exact H. rewrite (N i (0, 0)).
    + rewrite firstn_repeat by lia. cbn [fst snd]. unfold pos, drawn. f_equal.
      assert (F : length (filter (fun o : nat * nat => (fst o =? 0) && (snd o =? 0)) (repeat (0, 0) i)) = i).
      { clear. induction i as [|i IH]; [reflexivity|]. cbn [repeat filter]. cbn [fst snd Nat.eqb andb length]. f_equal. exact IH. }
      rewrite F. lia.
    + rewrite (nth_error_nth' _ (0, 0)) by (rewrite repeat_length; exact H).
      f_equal. clear. revert i. induction n as [|n IH]; intros [|i]; cbn; auto.
  - transitivity (@None nat); [|symmetry]; apply nth_error_None; [lia|rewrite seq_length; lia].
Qed.

Lemma extra_thread P r n t : getU01 (TRngPool P r n) t = UB <-> n <= t.
Proof.
  unfold getU01, mread, mwrite. assert (L : length (TRngPool P r n) = n) by (unfold TRngPool; rewrite map_length; apply seq_length).
  rewrite L. destruct (nth_error (TRngPool P r n) t) eqn:E; cbn [obind].
  - assert (t < n) by (rewrite <- L; apply nth_error_Some; congruence).
    destruct (draw e). destruct (Nat.ltb_spec t n); [|lia]. cbn [obind]. split; [discriminate|lia].
  - apply nth_error_None in E. split; auto; lia.
Qed.
