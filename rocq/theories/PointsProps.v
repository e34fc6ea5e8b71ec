(** Property C06 (collecting and distributing points). *)
From Coq Require Import List Arith ZArith Lia Bool.
From Verif Require Import Outcome ListUtil MPIProofs CommProofs PointsModel PointsSpec PointsProofs.
Import ListNotations.
Local Open Scope Z_scope.

(** rank 0 gets everything in rank order, the others are left empty *)
Theorem C06_collect : forall (A : Type) (d0 : A) (ranks : list (list A)),
  Z.of_nat (length (concat ranks)) <= INT_MAX ->
  collectPts d0 ranks
  = Done (match ranks with [] => [] | _ => concat ranks :: repeat [] (length ranks - 1) end).
Proof.
  intros A d0 ranks H. rewrite concat_length in H. rewrite collect_spec by assumption.
  destruct ranks as [|p rest]; [reflexivity|]. f_equal. f_equal.
  cbn [tl length]. rewrite Nat.sub_succ, Nat.sub_0_r. clear.
  induction rest as [|a r IH]; cbn; [reflexivity | f_equal; exact IH].
Qed.
Print Assumptions C06_collect.

Theorem C06_collect_all : forall (A : Type) (d0 : A) (ranks : list (list A)),
  Z.of_nat (length (concat ranks)) <= INT_MAX ->
  collectPtsAll d0 ranks = Done (repeat (concat ranks) (length ranks)).
Proof.
  intros A d0 ranks H. rewrite concat_length in H. rewrite collectAll_spec by assumption. f_equal.
  generalize (concat ranks) as c. clear.
  induction ranks as [|a r IH]; intros c; cbn; [reflexivity | f_equal; apply IH].
Qed.
Print Assumptions C06_collect_all.

(** distributing cuts the root's list evenly, in spite of the double-precision
    index computation, as long as (number of ranks) * (number of points) fits an
    int *)
Theorem C06_distribute : forall (A : Type) (root : list A) rest (dim : nat),
  rest <> [] -> (0 < dim)%nat -> Z.of_nat dim <= INT_MAX ->
  Z.of_nat (length (root :: rest)) <= INT_MAX -> Z.of_nat (length root) <= INT_MAX ->
  Z.of_nat (length (root :: rest)) * (Z.of_nat (length root) / Z.of_nat dim) <= INT_MAX ->
  exists blocks, distributePts (Z.of_nat dim) (root :: rest) = Done blocks /\
    even_cut dim (length (root :: rest)) root blocks.
Proof.
  intros A root rest dim Hr Hd Hdi Hn Hs Hov.
  set (n := length (root :: rest)) in *. assert (Hn0 : (0 < n)%nat) by (cbn in n; lia).
  eexists. split; [apply (distribute_spec (root :: rest) root rest dim); auto|]. fold n.
  split; [now rewrite map_length, seq_length|]. split; [apply distribute_concat; lia|].
  intros r b Hb. apply nth_error_map_some in Hb. destruct Hb as (k & Hk & ->).
  assert (Hr' : (r < n)%nat).
  { rewrite <- (seq_length n 0). apply nth_error_Some. congruence. }
  rewrite nth_error_seq in Hk by assumption. injection Hk as <-. cbn [Nat.add].
  set (N := (length root / dim)%nat).
  exists (S r * N / n - r * N / n)%nat. split; [apply blocks_even; assumption|].
  pose proof (bound_mono root dim n r Hd Hn0 Hr') as BM.
  unfold slice. rewrite firstn_length, skipn_length.
  replace (Nat.min (bound root dim n (S r) - bound root dim n r) (length root - bound root dim n r))
    with (bound root dim n (S r) - bound root dim n r)%nat by lia.
  unfold bound in *. fold N in BM |- *. destruct (Nat.eqb_spec r n) as [?|_]; [lia|].
  destruct (Nat.eqb_spec (S r) n) as [E|E].
  - assert (EN : (S r * N / n = N)%nat) by (rewrite E, Nat.mul_comm; apply Nat.div_mul; lia).
    rewrite EN. pose proof (Nat.div_mod (length root) dim ltac:(lia)) as DM. fold N in DM.
    assert ((r * N / n <= N)%nat) by (apply Nat.div_le_upper_bound; nia).
    rewrite Nat.mul_sub_distr_l. nia.
  - rewrite Nat.mul_sub_distr_l. lia.
Qed.
Print Assumptions C06_distribute.

(** distribute, then collect: the root's list is back on rank 0 *)
Theorem C06_distribute_collect : forall (A : Type) (d0 : A) (root : list A) rest (dim : nat) blocks,
  rest <> [] -> (0 < dim)%nat -> Z.of_nat dim <= INT_MAX ->
  Z.of_nat (length (root :: rest)) <= INT_MAX -> Z.of_nat (length root) <= INT_MAX ->
  Z.of_nat (length (root :: rest)) * (Z.of_nat (length root) / Z.of_nat dim) <= INT_MAX ->
  distributePts (Z.of_nat dim) (root :: rest) = Done blocks ->
  exists others, collectPts d0 blocks = Done (root :: others).
Proof.
  intros A d0 root rest dim blocks Hr Hd Hdi Hn Hs Hov E.
  destruct (C06_distribute A root rest dim Hr Hd Hdi Hn Hs Hov) as (b & Eb & L & C & _).
  assert (b = blocks) by congruence. subst b.
  rewrite C06_collect by (rewrite C; assumption).
  destruct blocks as [|x blocks]; [discriminate|]. rewrite C. eauto.
Qed.
Print Assumptions C06_distribute_collect.

(** The full claim (any number of ranks and points that fit in an int) is false:
    the int product (myRank+1)*nPts overflows. *)
Theorem C06_distribute_overflow : forall (A : Type) (root : list A) rest (dim : nat),
  rest <> [] -> (0 < dim)%nat ->
  Z.of_nat (length (root :: rest)) <= INT_MAX -> Z.of_nat (length root) <= INT_MAX ->
  INT_MAX < Z.of_nat (length (root :: rest)) * (Z.of_nat (length root) / Z.of_nat dim) ->
  distributePts (Z.of_nat dim) (root :: rest) = UB.
Proof. exact @distribute_overflow. Qed.
Print Assumptions C06_distribute_overflow.

(** 1000 ranks, three million points of three coordinates each *)
Theorem C06_distribute_refuted : exists (root : list unit) (rest : list (list unit)),
  length (root :: rest) = Z.to_nat 1000 /\ length root = Z.to_nat 9000000 /\
  distributePts 3 (root :: rest) = UB.
Proof.
  exists (repeat tt (Z.to_nat 9000000)), (repeat [] (Z.to_nat 999)).
  assert (L1 : length (repeat tt (Z.to_nat 9000000)) = Z.to_nat 9000000) by apply repeat_length.
  assert (L2 : length (repeat tt (Z.to_nat 9000000) :: repeat [] (Z.to_nat 999)) = Z.to_nat 1000).
  { change (length (?a :: ?b)) with (S (length b)). rewrite repeat_length. lia. }
  split; [exact L2|]. split; [exact L1|].
  apply (distribute_overflow (repeat tt (Z.to_nat 9000000)) (repeat [] (Z.to_nat 999)) 3).
  - replace (Z.to_nat 999) with (S (Z.to_nat 998)) by lia. cbn [repeat]. discriminate.
  - lia.
  - rewrite L2. unfold INT_MAX. lia.
  - rewrite L1. unfold INT_MAX. lia.
  - rewrite L2, L1, !Z2Nat.id by lia. reflexivity.
Qed.
Print Assumptions C06_distribute_refuted.

Example C06_example :
  distributePts 3 [[1;2;3;4;5;6;7;8;9;10;11;12;13;14;15;16]; [99]; []]%nat
  = Done [[1;2;3]; [4;5;6;7;8;9]; [10;11;12;13;14;15;16]]%nat
  /\ collectPts 0%nat [[1;2;3]; [4;5;6;7;8;9]; [10;11;12;13;14;15;16]]%nat
     = Done [[1;2;3;4;5;6;7;8;9;10;11;12;13;14;15;16]; []; []]%nat.
Proof. split; vm_compute; reflexivity. Qed.
