(** Property C18 (parallel random streams). *)
From Coq Require Import List Arith ZArith Bool.
From Verif Require Import Outcome RngModel RngProofs.
Import ListNotations.

(** Any number of ranks, any number of threads on each, any interleaving of draws: no
    position of the base sequence is used twice, and the n-th draw of thread t on rank r
    is position r + P*(t + T r*n), whatever the other threads do. *)
Theorem C18_streams : forall P (T : nat -> nat) ops,
  Forall (fun o => fst o < P /\ snd o < T (fst o)) ops ->
  exists out, drawAll (allPools P T) ops = Done out /\ length out = length ops /\ NoDup out /\
    forall i o, nth_error ops i = Some o ->
      nth_error out i = Some (fst o + P * (snd o + T (fst o) *
        length (filter (fun o' => (fst o' =? fst o) && (snd o' =? snd o)) (firstn i ops)))).
Proof. exact draws_disjoint. Qed.
Print Assumptions C18_streams.

(** Every position belongs to exactly one (rank, thread, draw number). *)
Theorem C18_cover : forall P (T : nat -> nat) j, 0 < P -> (forall r, r < P -> 0 < T r) ->
  (exists r t k, r < P /\ t < T r /\ j = r + P * (t + T r * k)) /\
  forall r t k r' t' k', r < P -> t < T r -> r' < P -> t' < T r' ->
    j = r + P * (t + T r * k) -> j = r' + P * (t' + T r' * k') -> r = r' /\ t = t' /\ k = k'.
Proof.
  intros P T j HP HT. split; [exact (pos_onto P T j HP HT)|].
  intros r t k r' t' k' Hr Ht Hr' Ht' E E'. apply (pos_inj P T); auto. unfold pos. congruence.
Qed.
Print Assumptions C18_cover.

(** one rank, one thread: the base sequence itself *)
Theorem C18_serial : forall n, drawAll (allPools 1 (fun _ => 1)) (repeat (0, 0) n) = Done (seq 0 n).
Proof. exact draws_serial. Qed.
Print Assumptions C18_serial.

(** a thread numbered above the thread count seen by the constructor reads past the pool *)
Theorem C18_thread_range : forall P r nThreads t, getU01 (TRngPool P r nThreads) t = UB <-> nThreads <= t.
Proof. exact extra_thread. Qed.
Print Assumptions C18_thread_range.

Example C18_example :
  drawAll (allPools 2 (fun r => if r =? 0 then 2 else 3)) [(0, 0); (1, 2); (0, 0); (0, 1); (1, 2)]
  = Done [0; 5; 4; 2; 11].
Proof. vm_compute. reflexivity. Qed.
