(** Model of Util/TRngPool.hpp. *)
From Coq Require Import List Arith ZArith Bool.
From Verif Require Import Outcome ListUtil.
Import ListNotations.

(** A trng engine (external library), seen as a position in the base sequence of its
    seed: the index of the next number and the distance between consecutive ones (Util/TRngPool.hpp:32-39) *)
Record engine := Engine { next : nat; stride : nat }.

(** rngEngine.seed(seed) (Util/TRngPool.hpp:80) *)
Definition seeded : engine := Engine 0 1.

(** engine.split(s, n), leapfrog splitting: elements n, n+s, n+2s, ... of the engine's
    own sequence (TRNG documentation; Util/TRngPool.hpp:83, 93) *)
Definition split (e : engine) (s n : nat) : engine := Engine (next e + n * stride e) (s * stride e).

(** one number drawn (Util/TRngPool.hpp:109-111; every distribution used consumes one) *)
Definition draw (e : engine) : nat * engine := (next e, Engine (next e + stride e) (stride e)).

(** Util/TRngPool.hpp:64-96, the constructor on rank [myRank]: the engines of its threads. *)
Definition TRngPool (nProcs myRank nThreads : nat) : list engine :=
  let e := if 1 <? nProcs then split seeded nProcs myRank else seeded in
  map (fun i => split e nThreads i) (seq 0 nThreads).

(** Util/TRngPool.hpp:109-111, getU01(threadId) on the pool of one rank. *)
Definition getU01 (pool : list engine) (threadId : nat) : outcome (nat * list engine) :=
  do e <- mread pool threadId;
  let (i, e') := draw e in
  do pool' <- mwrite pool threadId e';
  Done (i, pool').

(** Any interleaving of draws by all ranks and threads: [ops] lists (rank, thread); the
    result lists the base positions used (calls of Util/TRngPool.hpp:109-111) *)
Fixpoint drawAll (pools : list (list engine)) (ops : list (nat * nat)) : outcome (list nat) :=
  match ops with
  | [] => Done []
  | (r, t) :: ops' =>
      do pool <- mread pools r;
      do p <- getU01 pool t;
      do pools' <- mwrite pools r (snd p);
      do rest <- drawAll pools' ops';
      Done (fst p :: rest)
  end.

(** the pools of all ranks; [nThreads r] may differ between ranks (Util/TRngPool.hpp:64-96) *)
Definition allPools (nProcs : nat) (nThreads : nat -> nat) : list (list engine) :=
  map (fun r => TRngPool nProcs r (nThreads r)) (seq 0 nProcs).
