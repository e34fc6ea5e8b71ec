(** Model of MPI/CommMPI.hpp. *)
From Coq Require Import List Arith ZArith Bool.
From Verif Require Import Outcome ListUtil MPIModel SortModel.
Import ListNotations.

(** std::vector::resize (used at MPI/CommMPI.hpp:154-155): keeps the old
    elements that fit, value-initialises the new ones. *)
Definition vresize {A} (d : A) (l : list A) (n : nat) : list A :=
  firstn n l ++ repeat d (n - length l).

(** One rank's arguments to exchangeAllToAllV (MPI/CommMPI.hpp:110-111): the two
    send vectors and the prior contents of the two receive vectors. *)
Record xarg (D : Type) := {
  xa_dest : list Z; xa_send : list D; xa_src0 : list Z; xa_recv0 : list D }.
Arguments xa_dest {D} _. Arguments xa_send {D} _.
Arguments xa_src0 {D} _. Arguments xa_recv0 {D} _. Arguments Build_xarg {D} _ _ _ _.

(** The same four vectors after the call (MPI/CommMPI.hpp:110-111) *)
Record xres (D : Type) := {
  xr_dest : list Z; xr_send : list D; xr_src : list Z; xr_recv : list D }.
Arguments xr_dest {D} _. Arguments xr_send {D} _.
Arguments xr_src {D} _. Arguments xr_recv {D} _. Arguments Build_xres {D} _ _ _ _.

(** MPI/CommMPI.hpp:123-133: counting the destinations.  The atomic increments of
    the OpenMP loop commute, so the loop is run sequentially; a destination
    outside 0..nProcs-1 (the assert at line 130) is [UB].  Counts are unbounded
    naturals: more than 2^31-1 items per pair is out of the model's range. *)
Definition countDest (nProcs : nat) (dests : list Z) : outcome (list nat) :=
  ofold (fun counts d =>
    if (0 <=? d)%Z && (d <? Z.of_nat nProcs)%Z then
      do c <- mread counts (Z.to_nat d);
      mwrite counts (Z.to_nat d) (S c)
    else UB) dests (repeat 0 nProcs).

(** MPI/CommMPI.hpp:159-164: filling the source ranks. *)
Definition fillSrc (nProcs : nat) (recvDispls : list nat) (src : list Z) : outcome (list Z) :=
  ofold (fun buf i =>
    do lb <- mread recvDispls i;
    do ub <- mread recvDispls (S i);
    splice buf lb (repeat (Z.of_nat i) (ub - lb))) (seq 0 nProcs) src.

(** MPI/CommMPI.hpp:110-165, exchangeAllToAllV, run by all ranks; [dflt] is the
    value-initialised Data of recvData.resize.  The two OpenMP sections (lines
    140-152) write disjoint vectors and are run in order. *)
Definition exchangeAllToAllV {D} (dflt : D) (args : list (xarg D)) : outcome (list (xres D)) :=
  let nProcs := length args in
  do sorted <- omap (fun a => sortDataWithTag Z.ltb (xa_dest a) (xa_send a)) args;
  do sendCounts <- omap (fun p => countDest nProcs (fst p)) sorted;
  do recvCounts <- MPI_Alltoall sendCounts;
  let sendDispls := map psum sendCounts in
  let recvDispls := map psum recvCounts in
  let total := map (fun d => last d 0) recvDispls in
  let recvData := map (fun p => vresize dflt (xa_recv0 (fst p)) (snd p)) (combine args total) in
  let recvSrc := map (fun p => vresize 0%Z (xa_src0 (fst p)) (snd p)) (combine args total) in
  let sendBufs := map (fun p => Build_vbuf (snd (fst p)) (fst (snd p)) (snd (snd p)))
                      (combine sorted (combine sendCounts sendDispls)) in
  let recvBufs := map (fun p => Build_vbuf (fst p) (fst (snd p)) (snd (snd p)))
                      (combine recvData (combine recvCounts recvDispls)) in
  do recvData' <- MPI_Alltoallv sendBufs recvBufs;
  do recvSrc' <- omap (fun p => fillSrc nProcs (fst p) (snd p)) (combine recvDispls recvSrc);
  Done (map (fun p => Build_xres (fst (fst p)) (snd (fst p)) (fst (snd p)) (snd (snd p)))
            (combine sorted (combine recvSrc' recvData'))).
