(** MPI collectives as pure functions on the list of all ranks' arguments
    (MPI standard semantics; modelling device, the library code only calls
    them).  Rank r is position r of each list.  A mismatch between matching
    send and receive counts, or an access outside a buffer, is [UB]. *)
From Coq Require Import List Arith.
From Verif Require Import Outcome ListUtil.
Import ListNotations.

(** MPI_Alltoall with one element per peer: send[s][r] goes to recv[r][s].
    Called at MPI/CommMPI.hpp:135 and FDPS/particle_system.hpp:693. *)
Definition MPI_Alltoall {A} (send : list (list A)) : outcome (list (list A)) :=
  omap (fun r => omap (fun row => mread row r) send) (seq 0 (length send)).

(** A displacement/count description of one rank's buffer (the arguments at MPI/CommMPI.hpp:157-158) *)
Record vbuf (A : Type) := { vdata : list A; vcounts : list nat; vdispls : list nat }.
Arguments vdata {A} _. Arguments vcounts {A} _. Arguments vdispls {A} _.
Arguments Build_vbuf {A} _ _ _.

(** The block that the owner of [b] exchanges with peer [p] (the arguments at MPI/CommMPI.hpp:157-158) *)
Definition vblock {A} (b : vbuf A) (p : nat) : outcome (list A) :=
  do c <- mread (vcounts b) p;
  do d <- mread (vdispls b) p;
  if d + c <=? length (vdata b) then Done (slice d c (vdata b)) else UB.

(** MPI_Alltoallv: [send] and [recv] describe all ranks' buffers; the result is
    the content of all receive buffers.  Block (s -> r) is taken from rank s's
    send buffer at sendDispls[r] and stored in rank r's receive buffer at
    recvDispls[s].  Called at MPI/CommMPI.hpp:157-158, FDPS/particle_system.hpp:733
    (and equivalent to the Isend/Irecv pairs of lines 712-729). *)
Definition MPI_Alltoallv {A} (send recv : list (vbuf A)) : outcome (list (list A)) :=
  omap (fun r =>
    do rb <- mread recv r;
    ofold (fun buf s =>
      do sb <- mread send s;
      do b <- vblock sb r;
      do c <- mread (vcounts rb) s;
      do d <- mread (vdispls rb) s;
      if length b =? c then splice buf d b else UB)
      (seq 0 (length send)) (vdata rb))
    (seq 0 (length recv)).

(** MPI_Gatherv to root 0 (Util/PointDistribution.cpp:248-251): the content of
    the root's receive buffer. *)
Definition MPI_Gatherv_root {A} (sends : list (list A)) (recv : vbuf A) : outcome (list A) :=
  ofold (fun buf s =>
    do b <- mread sends s;
    do c <- mread (vcounts recv) s;
    do d <- mread (vdispls recv) s;
    if length b =? c then splice buf d b else UB)
    (seq 0 (length sends)) (vdata recv).
