(** Model of the collective functions of Util/PointDistribution.cpp. *)
From Coq Require Import List Arith ZArith Bool.
From Verif Require Import Outcome ListUtil MPIModel CommModel F64.
Import ListNotations.
Local Open Scope Z_scope.

(** the int variables of Util/PointDistribution.cpp:185-197 *)
Definition INT_MAX : Z := 2147483647.
(** the int variables of Util/PointDistribution.cpp:185-197 *)
Definition INT_MIN : Z := -2147483648.

(** C++ [int] arithmetic result: out of range is undefined behaviour (the int variables of Util/PointDistribution.cpp:185-197) *)
Definition as_int (z : Z) : outcome Z :=
  if (INT_MIN <=? z) && (z <=? INT_MAX) then Done z else UB.

(** conversion double -> int (Util/PointDistribution.cpp:194,196): truncation,
    undefined when the value does not fit. *)
Definition double_to_int (x : f64) : outcome Z :=
  if f_finite x then as_int (f_trunc x) else UB.

(** Util/PointDistribution.cpp:194 and 196:
    dimension * floor(k * nPts / static_cast<double>(nProcs)), with k = myRank
    or myRank+1; the product k*nPts is computed in int. *)
Definition blockIndex (dimension k nPts nProcs : Z) : outcome Z :=
  do prod <- as_int (k * nPts);
  double_to_int (fmul (f_ofZ dimension) (ffloor (fdiv (f_ofZ prod) (f_ofZ nProcs)))).

(** Util/PointDistribution.cpp:191-203: the portion one rank keeps of the
    broadcast points. *)
Definition takePortion {A} (pts : list A) (dimension myRank nProcs : Z) : outcome (list A) :=
  let ptsGlobalSize := Z.of_nat (length pts) in
  if dimension =? 0 then UB else
  let nPts := Z.quot ptsGlobalSize dimension in
  do indexlow <- blockIndex dimension myRank nPts nProcs;
  do k1 <- as_int (myRank + 1);
  do high <- blockIndex dimension k1 nPts nProcs;
  let indexhigh := if myRank =? nProcs - 1 then ptsGlobalSize else high in
  if (0 <=? indexlow) && (indexlow <=? indexhigh) && (indexhigh <=? ptsGlobalSize)
  then Done (slice (Z.to_nat indexlow) (Z.to_nat (indexhigh - indexlow)) pts) else UB.

(** Util/PointDistribution.cpp:167-204, distributePts, run by all ranks.  The two
    broadcasts (176-188) give every rank the root's vector; the size must fit
    an int. *)
Definition distributePts {A} (dimension : Z) (ranks : list (list A)) : outcome (list (list A)) :=
  match ranks with
  | [] => Done []
  | [p] => Done [p]
  | root :: _ =>
      do _ <- as_int (Z.of_nat (length root));
      omap (fun r => takePortion root dimension (Z.of_nat r) (Z.of_nat (length ranks)))
           (seq 0 (length ranks))
  end.

(** Util/PointDistribution.cpp:224-227: summing the gathered sizes in an int. *)
Definition sumSizes (sizes : list nat) : outcome Z :=
  ofold (fun acc p => as_int (acc + Z.of_nat p)) sizes 0.

(** Util/PointDistribution.cpp:229-235: displacements. *)
Definition collectDispls (sizes : list nat) : outcome (list nat) :=
  ofold (fun d i =>
    do a <- mread sizes (i - 1);
    do b <- mread d (i - 1);
    mwrite d i (a + b)%nat) (seq 1 (length sizes - 1)) (repeat 0%nat (length sizes)).

(** Util/PointDistribution.cpp:206-255, collectPts, run by all ranks; [d0] is the
    value-initialised element of ptsRecv.  MPI_Gather gives the root all sizes;
    on the other ranks recvSize is empty, so ptsRecv is empty. *)
Definition collectPts {A} (d0 : A) (ranks : list (list A)) : outcome (list (list A)) :=
  match ranks with
  | [] => Done []
  | [p] => Done [p]
  | _ =>
      let recvSize := map (@length A) ranks in
      do ptsGlobalSize <- sumSizes recvSize;
      do displs <- collectDispls recvSize;
      let ptsRecv := repeat d0 (Z.to_nat ptsGlobalSize) in
      do root <- MPI_Gatherv_root ranks (Build_vbuf ptsRecv recvSize displs);
      Done (root :: map (fun _ => []) (tl ranks))
  end.

(** Util/PointDistribution.cpp:257-266, collectPtsAll: collect, then broadcast the
    root's size and content. *)
Definition collectPtsAll {A} (d0 : A) (ranks : list (list A)) : outcome (list (list A)) :=
  do coll <- collectPts d0 ranks;
  match coll with
  | [] => Done []
  | root :: _ =>
      do _ <- as_int (Z.of_nat (length root));
      Done (map (fun _ => root) coll)
  end.
