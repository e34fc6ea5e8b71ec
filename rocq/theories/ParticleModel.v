(** Model of FDPS/particle_system.hpp (MPI build: both CMakeLists.txt define
    PARTICLE_SIMULATOR_MPI_PARALLEL; three dimensions). *)
From Coq Require Import List Arith ZArith Bool.
From Verif Require Import Outcome ListUtil MPIModel SortModel F64 PointsModel.
Import ListNotations.

(** std::swap(a[i], a[j]) and the three-assignment swaps of
    FDPS/particle_system.hpp:598-600, 609-612, 881. *)
Definition swap {A} (l : list A) (i j : nat) : outcome (list A) :=
  do hold <- mread l j;
  do pi <- mread l i;
  do l1 <- mwrite l j pi;
  mwrite l1 i hold.

(** ** removeParticle *)

(** std::unique (FDPS/particle_system.hpp:872): drops an element equal to its
    predecessor. *)
Fixpoint unique (l : list Z) : list Z :=
  match l with
  | a :: (b :: _) as r => if Z.eqb a b then unique r else a :: unique r
  | _ => l
  end.
Arguments unique !l.

(** FDPS/particle_system.hpp:876-879: one iteration; state = (ptcl, i_loc). *)
Definition removeStep {P} (st : list P * Z) (idx : Z) : outcome (list P * Z) :=
  let '(ptcl, i_loc) := st in
  if (0 <=? idx)%Z && (0 <=? i_loc)%Z then
    do ptcl' <- swap ptcl (Z.to_nat idx) (Z.to_nat i_loc);
    Done (ptcl', (i_loc - 1)%Z)
  else UB.

(** FDPS/particle_system.hpp:866-880, removeParticle; the sort of ints has a
    unique result, so stable_sort stands for std::sort. *)
Definition removeParticle {P} (ptcl : list P) (idx : list Z) : outcome (list P) :=
  let idx_remove := unique (stable_sort Z.ltb idx) in
  do st <- ofold removeStep (rev idx_remove) (ptcl, (Z.of_nat (length ptcl) - 1)%Z);
  let '(ptcl', i_loc) := st in
  Done (firstn (Z.to_nat (i_loc + 1)) ptcl').

(** ** getSampleParticle *)

(** FDPS/particle_system.hpp:544-559: frand() returns k*2^-53 for the 53-bit
    output k of MT::genrand_res53; the scaled value is truncated to S32. *)
Definition uniformDraw (arg1 arg2 k : Z) : outcome Z :=
  do n <- as_int (arg2 - arg1 + 1);
  do t <- double_to_int (fmul (f_ofZ n) (f_lit k (-53)));
  as_int (t + arg1).

(** FDPS/particle_system.hpp:596-602: iteration i of the shuffle; state =
    (ptcl, record so far). *)
Definition sampleStep {P} (nloc : nat) (st : list P * list nat) (ik : nat * Z)
  : outcome (list P * list nat) :=
  let '(ptcl, record) := st in
  let '(i, k) := ik in
  do j <- uniformDraw (Z.of_nat i) (Z.of_nat nloc - 1) k;
  if (j <? 0)%Z then UB else
  do ptcl' <- swap ptcl i (Z.to_nat j);
  Done (ptcl', record ++ [Z.to_nat j]).

(** FDPS/particle_system.hpp:607-613: iteration i of the undo loop. *)
Definition undoStep {P} (record : list nat) (ptcl : list P) (i : nat) : outcome (list P) :=
  do j <- mread record i;
  swap ptcl i j.

(** FDPS/particle_system.hpp:566-618, getSampleParticle.  [wanted] is the value of
    (weight * n_smp_ptcl_tot_) / weight_all after conversion to S32 (line 573,
    float arithmetic not modelled), [draws] the successive 53-bit outputs of the
    generator (at least as many as samples).  Result: the samples and the array. *)
Definition getSampleParticle {P Pos} (getPos : P -> Pos) (ptcl : list P) (wanted : Z)
  (draws : list Z) : outcome (list Pos * list P) :=
  let nloc := length ptcl in
  let number := if (wanted <? Z.of_nat nloc)%Z then wanted else Z.of_nat nloc in
  if (number <? 0)%Z then UB (* new S32[negative] *) else
  let n := Z.to_nat number in
  if length draws <? n then UB else
  do st <- ofold (sampleStep nloc) (combine (seq 0 n) draws) (ptcl, []);
  let '(shuffled, record) := st in
  do samples <- omap (fun i => do p <- mread shuffled i; Done (getPos p)) (seq 0 n);
  do restored <- ofold (undoStep record) (rev (seq 0 n)) shuffled;
  Done (samples, restored).

(** ** exchangeParticle *)

(** FDPS/vector3.hpp (F64vec) and FDPS/orthotope3.hpp (F64ort): only comparisons of
    coordinates are used, so the coordinate type is a parameter. *)
Record vec (C : Type) := Vec { vx : C; vy : C; vz : C }.
Arguments Vec {C} _ _ _. Arguments vx {C} _. Arguments vy {C} _. Arguments vz {C} _.
(** FDPS/orthotope3.hpp:11-12 *)
Record ort (C : Type) := Ort { olow : vec C; ohigh : vec C }.
Arguments Ort {C} _ _. Arguments olow {C} _. Arguments ohigh {C} _.

Section Exchange.
  Context {C P : Type} (le lt : C -> C -> bool) (getPos : P -> vec C).

  (** FDPS/particle_system.hpp:23-33 *)
  Definition inDomain (p : vec C) (d : ort C) : bool :=
    (le (vx (olow d)) (vx p) && lt (vx p) (vx (ohigh d))) &&
    (le (vy (olow d)) (vy p) && lt (vy p) (vy (ohigh d))) &&
    (le (vz (olow d)) (vz p) && lt (vz p) (vz (ohigh d))).

  (** FDPS/orthotope3.hpp:96-100 *)
  Definition notOverlapped (d : ort C) (p : vec C) : bool :=
    lt (vx p) (vx (olow d)) || lt (vx (ohigh d)) (vx p)
    || lt (vy p) (vy (olow d)) || lt (vy (ohigh d)) (vy p)
    || lt (vz p) (vz (olow d)) || lt (vz (ohigh d)) (vz p).

  (** one of the three while loops of FDPS/particle_system.hpp:48-55 *)
  Fixpoint advance (fuel : nat) (high : ort C -> C) (step : nat) (x : C)
    (domain : list (ort C)) (i : nat) : outcome nat :=
    match fuel with
    | O => NoFuel
    | S f =>
        do d <- mread domain i;
        if le (high d) x then advance f high step x domain (i + step) else Done i
    end.

  (** FDPS/particle_system.hpp:35-58, searchWhichDomainParticleGoTo (3D); reading
      past the array of domains is [UB]. *)
  Definition search (p : vec C) (n_domain : nat * nat * nat) (domain : list (ort C)) : outcome nat :=
    let '(_, ny, nz) := n_domain in
    let fuel := S (length domain) in
    do i <- advance fuel (fun d => vx (ohigh d)) (ny * nz) (vx p) domain 0;
    do j <- advance fuel (fun d => vy (ohigh d)) nz (vy p) domain i;
    advance fuel (fun d => vz (ohigh d)) 1 (vz p) domain j.

  (** Domain information shared by all ranks (DomainInfo) (FDPS/domain_info.hpp:59-67) *)
  Record dinfo := { di_root : ort C; di_n : nat * nat * nat; di_dom : list (ort C) }.

  (** FDPS/particle_system.hpp:653-664: the counting pass; [None] is Abort(-1). *)
  Definition countStep (di : dinfo) (mine : ort C) (st : option (list nat)) (p : P)
    : outcome (option (list nat)) :=
    match st with
    | None => Done None
    | Some nsend =>
        if notOverlapped (di_root di) (getPos p) then Done None
        else if inDomain (getPos p) mine then Done (Some nsend)
        else
          do srank <- search (getPos p) (di_n di) (di_dom di);
          do c <- mread nsend srank;
          do nsend' <- mwrite nsend srank (S c);
          Done (Some nsend')
    end.

  (** FDPS/particle_system.hpp:675-686: the filling pass, iteration ip; state =
      (ptcl, iloc, ptcl_send, nsend). *)
  Definition fillStep (di : dinfo) (mine : ort C) (nsend_disp : list nat)
    (st : list P * nat * list P * list nat) (ip : nat) : outcome (list P * nat * list P * list nat) :=
    let '(ptcl, iloc, ptcl_send, nsend) := st in
    do p <- mread ptcl ip;
    if inDomain (getPos p) mine then
      do ptcl' <- mwrite ptcl iloc p;
      Done (ptcl', S iloc, ptcl_send, nsend)
    else
      do srank <- search (getPos p) (di_n di) (di_dom di);
      do c <- mread nsend srank;
      do d <- mread nsend_disp srank;
      do send' <- mwrite ptcl_send (c + d) p;
      do nsend' <- mwrite nsend srank (S c);
      Done (ptcl, iloc, send', nsend').

  (** What a rank has prepared before communicating (FDPS/particle_system.hpp:633-689) *)
  Record packed := { pk_kept : list P; pk_send : list P; pk_nsend : list nat; pk_disp : list nat }.

  (** FDPS/particle_system.hpp:633-689 on one rank.  [junk] is the content of the
      uninitialised send buffer. *)
  Definition pack (di : dinfo) (nproc rank : nat) (junk : P) (ptcl : list P) : outcome (option packed) :=
    do mine <- mread (di_dom di) rank;
    do cnt <- ofold (countStep di mine) ptcl (Some (repeat 0 nproc));
    match cnt with
    | None => Done None
    | Some nsend =>
        let nsend_disp := psum nsend in
        let ptcl_send := repeat junk (last nsend_disp 0) in
        do st <- ofold (fillStep di mine nsend_disp) (seq 0 (length ptcl))
                       (ptcl, 0, ptcl_send, repeat 0 nproc);
        let '(ptcl', iloc, send', nsend') := st in
        Done (Some {| pk_kept := firstn iloc ptcl'; pk_send := send'; pk_nsend := nsend'; pk_disp := nsend_disp |})
    end.

  (** FDPS/particle_system.hpp:703-710: few communication partners on this rank? *)
  Definition fewPartners (nsend nrecv : list nat) : bool :=
    (length (filter (fun c => 0 <? c) nsend) <? 500) && (length (filter (fun c => 0 <? c) nrecv) <? 500).

  (** FDPS/particle_system.hpp:712-732 on the receiving rank: the point-to-point
      messages from all other ranks (never from itself). *)
  Definition recvP2P (pks : list packed) (nproc rank : nat) (nrecv nrecv_disp : list nat)
    (iloc : nat) (buf : list P) : outcome (list P) :=
    ofold (fun buf ib =>
      let idrecv := (nproc + rank - ib) mod nproc in
      do c <- mread nrecv idrecv;
      if 0 <? c then
        do d <- mread nrecv_disp idrecv;
        do pk <- mread pks idrecv;
        do b <- vblock (Build_vbuf (pk_send pk) (pk_nsend pk) (pk_disp pk)) rank;
        if length b =? c then splice buf (d + iloc) b else UB
      else Done buf) (seq 1 (nproc - 1)) buf.

  (** State of one rank: particles and the two migration counters (FDPS/particle_system.hpp:624-767) *)
  Record prank := { pr_ptcl : list P; pr_nsend : nat; pr_nrecv : nat }.

  (** FDPS/particle_system.hpp:624-767, exchangeParticle, run by all ranks.
      [None]: some rank called Abort(-1).  [junk] stands for uninitialised
      memory. *)
  Definition exchangeParticle (di : dinfo) (junk : P) (ranks : list prank) : outcome (option (list prank)) :=
    let nproc := length ranks in
    do opks <- omap (fun r => do s <- mread ranks r; pack di nproc r junk (pr_ptcl s)) (seq 0 nproc);
    if existsb (fun o => match o with None => true | _ => false end) opks then Done None else
    let pks := flat_map (fun o => match o with Some p => [p] | None => [] end) opks in
    do nrecvs <- MPI_Alltoall (map pk_nsend pks);
    let p2p := forallb (fun q => fewPartners (pk_nsend (fst q)) (snd q)) (combine pks nrecvs) in
    do news <- omap (fun r =>
      do s <- mread ranks r;
      do pk <- mread pks r;
      do nrecv <- mread nrecvs r;
      let nrecv_disp := psum nrecv in
      let iloc := length (pk_kept pk) in
      let buf := pk_kept pk ++ repeat junk (last nrecv_disp 0) in
      do buf' <- (if p2p then recvP2P pks nproc r nrecv nrecv_disp iloc buf
                  else ofold (fun buf s =>
                         do pks' <- mread pks s;
                         do b <- vblock (Build_vbuf (pk_send pks') (pk_nsend pks') (pk_disp pks')) r;
                         do c <- mread nrecv s;
                         do d <- mread nrecv_disp s;
                         if length b =? c then splice buf (iloc + d) b else UB) (seq 0 nproc) buf);
      Done {| pr_ptcl := buf'; pr_nsend := pr_nsend s + last (pk_disp pk) 0;
              pr_nrecv := pr_nrecv s + last nrecv_disp 0 |}) (seq 0 nproc);
    Done (Some news).
End Exchange.
