(** Model of prepareStep and collectPairCollision on all ranks: Sylinder/SylinderSystem.cpp:612-620, 868-880, 886-933, 1151-1159, 1214-1223, with the
    steps as in GeoModel, ParticleModel, DomainModel, StepModel, IndexModel, CallModel and NearModel. *)
From Coq Require Import List Arith ZArith Bool.
From Verif Require Import Outcome ListUtil Arith VecModel SylModel ParticleModel DomainModel GeoModel IndexModel StepModel NearModel ConModel TreeModel LetModel CallModel.
Import ListNotations.

Section Pipe.
  Context {N : arith}.
  Local Open Scope arith_scope.
  Notation syl := (sylinder N).
  Notation prank := (@prank syl).

  (** dinfo (Sylinder/SylinderSystem.hpp:38): pos_root_domain_, n_domain_, coef_ema_ and pos_domain_, which is None until the first decomposition
      (FDPS/domain_info.hpp:48-65) *)
  Record domains := Domains { b_root : ort N; b_n : nat * nat * nat; b_coef : N; b_doms : option (list (ort N)) }.

  (** what is left open: the random numbers of a rank, the number of samples wanted on a rank (single precision), the sort of the samples, uninitialised
      memory, the orders of the two loops over the objects of a rank (FDPS/particle_system.hpp:544-579, FDPS/domain_info.hpp:801, 826, 861,
      FDPS/particle_system.hpp:646-689, Sylinder/SylinderSystem.cpp:897-911) *)
  Record luck := Luck {
    k_draw : nat -> nat -> Z; k_wanted : list nat -> nat -> Z; k_sort : (vec N -> N) -> list (vec N) -> list (vec N);
    k_junk : syl; k_loop1 : nat -> nat -> list nat; k_loop2 : nat -> nat -> list nat }.

  (** the particles of a rank replaced (ptcl_, FDPS/particle_system.hpp:17) *)
  Definition withPtcl (p : prank) (ss : list syl) : prank := Build_prank ss (pr_nsend p) (pr_nrecv p).

  (** applyBoxBC on a rank (Sylinder/SylinderSystem.cpp:1223, FDPS/particle_system.hpp:798-844) *)
  Definition applyBoxBC (fuel : nat) (root : ort N) (p : prank) : outcome prank :=
    do ss <- omap (fun s => do x <- adjustPosition fuel root (spos s); Done (withPose s x (orient s))) (pr_ptcl p);
    Done (withPtcl p ss).

  (** decomposeDomainAll with one particle system (FDPS/domain_info.hpp:269-330, 963-980): all samples are taken anew *)
  Definition decomposeDomainAll (k : luck) (b : domains) (ranks : list prank) : outcome (domains * list prank) :=
    let '(nx, ny, nz) := b_n b in
    let sizes := map (fun p => length (pr_ptcl p)) ranks in
    do smp <- omap (fun r => do p <- mread ranks r;
                     do x <- getSampleParticle (@spos N) (pr_ptcl p) (k_wanted k sizes r) (map (k_draw k r) (seq 0 (length (pr_ptcl p))));
                     Done (fst x, withPtcl p (snd x))) (seq 0 (length ranks));
    do doms <- decomposeDomain (fun u v => a_lit 1 (-1) * (u + v)) (fun t o => b_coef b * t + (a_Z 1 - b_coef b) * o) (k_sort k)
                 (b_root b) nx ny nz (length ranks) (b_doms b) (map fst smp);
    Done (Domains (b_root b) (b_n b) (b_coef b) (Some doms), map snd smp).

  (** Sylinder/SylinderSystem.cpp:612-615 *)
  Definition decomposeDomainStep (k : luck) (fuel : nat) (b : domains) (ranks : list prank) : outcome (domains * list prank) :=
    do ranks <- omap (applyBoxBC fuel (b_root b)) ranks;
    decomposeDomainAll k b ranks.

  (** one object in updateSylinderRank (Sylinder/SylinderSystem.cpp:1219) *)
  Definition withRank (r : Z) (s : syl) : syl :=
    Syl (s_gid s) (s_index s) r (s_group s) (immovable s) (radius s) (radiusCol s) (slength s) (lengthCol s)
        (radiusSearch s) (sepmin s) (colBuf s) (spos s) (orient s) (mot s).
  (** Sylinder/SylinderSystem.cpp:617-620, 1214-1221; None when a rank aborts. Before the first decomposition there are no domains to read. *)
  Definition exchangeSylinder (k : luck) (b : domains) (ranks : list prank) : outcome (option (list prank)) :=
    match b_doms b with
    | None => UB
    | Some doms =>
        do out <- exchangeParticle a_le a_lt (@spos N) {| di_root := b_root b; di_n := b_n b; di_dom := doms |} (k_junk k) ranks;
        Done (option_map (fun l => map (fun rp => withPtcl (snd rp) (map (withRank (Z.of_nat (fst rp))) (pr_ptcl (snd rp)))) (combine (seq 0 (length l)) l)) out)
    end.

  (** initialize after the objects are read (Sylinder/SylinderSystem.cpp:71-74) *)
  Definition distribute (k : luck) (fuel : nat) (b : domains) (ranks : list prank) : outcome (option (domains * list prank)) :=
    do x <- decomposeDomainStep k fuel b ranks;
    do out <- exchangeSylinder k (fst x) (snd x);
    Done (option_map (pair (fst x)) out).

  (** globalIndex of one object (Sylinder/SylinderSystem.cpp:878) *)
  Definition withIndex (s : syl) (i : Z) : syl :=
    Syl (s_gid s) i (s_rank s) (s_group s) (immovable s) (radius s) (radiusCol s) (slength s) (lengthCol s)
        (radiusSearch s) (sepmin s) (colBuf s) (spos s) (orient s) (mot s).

  (** prepareStep on all ranks up to the mobility operator (Sylinder/SylinderSystem.cpp:886-921); dmax is numeric_limits<double>::max() *)
  Definition prepareStep (k : luck) (fuel : nat) (dmax : N) (c : stepConfig N) (stepCount : Z) (b : domains) (ranks : list prank) : outcome (option (domains * list prank)) :=
    do ranks <- omap (applyBoxBC fuel (b_root b)) ranks;
    do x <- (if Z.eqb (Z.rem stepCount 50) 0 then decomposeDomainStep k fuel b ranks else Done (b, ranks));
    let '(b, ranks) := x in
    do out <- exchangeSylinder k b ranks;
    match out with
    | None => Done None
    | Some ranks =>
        do ranks <- omap (fun r => do p <- mread ranks r; let n := length (pr_ptcl p) in
                           do ss <- prepareObjects dmax c (Z.of_nat r) (k_loop1 k r n) (k_loop2 k r n) (pr_ptcl p);
                           Done (withPtcl p ss)) (seq 0 (length ranks));
        do m <- updateSylinderMap (map (fun p => length (pr_ptcl p)) ranks);
        Done (Some (b, map (fun pi => withPtcl (fst pi) (map (fun si => withIndex (fst si) (snd si)) (combine (pr_ptcl (fst pi)) (snd pi)))) (combine ranks (fst m))))
    end.

  (** the particle of the tree copied from an object (FDPS/tree_for_force_impl.hpp:196-223, Sylinder/SylinderNear.hpp:74-90) *)
  Definition treeItem (s : syl) : item N (nearEP N) := Item (siteOf (copyFromFP s)) (copyFromFP s).
  (** the object at the position of its tree particle, which setPos has changed for an image (Sylinder/SylinderNear.hpp:118-122) *)
  Definition itemRod (e : item N (nearEP N)) : nearEP N :=
    let y := i_pay e in NearEP (e_gid y) (e_index y) (e_rank y) (e_radius y) (e_length y) (e_radiusCol y) (e_lengthCol y) (e_colBuf y) (s_pos (i_site e)) (e_dir y).

  (** collectPairCollision on all ranks (Sylinder/SylinderSystem.cpp:1151-1159): the queues of the threads of each rank, empty before
      (Sylinder/SylinderSystem.cpp:927). func is what the functor writes into the forces of a group. *)
  Definition collectPairCollision {Fo} (func : list (item N (nearEP N)) -> list (item N (nearEP N)) -> list Fo -> list Fo) (clear : Fo -> Fo)
    (q : nat -> cast N (nearEP N) Fo) (trunc : N -> Z) (Pi : N) (threads fuel : nat) (pa : vec bool) (limit grpLimit : Z) (b : domains) (ranks : list prank)
    : outcome (list (list (list (block N)))) :=
    match b_doms b with
    | None => UB
    | Some doms =>
        do res <- calcForceAll func clear q trunc fuel pa (b_root b) doms limit grpLimit (map (fun p => map treeItem (pr_ptcl p)) ranks);
        omap (fun x => nearCalls Pi (map (fun c => (fst c, (map itemRod (fst (snd c)), map itemRod (snd (snd c))))) (fst x)) (repeat [] threads)) res
    end.
End Pipe.
Arguments domains : clear implicits.
Arguments luck : clear implicits.
