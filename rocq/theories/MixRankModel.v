(** Model of the interaction of two kinds of particles, MPI/MixPairInteraction.hpp, on all ranks, with the tree of CallModel.
    MixModel holds the particle types and updateSystem. *)
From Coq Require Import List Arith ZArith Bool.
From Verif Require Import Outcome ListUtil Arith ParticleModel GeoModel TreeModel LetModel CallModel MixModel.
Import ListNotations.

Section MixRank.
  Context {N : arith} {EPT EPS FPT FPS Force : Type} (PT : particle (vec N) N EPT) (PS : particle (vec N) N EPS) (copyT : FPT -> EPT) (copyS : FPS -> EPS).
  Notation epI := (mixEPI (vec N) N EPT).
  Notation epJ := (mixEPJ (vec N) N EPS).

  (** what is left open on a rank: the schedules of the loops, what systemMix, epi_org_, epj_org_ and forceResult hold before
      (MPI/MixPairInteraction.hpp:255-266, 303-307, FDPS/tree_for_force_impl.hpp:204-213) *)
  Record stage := Stage { k_o1 : list nat; k_o2 : list nat; k_mem : list (mixFP EPT EPS); k_epi : list epI; k_epj : list epJ; k_o3 : list nat; k_old : list Force }.

  (** setParticleLocalTreeImpl (FDPS/tree_for_force_impl.hpp:204-213): epi_org_ and epj_org_; position and radius as the tree sees them are
      those of the MixEPJ (FDPS/tree_for_force_impl.hpp:277) *)
  Definition enterTree (k : stage) (sys : list (mixFP EPT EPS)) : outcome (list (item N (epI * epJ))) :=
    omap (fun ip => do ei <- mread (k_epi k) (fst ip); do ej <- mread (k_epj k) (fst ip);
                    let i := iCopy PT PS ei (snd ip) in let j := jCopy PT PS ej (snd ip) in
                    Done (Item (Site (jPos PS j) (j_radius j)) (i, j))) (combine (seq 0 (length sys)) sys).
  (** a MixEPJ in the list of a group: setPos moved it to the position of its image (FDPS/tree_for_force_utils2.hpp:594, 638); the particles of
      the rank itself are not moved, here they get the position they have *)
  Definition sourceOf (e : item N (epI * epJ)) : epJ := jSetPos PS (snd (i_pay e)) (s_pos (i_site e)).
  (** the functor, target by target (FDPS/tree_for_force_impl_force.hpp:1355-1369, MPI/MixPairInteraction_test.cpp:109-140) *)
  Definition mixFunctor (kernel : epI -> list epJ -> Force -> Force) (epi epj : list (item N (epI * epJ))) (fs : list Force) : list Force :=
    map (fun ef => kernel (fst (i_pay (fst ef))) (map sourceOf epj) (snd ef)) (combine epi fs).
  (** forceResult.resize and the copy of the forces (MPI/MixPairInteraction.hpp:303-307); forceResult holds k_old after the resize *)
  Definition takeForces (k : stage) (forces : list Force) : outcome (list Force) :=
    ofold (fun out i => do f <- mread forces i; mwrite out i f) (k_o3 k) (k_old k).

  (** updateSystem on a rank (MPI/MixPairInteraction.hpp:247-269) and the copy into the tree *)
  Definition enterRank (fuel : nat) (root : ort N) (k : stage) (trg : list FPT) (src : list FPS) : outcome (list (item N (epI * epJ))) :=
    do sys <- updateSystem PT PS copyT copyS (k_o1 k) (k_o2 k) (adjustPosition fuel root) trg src (k_mem k);
    enterTree k sys.
  (** updateSystem and computeForce on all ranks (MPI/MixPairInteraction.hpp:247-269, 300-308); data holds the targets and the sources of the ranks *)
  Definition mixForces (kernel : epI -> list epJ -> Force -> Force) (clear : Force -> Force) (k : nat -> stage) (q : nat -> cast N (epI * epJ) Force) (trunc : N -> Z)
    (fuel : nat) (pa : vec bool) (root : ort N) (doms : list (ort N)) (limit grpLimit : Z) (data : list (list FPT * list FPS)) : outcome (list (list Force)) :=
    do E <- omap (fun r => do d <- mread data r; enterRank fuel root (k r) (fst d) (snd d)) (seq 0 (length data));
    do res <- CallModel.calcForceAll (mixFunctor kernel) clear q trunc fuel pa root doms limit grpLimit E;
    omap (fun r => do x <- mread res r; takeForces (k r) (snd x)) (seq 0 (length data)).

  (** a functor as in MPI/MixPairInteraction_test.cpp:109-140: it looks at pairs of a target and a source only, and takes those that near accepts *)
  Definition nearKernel (near : EPT -> N -> EPS -> N -> bool) (zero : Force) (add : EPT -> EPS -> Force -> Force) : epI -> list epJ -> Force -> Force :=
    pairKernel (fun e j => near (i_ep e) (i_radius e) (j_ep j) (j_radius j)) zero (fun e j => add (i_ep e) (j_ep j)).
End MixRank.
Arguments stage : clear implicits.
