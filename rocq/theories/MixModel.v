(** Model of the interaction of two kinds of particles, MPI/MixPairInteraction.hpp, on one rank.
    The tree (sorting, groups, interaction lists) is an oracle given by its results. *)
From Coq Require Import List Arith Bool.
From Verif Require Import Outcome ListUtil.
Import ListNotations.

(** getPos, setPos, getRSearch of an essential particle type (required by MPI/MixPairInteraction.hpp:20-31) *)
Record particle (Pos Rad T : Type) := Particle { getPos : T -> Pos; setPos : T -> Pos -> T; getRSearch : T -> Rad }.
Arguments Particle {Pos Rad T}. Arguments getPos {Pos Rad T}. Arguments setPos {Pos Rad T}. Arguments getRSearch {Pos Rad T}.

Section Mix.
  Context {Pos Rad EPT EPS FPT FPS Force : Type} (PT : particle Pos Rad EPT) (PS : particle Pos Rad EPS) (copyT : FPT -> EPT) (copyS : FPS -> EPS).

  (** MPI/MixPairInteraction.hpp:45-49 *)
  Record mixFP := MixFP { trgFlag : bool; epTrg : EPT; epSrc : EPS }.
  (** MPI/MixPairInteraction.hpp:51 *)
  Definition fpRadius (p : mixFP) : Rad := if trgFlag p then getRSearch PT (epTrg p) else getRSearch PS (epSrc p).
  (** MPI/MixPairInteraction.hpp:59 *)
  Definition fpPos (p : mixFP) : Pos := if trgFlag p then getPos PT (epTrg p) else getPos PS (epSrc p).
  (** MPI/MixPairInteraction.hpp:67 *)
  Definition fpSetPos (p : mixFP) (x : Pos) : mixFP :=
    if trgFlag p then MixFP (trgFlag p) (setPos PT (epTrg p) x) (epSrc p) else MixFP (trgFlag p) (epTrg p) (setPos PS (epSrc p) x).

  (** MPI/MixPairInteraction.hpp:76-80 *)
  Record mixEPI := MixEPI { i_trg : bool; i_radius : Rad; i_pos : Pos; i_ep : EPT }.
  (** MPI/MixPairInteraction.hpp:84 *)
  Definition iPos (e : mixEPI) : Pos := if i_trg e then getPos PT (i_ep e) else i_pos e.
  (** MPI/MixPairInteraction.hpp:86-91 *)
  Definition iSetPos (e : mixEPI) (x : Pos) : mixEPI :=
    if i_trg e then MixEPI (i_trg e) (i_radius e) (i_pos e) (setPos PT (i_ep e) x) else MixEPI (i_trg e) (i_radius e) x (i_ep e).
  (** MPI/MixPairInteraction.hpp:94-101; [e] is the object copied to *)
  Definition iCopy (e : mixEPI) (p : mixFP) : mixEPI :=
    iSetPos (MixEPI (trgFlag p) (fpRadius p) (i_pos e) (if trgFlag p then epTrg p else i_ep e)) (fpPos p).

  (** MPI/MixPairInteraction.hpp:109-114 *)
  Record mixEPJ := MixEPJ { j_src : bool; j_radius : Rad; j_pos : Pos; j_ep : EPS }.
  (** MPI/MixPairInteraction.hpp:118 *)
  Definition jPos (e : mixEPJ) : Pos := if j_src e then getPos PS (j_ep e) else j_pos e.
  (** MPI/MixPairInteraction.hpp:120-125 *)
  Definition jSetPos (e : mixEPJ) (x : Pos) : mixEPJ :=
    if j_src e then MixEPJ (j_src e) (j_radius e) (j_pos e) (setPos PS (j_ep e) x) else MixEPJ (j_src e) (j_radius e) x (j_ep e).
  (** MPI/MixPairInteraction.hpp:128-135 *)
  Definition jCopy (e : mixEPJ) (p : mixFP) : mixEPJ :=
    jSetPos (MixEPJ (negb (trgFlag p)) (fpRadius p) (j_pos e) (if negb (trgFlag p) then epSrc p else j_ep e)) (fpPos p).

  (** MPI/MixPairInteraction.hpp:247-269; [mem] is systemMix after the resize (left-over contents), [o1] [o2] the schedules of the loops,
      [wrap] adjustPositionIntoRootDomain for one position *)
  Definition updateSystem (o1 o2 : list nat) (wrap : Pos -> outcome Pos) (trg : list FPT) (src : list FPS) (mem : list mixFP) : outcome (list mixFP) :=
    do m <- ofold (fun m i => do t <- mread trg i; do p <- mread m i; mwrite m i (MixFP true (copyT t) (epSrc p))) o1 mem;
    do m <- ofold (fun m i => do s <- mread src i; do p <- mread m (i + length trg); mwrite m (i + length trg) (MixFP false (epTrg p) (copyS s))) o2 m;
    omap (fun p => do x <- wrap (fpPos p); Done (fpSetPos p x)) m.

  (** a group of targets: first one, number, and the interaction list made for it (FDPS/tree_for_force_impl_force.hpp:1317-1322) *)
  Record group := Group { g_first : nat; g_count : nat; g_list : list mixEPJ }.
  (** what the tree decides: adr_org_from_adr_sorted_loc_ and the groups (used by FDPS/tree_for_force_impl_force.hpp:1310-1370) *)
  Record tree := Tree { t_adr : list nat; t_groups : list group }.
  (** FDPS/tree_for_force_impl_force.hpp:1355-1369; [kernel] is what the functor does for one target, [zero] the cleared force *)
  Definition calcForceOnly (kernel : mixEPI -> list mixEPJ -> Force -> Force) (zero : Force) (sorted : list mixEPI) (fs : list Force) (g : group) : outcome (list Force) :=
    if g_first g + g_count g <=? length sorted
    then splice fs (g_first g) (map (fun e => kernel e (g_list g) zero) (firstn (g_count g) (skipn (g_first g) sorted)))
    else UB.
  (** FDPS/tree_for_force.hpp:839-840 with FDPS/tree_for_force_impl.hpp:207-209, 301-305, FDPS/tree_for_force_impl_force.hpp:1301-1349 and
      FDPS/tree_for_force_impl.hpp:926-939; [o3] [o4] schedules, [ei] [fs] [fo] left-over contents of epi_org_, force_sorted_, force_org_ *)
  Definition calcForceAll (kernel : mixEPI -> list mixEPJ -> Force -> Force) (zero : Force) (t : tree) (o3 o4 : list nat)
    (ei : list mixEPI) (fs fo : list Force) (sys : list mixFP) : outcome (list Force) :=
    do epi <- omap (fun ip => do e <- mread ei (fst ip); Done (iCopy e (snd ip))) (combine (seq 0 (length sys)) sys);
    do sorted <- omap (mread epi) (t_adr t);
    do fs <- ofold (fun fs k => do g <- mread (t_groups t) k; calcForceOnly kernel zero sorted fs g) o3 fs;
    ofold (fun fo i => do a <- mread (t_adr t) i; do f <- mread fs i; mwrite fo a f) o4 fo.
  (** MPI/MixPairInteraction.hpp:300-308 *)
  Definition computeForce (kernel : mixEPI -> list mixEPJ -> Force -> Force) (zero : Force) (t : tree) (o3 o4 : list nat)
    (ei : list mixEPI) (fs fo : list Force) (sys : list mixFP) (nLocalTrg : nat) : outcome (list Force) :=
    do fo <- calcForceAll kernel zero t o3 o4 ei fs fo sys;
    omap (mread fo) (seq 0 nLocalTrg).

  (** the functor as in MPI/MixPairInteraction_test.cpp:109-140, one target: skip everything but (target, source) pairs in range *)
  Definition pairKernel (inRange : mixEPI -> mixEPJ -> bool) (zero : Force) (add : mixEPI -> mixEPJ -> Force -> Force) (e : mixEPI) (l : list mixEPJ) (_ : Force) : Force :=
    if i_trg e then fold_left (fun f j => if j_src j then if inRange e j then add e j f else f else f) l zero else zero.
End Mix.
Arguments mixFP : clear implicits. Arguments mixEPI : clear implicits. Arguments mixEPJ : clear implicits. Arguments group : clear implicits. Arguments tree : clear implicits.
