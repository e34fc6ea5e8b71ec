(** What the interaction of two kinds of particles is to do on all ranks in doubles, when no axis is periodic. *)
From Coq Require Import List ZArith Reals Permutation.
From Verif Require Import Outcome Arith ParticleModel TreeModel TreeSpec LetModel LetSpec CallModel CallSpec CallOpenSpec MixModel MixSpec MixRankModel.
Import ListNotations.
Local Open Scope R_scope.

(** squared distance, without rounding *)
Definition gap2_real (p q : vec F_arith) : R := (real (vx p) - real (vx q)) ^ 2 + (real (vy p) - real (vy q)) ^ 2 + (real (vz p) - real (vz q)) ^ 2.

Section MixOpen.
  Context {EPT EPS FPT FPS Force : Type} (PT : particle (vec F_arith) F_arith EPT) (PS : particle (vec F_arith) F_arith EPS) (copyT : FPT -> EPT) (copyS : FPS -> EPS).

  (** the particles of a rank: its targets, then its sources *)
  Definition members (d : list FPT * list FPS) : list (EPT + EPS) := map (fun t => inl (copyT t)) (fst d) ++ map (fun s => inr (copyS s)) (snd d).
  (** where a particle is and how far it searches *)
  Definition member_item (x : EPT + EPS) : item F_arith (EPT + EPS) :=
    Item match x with inl t => @Site F_arith (getPos PT t) (getRSearch PT t) | inr s => @Site F_arith (getPos PS s) (getRSearch PS s) end x.
  (** one is in the search sphere of the other, in the second case up to rounding *)
  Definition in_sight (t : EPT) (s : EPS) : Prop :=
    let d := gap2_real (getPos PT t) (getPos PS s) in d <= real (getRSearch PT t) ^ 2 \/ loose d <= real (getRSearch PS s) ^ 2.

  (** what is left open on a rank with nt targets and ns sources *)
  Definition any_stage_open (nt ns : nat) (k : stage F_arith EPT EPS Force) : Prop :=
    Permutation (k_o1 k) (seq 0 nt) /\ Permutation (k_o2 k) (seq 0 ns) /\ length (k_mem k) = (nt + ns)%nat /\ length (k_epi k) = (nt + ns)%nat /\ length (k_epj k) = (nt + ns)%nat /\
    Permutation (k_o3 k) (seq 0 nt) /\ length (k_old k) = nt.

  (** y is source j of rank s *)
  Definition source_at (data : list (list FPT * list FPS)) (tag : nat * nat) (y : EPS) : Prop :=
    exists d p, nth_error data (fst tag) = Some d /\ nth_error (snd d) (snd tag) = Some p /\ y = copyS p.
  (** force i is made of sources that are near target i, whatever rank they are on, none twice, and of all of them that are in sight *)
  Definition forces_open (near : EPT -> F_arith -> EPS -> F_arith -> bool) (zero : Force) (add : EPT -> EPS -> Force -> Force) (data : list (list FPT * list FPS)) (trg : list FPT) (forces : list Force) : Prop :=
    length forces = length trg /\
    forall i p, nth_error trg i = Some p -> let t := copyT p in exists (tags : list (nat * nat)) ys, NoDup tags /\
      Forall2 (fun tag y => source_at data tag y /\ near t (getRSearch PT t) y (getRSearch PS y) = true) tags ys /\
      (forall tag y, source_at data tag y -> near t (getRSearch PT t) y (getRSearch PS y) = true -> in_sight t y -> In tag tags) /\
      nth_error forces i = Some (fold_left (fun f y => add t y f) ys zero).

  (** the sources of all ranks *)
  Definition sources (data : list (list FPT * list FPS)) : list EPS := flat_map (fun d => map copyS (snd d)) data.

  (** a run: data are the targets and sources of the ranks, each in the domain of its rank *)
  Record ready_open (root : ort F_arith) (doms : list (ort F_arith)) (limit grpLimit : Z) (k : nat -> stage F_arith EPT EPS Force)
    (q : nat -> cast F_arith (mixEPI (vec F_arith) F_arith EPT * mixEPJ (vec F_arith) F_arith EPS) Force) (data : list (list FPT * list FPS)) : Prop := {
    o_arena : arena_open root doms (map (fun d => map member_item (members d)) data);
    o_limit : (1 <= limit <= grpLimit)%Z;
    o_stage : forall r d, nth_error data r = Some d -> any_stage_open (length (fst d)) (length (snd d)) (k r);
    o_cast : exists threads, forall r, any_cast (length doms) threads limit (length (members (nth r data ([], [])))) (q r) }.
End MixOpen.
