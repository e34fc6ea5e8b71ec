(** What the interaction of two kinds of particles is to do on all ranks. *)
From Coq Require Import List ZArith Reals Permutation.
From Verif Require Import Outcome Arith ParticleModel VecSpec GeoSpec TreeModel TreeSpec LetModel LetSpec CallModel CallSpec MixModel MixSpec MixRankModel.
Import ListNotations.
Local Open Scope R_scope.

(** q is p brought into the box *)
Definition brought (root : ort R) (p q : vec R) : Prop :=
  forall c, In c coords -> c (olow root) <= c q < c (ohigh root) /\ GeoSpec.image (edge root c) (c p) (c q).

(** squared distance *)
Definition gap2 (p q : vec R) : R := (vx p - vx q) ^ 2 + (vy p - vy q) ^ 2 + (vz p - vz q) ^ 2.

Section MixRank.
  Context {EPT EPS FPT FPS Force : Type} (PT : particle (vec R) R EPT) (PS : particle (vec R) R EPS) (copyT : FPT -> EPT) (copyS : FPS -> EPS).
  Notation item := (item R_arith (EPT + EPS)).

  (** a target or a source in the box: where it is, how far it searches, and its data with the new position *)
  Definition in_box (root : ort R) (x : EPT + EPS) (e : item) : Prop :=
    let p := s_pos (i_site e) in
    match x with
    | inl t => brought root (getPos PT t) p /\ s_rad (i_site e) = getRSearch PT t /\ i_pay e = inl (setPos PT t p)
    | inr s => brought root (getPos PS s) p /\ s_rad (i_site e) = getRSearch PS s /\ i_pay e = inr (setPos PS s p)
    end.
  (** the particles of a rank: its targets, then its sources *)
  Definition together (root : ort R) (d : list FPT * list FPS) (own : list item) : Prop :=
    Forall2 (in_box root) (map (fun t => inl (copyT t)) (fst d) ++ map (fun s => inr (copyS s)) (snd d)) own.

  (** what is left open on a rank with nt targets and ns sources *)
  Definition any_stage (nt ns : nat) (k : stage R_arith EPT EPS Force) : Prop :=
    Permutation (k_o1 k) (seq 0 nt) /\ Permutation (k_o2 k) (seq 0 ns) /\ length (k_mem k) = (nt + ns)%nat /\ length (k_epi k) = (nt + ns)%nat /\ length (k_epj k) = (nt + ns)%nat /\
    Permutation (k_o3 k) (seq 0 nt) /\ length (k_old k) = nt.

  (** the functor takes no pair for which neither is in the search sphere of the other *)
  Definition short (near : EPT -> R -> EPS -> R -> bool) : Prop :=
    forall t rt s rs, near t rt s rs = true -> gap2 (getPos PT t) (getPos PS s) <= rt ^ 2 \/ gap2 (getPos PT t) (getPos PS s) <= rs ^ 2.

  (** y is image k of source j of rank s, and rs its search radius *)
  Definition source_image (pa : vec bool) (root : ort R) (E : list (list item)) (tag : nat * Z * vec Z) (y : EPS) (rs : R) : Prop :=
    let '(s, j, k) := tag in lattice pa k /\ exists l f p, nth_error E s = Some l /\ at_ l j f /\ i_pay f = inr p /\ y = setPos PS p (away root k (s_pos (i_site f))) /\ rs = s_rad (i_site f).
  (** force i is made of the images of sources that are near target i, whatever rank they are on, each of them once *)
  Definition forces_ok (near : EPT -> R -> EPS -> R -> bool) (zero : Force) (add : EPT -> EPS -> Force -> Force) (pa : vec bool) (root : ort R) (E : list (list item)) (own : list item) (nTrg : nat) (forces : list Force) : Prop :=
    length forces = nTrg /\
    forall i, (i < nTrg)%nat -> exists e t (tags : list (nat * Z * vec Z)) ys, nth_error own i = Some e /\ i_pay e = inl t /\ NoDup tags /\
      Forall2 (fun tag y => exists rs, source_image pa root E tag y rs /\ near t (s_rad (i_site e)) y rs = true) tags ys /\
      (forall tag y rs, source_image pa root E tag y rs -> near t (s_rad (i_site e)) y rs = true -> In tag tags) /\
      nth_error forces i = Some (fold_left (fun f y => add t y f) ys zero).

  (** a run: data are the targets and sources of the ranks, E the particles brought into the box *)
  Record prepared (pa : vec bool) (root : ort R) (doms : list (ort R)) (limit grpLimit : Z) (k : nat -> stage R_arith EPT EPS Force) (q : nat -> cast R_arith (mixEPI (vec R) R EPT * mixEPJ (vec R) R EPS) Force)
    (data : list (list FPT * list FPS)) (E : list (list item)) : Prop := {
    p_box : Forall2 (together root) data E;
    p_arena : arena pa root doms E;
    p_room : roomy pa root doms E;
    p_limit : (1 <= limit <= grpLimit)%Z;
    p_stage : forall r d, nth_error data r = Some d -> any_stage (length (fst d)) (length (snd d)) (k r);
    p_cast : exists threads, forall r, any_cast (length doms) threads limit (length (nth r E [])) (q r) }.
  Definition commutes (add : EPT -> EPS -> Force -> Force) : Prop := forall t x y f, add t x (add t y f) = add t y (add t x f).
End MixRank.
