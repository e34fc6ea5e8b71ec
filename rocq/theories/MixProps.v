(** C48: interaction of two kinds of particles. *)
From Coq Require Import List Arith Bool Permutation Lia.
From Verif Require Import Outcome ListUtil MixModel MixSpec MixProofs.
Import ListNotations.

(** one system of targets first and sources after, in order, at wrapped positions, whatever the memory held and however the loops are scheduled *)
Theorem C48_system : forall (Pos Rad EPT EPS FPT FPS : Type) (PT : particle Pos Rad EPT) (PS : particle Pos Rad EPS) (copyT : FPT -> EPT) (copyS : FPS -> EPS) o1 o2 wrap trg src mem,
  Permutation o1 (seq 0 (length trg)) -> Permutation o2 (seq 0 (length src)) -> length mem = length trg + length src ->
  (forall t, In t trg -> exists x, wrap (getPos PT (copyT t)) = Done x) -> (forall s, In s src -> exists x, wrap (getPos PS (copyS s)) = Done x) ->
  exists sys, updateSystem PT PS copyT copyS o1 o2 wrap trg src mem = Done sys /\ length sys = length trg + length src /\
    (forall i t, nth_error trg i = Some t -> exists x p, wrap (getPos PT (copyT t)) = Done x /\ nth_error sys i = Some p /\ trgFlag p = true /\ epTrg p = setPos PT (copyT t) x) /\
    (forall i s, nth_error src i = Some s -> exists x p, wrap (getPos PS (copyS s)) = Done x /\ nth_error sys (length trg + i) = Some p /\ trgFlag p = false /\ epSrc p = setPos PS (copyS s) x).
Proof. intros Pos Rad EPT EPS FPT FPS PT PS copyT copyS. exact (updateSystem_ok PT PS copyT copyS). Qed.
Print Assumptions C48_system.

(** force i is what the functor made for particle i, from the interaction list of the group that holds it *)
Theorem C48_force : forall (Pos Rad EPT EPS Force : Type) (PT : particle Pos Rad EPT) (PS : particle Pos Rad EPS) kernel (zero : Force) (t : tree Pos Rad EPS) o3 o4 ei fs fo (sys : list (mixFP EPT EPS)) nTrg,
  Permutation (t_adr t) (seq 0 (length sys)) -> tiles 0 (t_groups t) (length sys) -> Permutation o3 (seq 0 (length (t_groups t))) -> Permutation o4 (seq 0 (length sys)) ->
  length ei = length sys -> length fs = length sys -> length fo = length sys -> nTrg <= length sys ->
  exists res, computeForce PT PS kernel zero t o3 o4 ei fs fo sys nTrg = Done res /\ length res = nTrg /\
    forall i p, i < nTrg -> nth_error sys i = Some p -> exists e k g, nth_error ei i = Some e /\ nth_error (t_adr t) k = Some i /\ In g (t_groups t) /\ holds g k /\
      nth_error res i = Some (kernel (iCopy PT PS e p) (g_list g) zero).
Proof. intros Pos Rad EPT EPS Force PT PS. exact (computeForce_ok PT PS). Qed.
Print Assumptions C48_force.

(** a source in the list has its kind, position and radius; a target in the list is marked as no source *)
Theorem C48_source : forall (Pos Rad EPT EPS : Type) (PT : particle Pos Rad EPT) (PS : particle Pos Rad EPS), lawful PS -> forall e p,
  j_src (jCopy PT PS e p) = negb (trgFlag p) /\ jPos PS (jCopy PT PS e p) = fpPos PT PS p /\ j_radius (jCopy PT PS e p) = fpRadius PT PS p /\
  (trgFlag p = false -> j_ep (jCopy PT PS e p) = epSrc p).
Proof. intros Pos Rad EPT EPS PT PS. exact (jCopy_source PT PS). Qed.
Print Assumptions C48_source.

(** with interaction lists that hold every image in range once, target i gets exactly the sources in range of it *)
Theorem C48_pairs : forall (Pos Rad EPT EPS FPT FPS Force : Type) (PT : particle Pos Rad EPT) (PS : particle Pos Rad EPS) (copyT : FPT -> EPT) (copyS : FPS -> EPS), lawful PT ->
  forall inRange zero (add : mixEPI Pos Rad EPT -> mixEPJ Pos Rad EPS -> Force -> Force) images (t : tree Pos Rad EPS) o1 o2 o3 o4 wrap trg src mem ei fs fo,
  let n := length trg + length src in
  Permutation o1 (seq 0 (length trg)) -> Permutation o2 (seq 0 (length src)) -> length mem = n ->
  (forall t, In t trg -> exists x, wrap (getPos PT (copyT t)) = Done x) -> (forall s, In s src -> exists x, wrap (getPos PS (copyS s)) = Done x) ->
  Permutation (t_adr t) (seq 0 n) -> tiles 0 (t_groups t) n -> Permutation o3 (seq 0 (length (t_groups t))) -> Permutation o4 (seq 0 n) ->
  length ei = n -> length fs = n -> length fo = n ->
  (forall e i j f, add e i (add e j f) = add e j (add e i f)) ->
  (forall sys i k p g e, updateSystem PT PS copyT copyS o1 o2 wrap trg src mem = Done sys -> nth_error sys i = Some p -> nth_error ei i = Some e -> nth_error (t_adr t) k = Some i -> In g (t_groups t) -> holds g k ->
    Permutation (filter (inRange (iCopy PT PS e p)) (g_list g)) (filter (inRange (iCopy PT PS e p)) images)) ->
  exists sys res, updateSystem PT PS copyT copyS o1 o2 wrap trg src mem = Done sys /\
    computeForce PT PS (pairKernel inRange zero add) zero t o3 o4 ei fs fo sys (length trg) = Done res /\ length res = length trg /\
    forall i t0, nth_error trg i = Some t0 -> exists x e, wrap (getPos PT (copyT t0)) = Done x /\ target PT e (setPos PT (copyT t0) x) /\ iPos PT e = x /\
      nth_error res i = Some (fold_left (fun f j => add e j f) (filter (fun j => j_src j && inRange e j) images) zero).
Proof. intros Pos Rad EPT EPS FPT FPS Force PT PS copyT copyS. exact (interaction_ok PT PS copyT copyS). Qed.
Print Assumptions C48_pairs.

(** a particle is (position, id), the radius 2; positions wrap modulo 10 *)
Definition exP : particle nat nat (nat * nat) := Particle fst (fun t x => (x, snd t)) (fun _ => 2).
Definition exNear (e : mixEPI nat nat (nat * nat)) (j : mixEPJ nat nat (nat * nat)) : bool :=
  let a := iPos exP e in let b := jPos exP j in (a - b <? i_radius e) && (b - a <? i_radius e).
Definition exMem : list (mixFP (nat * nat) (nat * nat)) := repeat (MixFP false (9, 99) (9, 99)) 4.
Definition exAll (sys : list (mixFP (nat * nat) (nat * nat))) := map (jCopy exP exP (MixEPJ false 0 0 (0, 0))) sys.
(** targets at 13 (wrapped to 3) and 8, sources at 4 and 9; every force lists the ids of the sources in range *)
Definition exRun : outcome (list (list nat)) :=
  do sys <- updateSystem exP exP (fun x => x) (fun x => x) [1; 0] [0; 1] (fun x => Done (x mod 10)) [(13, 70); (8, 71)] [(4, 80); (9, 81)] exMem;
  computeForce exP exP (pairKernel exNear [] (fun _ j f => f ++ [snd (j_ep j)])) []
    (Tree [0; 2; 1; 3] [Group 0 2 (exAll sys); Group 2 2 (exAll sys)]) [1; 0] [2; 0; 3; 1] (repeat (MixEPI false 0 0 (0, 0)) 4) (repeat [5] 4) (repeat [6] 4) sys 2.
Example C48_example : exRun = Done [[80]; [81]].
Proof. vm_compute. reflexivity. Qed.
Example C48_example_lawful : lawful exP.
Proof. repeat split; intros []; reflexivity. Qed.
Example C48_example_tiles : tiles 0 (t_groups (Tree [0; 2; 1; 3] [Group 0 2 (@nil (mixEPJ nat nat (nat * nat))); Group 2 2 []])) 4.
Proof. cbn. auto. Qed.
