(** Independent statements for ids, indices, links and the directory. *)
From Coq Require Import List Arith ZArith Permutation.
From Verif Require Import Outcome ListUtil ParticleModel ParticleSpec IndexModel.
Import ListNotations.
Local Open Scope Z_scope.

(** the integers a, a+1, ..., a+n-1 *)
Definition range (a : Z) (n : nat) : list Z := map (fun i => a + Z.of_nat i) (seq 0 n).

(** the largest id in use, 0 for none *)
Definition top_id (m : Z) (ids : list Z) : Prop :=
  0 <= m /\ (forall g, In g ids -> g <= m) /\ (m = 0 \/ In m ids).

(** all ids of a system *)
Definition all_ids {B} (s : list (@prank (obj B))) : list Z := map gid (concat (map pr_ptcl s)).

(** One operation on the particles of all ranks: insertion, removal by local index,
    migration after a domain decomposition. *)
Inductive system_step {B C} (le lt : C -> C -> bool) (getPos : obj B -> vec C) : list (@prank (obj B)) -> list (@prank (obj B)) -> Prop :=
| step_add s news shuffle out ids :
    (forall l, Permutation (shuffle l) l) -> length news = length s ->
    addNewSylinder shuffle (map pr_ptcl s) news = Done (out, ids) ->
    system_step le lt getPos s (map (fun p => Build_prank (snd p) (pr_nsend (fst p)) (pr_nrecv (fst p))) (combine s out))
| step_remove s s' :
    Forall2 (fun a b => exists idx, Forall (fun z => 0 <= z < Z.of_nat (length (pr_ptcl a))) idx /\
                         removeParticle (pr_ptcl a) idx = Done (pr_ptcl b)) s s' ->
    system_step le lt getPos s s'
| step_migrate s s' di nx ny nz junk :
    grid_of le (di_root di) nx ny nz (di_dom di) -> di_n di = (nx, ny, nz) -> length s = length (di_dom di) ->
    Forall (fun r => Forall (fun p => inside le lt (getPos p) (di_root di)) (pr_ptcl r)) s ->
    exchangeParticle le lt getPos di junk s = Done (Some s') ->
    system_step le lt getPos s s'.

Inductive history {S} (step : S -> S -> Prop) : S -> S -> Prop :=
| h_refl s : history step s s
| h_step s s' s'' : history step s s' -> step s' s'' -> history step s s''.

(** the same two collections of links on every rank *)
Definition links_are (s : links) (ls : list (Z * Z)) : Prop :=
  Permutation (fwd s) ls /\ Permutation (rev s) (map (fun l => (snd l, fst l)) ls).

(** [d] is what was last published under [id] in the sequence [pubs] of publications *)
Definition last_published {D} (pubs : list (list (list (Z * D)))) (id : Z) (d : D) : Prop :=
  exists before p after, pubs = before ++ p :: after /\ In (id, d) (concat p) /\
    forall q, In q after -> ~ In id (map fst (concat q)).
Definition never_published {D} (pubs : list (list (list (Z * D)))) (id : Z) : Prop :=
  forall p, In p pubs -> ~ In id (map fst (concat p)).
