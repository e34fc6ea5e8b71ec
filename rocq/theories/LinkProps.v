(** C14: bilateral links. *)
From Coq Require Import List Arith ZArith Bool Reals Lra Permutation.
From Verif Require Import Outcome F64 Arith ParticleModel ConModel VecModel VecSpec IndexModel GeoSpec SylModel SylFloat BoundaryModel NearModel NearSpec NearProps
  LinkModel LinkSpec LinkProofs.
Import ListNotations.
Local Open Scope R_scope.

(** every rank adds exactly the blocks of the links whose first end it owns, under any schedule and any order of its link map *)
Theorem C14_collect : forall (c : lconfig) fresh junk dir0 (sys : list (list (sylinder R_arith))) (ls : list (Z * Z)),
  box_ok c -> NoDup (map s_gid (concat sys)) -> Forall (fun s => in_box c (spos s)) (concat sys) ->
  (forall l, In l ls -> In (fst l) (map s_gid (concat sys)) -> In (snd l) (map s_gid (concat sys))) ->
  exists n, forall fuel, (n <= fuel)%nat -> forall ss lm data0 order who p, In ss sys -> Permutation lm ls ->
    Permutation order (seq 0 (length ss)) -> (forall i, (i < length ss)%nat -> (who i < length p)%nat) ->
    exists p' js ks, collectLinkBilateral (N := R_arith) fuel PI c fresh junk (buildIndex dir0 (map (publishNear (N := R_arith)) sys)) data0 lm ss order who p = Done (Some p') /\
      length p' = length p /\ Permutation (concat p') (concat p ++ ks) /\
      Permutation js (links_of ss ls) /\ Forall2 (link_made c (concat sys)) js ks.
Proof. exact links_ok. Qed.
Print Assumptions C14_collect.

(** every link whose first end exists is owned by exactly one rank *)
Theorem C14_once : forall sys ls, NoDup (map s_gid (concat sys)) ->
  Permutation (flat_map (fun ss => links_of ss ls) sys) (links_of (concat sys) ls).
Proof. exact links_once. Qed.
Print Assumptions C14_once.

(** a periodic box [0,10) along x *)
Definition ring : linkConfig F_arith := LinkConfig (N := F_arith) (Vec true false false) (v3 0 0 0) (v3 10 10 10) (f_lit 1 (-1)) (f_ofZ 100).

(** two ranks, links 1->2, 1->3, 3->1 and 9->1 (9 does not exist).  The first rank makes two blocks, one through the periodic face *)
Example C14_example :
  let a := object 1 (f_lit 1 (-1)) (f_ofZ 2) (v3 9 5 5) upright in
  let b := object 2 (f_lit 1 (-1)) (f_ofZ 2) (v3 1 5 8) upright in
  let d := object 3 (f_lit 1 (-1)) (f_ofZ 2) (v3 7 5 7) upright in
  let sys := [[d; a]; [b]] in let ls := [(1, 2); (3, 1); (9, 1); (1, 3)]%Z in
  let fresh := ball 0 (f_ofZ 1) (v3 0 0 0) in
  let dir := buildIndex [] (map (publishNear (N := F_arith)) sys) in
  match collectLinkBilateral (N := F_arith) 100 (f_ofZ 3) ring fresh (fun _ => fresh) dir [] ls [d; a] [1; 0]%nat (fun _ => 0%nat) [[]],
        collectLinkBilateral (N := F_arith) 100 (f_ofZ 3) ring fresh (fun _ => fresh) dir [] ls [b] [0]%nat (fun _ => 0%nat) [[]] with
  | Done (Some [[k1; k2; k3]]), Done (Some [[]]) =>
      Z.eqb (gidI k1) 1 && Z.eqb (gidJ k1) 2 && veqb (labI k1) (v3 9 5 6) && veqb (labJ k1) (v3 11 5 7) && bilateral k1 && negb (oneSide k1) &&
      Z.eqb (gidI k2) 1 && Z.eqb (gidJ k2) 3 && Z.eqb (gidI k3) 3 && Z.eqb (gidJ k3) 1 && veqb (labJ k3) (v3 9 5 4)
  | _, _ => false end = true.
Proof. vm_compute. reflexivity. Qed.

(** a link to an id nobody published is not reported: a block is made from whatever the directory returned *)
Theorem C14_unknown_reported_refuted : exists (c : linkConfig F_arith) fresh junk (s : sylinder F_arith) (l : Z * Z),
  fst l = s_gid s /\ ddLookup (buildIndex [] [publishNear (N := F_arith) [s]]) (snd l) = None /\
  match collectLinkBilateral (N := F_arith) 100 (f_ofZ 3) c fresh junk (buildIndex [] [publishNear (N := F_arith) [s]]) [] [l] [s] [0]%nat (fun _ => 0%nat) [[]] with
  | Done (Some [[k]]) => Z.eqb (gidI k) (fst l) && negb (Z.eqb (gidJ k) (snd l)) | _ => false end = true.
Proof.
  exists ring, (ball 0 (f_ofZ 1) (v3 0 0 0)), (fun _ => ball 0 (f_ofZ 1) (v3 0 0 0)), (object 1 (f_lit 1 (-1)) (f_ofZ 2) (v3 9 5 5) upright), (1, 7)%Z.
  split; [reflexivity|]. split; [reflexivity|]. vm_compute. reflexivity.
Qed.
Print Assumptions C14_unknown_reported_refuted.
