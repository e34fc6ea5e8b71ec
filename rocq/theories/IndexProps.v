(** Properties C11 (ids), C12 (global indices), C13 (links), C15 (directory), C45 (two-block maps). *)
From Coq Require Import List Arith ZArith Lia Bool Permutation.
From Verif Require Import Outcome ListUtil PointsModel ParticleModel ParticleSpec IndexModel IndexSpec IndexProofs.
Import ListNotations.
Local Open Scope Z_scope.

(** ** C11 *)

(** Insertion on any number of ranks, with any shuffle of the new ids: the new ids are
    the contiguous range above the largest id in use, every rank gets back the ids of its
    own new objects in order, old objects are untouched and stay in front. *)
Theorem C11_insert : forall B (shuffle : list Z -> list Z) (ranks news : list (list (obj B))) m,
  (forall l, Permutation (shuffle l) l) -> ranks <> [] -> length news = length ranks ->
  top_id m (map gid (concat ranks)) ->
  m + 1 + Z.of_nat (length (concat news)) <= INT_MAX ->
  exists out ids, addNewSylinder shuffle ranks news = Done (out, ids) /\
    length out = length ranks /\ length ids = length ranks /\
    Permutation (concat ids) (range (m + 1) (length (concat news))) /\
    Permutation (map gid (concat out)) (map gid (concat ranks) ++ range (m + 1) (length (concat news))) /\
    forall r old new i o, nth_error ranks r = Some old -> nth_error news r = Some new ->
      nth_error ids r = Some i -> nth_error out r = Some o ->
      exists added, o = old ++ added /\ map gid added = i /\ map body added = map body new.
Proof. exact addNewSylinder_correct. Qed.
Print Assumptions C11_insert.

(** Ids are pairwise distinct after every history of insertions, removals and migrations. *)
Theorem C11_history : forall B C (le lt : C -> C -> bool), coord_order le lt ->
  forall (getPos : obj B -> vec C) s s',
  history (system_step le lt getPos) s s' -> NoDup (all_ids s) ->
  length s' = length s /\ NoDup (all_ids s').
Proof. exact @history_ids. Qed.
Print Assumptions C11_history.

(** At the end of the int range insertion is undefined behaviour. *)
Theorem C11_overflow_refuted : exists (ranks news : list (list (obj nat))),
  NoDup (map gid (concat ranks)) /\ Forall (fun g => 0 <= g <= INT_MAX) (map gid (concat ranks)) /\
  addNewSylinder (fun l => l) ranks news = UB.
Proof.
  exists [[Obj INT_MAX 1%nat]], [[Obj 0 2%nat]]. split; [repeat constructor; intros []|].
  split; [repeat constructor; discriminate|]. vm_compute. reflexivity.
Qed.
Print Assumptions C11_overflow_refuted.

Example C11_example :
  addNewSylinder (@List.rev Z) [[Obj 4 10%nat; Obj 7 11%nat]; []; [Obj 2 12%nat]]
    [[Obj 0 20%nat]; [Obj 0 21%nat; Obj 0 22%nat]; []]
  = Done ([[Obj 4 10%nat; Obj 7 11%nat; Obj 10 20%nat]; [Obj 9 21%nat; Obj 8 22%nat]; [Obj 2 12%nat]],
          [[10]; [9; 8]; []]) /\ top_id 7 [4; 7; 2].
Proof.
  split; [vm_compute; reflexivity|]. split; [lia|].
  split; [cbn; intros g [<-|[<-|[<-|[]]]]; lia|right; cbn; auto].
Qed.

(** ids are unique at any time, but an id can be used again after its object is removed *)
Example C11_id_reuse :
  removeParticle [Obj 3 10%nat; Obj 5 11%nat] [1] = Done [Obj 3 10%nat] /\
  addNewSylinder (fun l => l) [[Obj 3 10%nat]] [[Obj 0 12%nat; Obj 0 13%nat]]
  = Done ([[Obj 3 10%nat; Obj 4 12%nat; Obj 5 13%nat]], [[4; 5]]).
Proof. split; vm_compute; reflexivity. Qed.

(** ** C12 *)
Theorem C12_global_index : forall sizes, 6 * Z.of_nat (sum_list sizes) <= INT_MAX ->
  exists idx rows, updateSylinderMap sizes = Done (idx, rows) /\
    map (@length _) idx = sizes /\ map (@length _) rows = map (fun n => (6 * n)%nat) sizes /\
    concat idx = range 0 (sum_list sizes) /\ concat rows = range 0 (6 * sum_list sizes) /\
    forall r li lr i g, nth_error idx r = Some li -> nth_error rows r = Some lr -> nth_error li i = Some g ->
      forall j, (j < 6)%nat -> nth_error lr (6 * i + j) = Some (6 * g + Z.of_nat j).
Proof. exact updateSylinderMap_correct. Qed.
Print Assumptions C12_global_index.

Example C12_example : updateSylinderMap [2; 0; 1]%nat
  = Done ([[0; 1]; []; [2]], [range 0 12; []; range 12 6]).
Proof. vm_compute. reflexivity. Qed.

(** ** C13 *)

(** Starting from any common collection of links, any sequence of collective insertions. *)
Theorem C13_history : forall calls ranks ls, Forall (fun s => links_are s ls) ranks ->
  exists out, ofold addNewLink calls ranks = Done out /\ length out = length ranks /\
    Forall (fun s => links_are s (ls ++ concat (map (@concat _) calls))) out.
Proof. exact addLinks_history. Qed.
Print Assumptions C13_history.

(** A system that has no links yet and loads a file written by writeAscii holds exactly
    the links that were written, whatever the object lines are. *)
Theorem C13_file_roundtrip : forall s h1 h2 objects ls, rev s = [] ->
  Forall (fun l => hd 0 l <> 76) objects ->
  Forall (fun l => INT_MIN <= fst l <= INT_MAX /\ INT_MIN <= snd l <= INT_MAX) ls ->
  links_are (setLinkMapFromFile s (asciiLines h1 h2 objects ls)) ls.
Proof. exact file_roundtrip. Qed.
Print Assumptions C13_file_roundtrip.

(** Loading a second file keeps the reverse links of the first. *)
Theorem C13_reload_refuted : exists s lines ls0, links_are s ls0 /\
  ~ exists ls, links_are (setLinkMapFromFile s lines) ls.
Proof.
  exists {| fwd := [(1, 2)]; rev := [(2, 1)] |}, [[]; []], [(1, 2)].
  split; [split; reflexivity|]. intros (ls & A & B). cbn in A, B.
  apply Permutation_nil in A. subst ls. cbn in B. apply Permutation_sym, Permutation_nil in B. discriminate.
Qed.
Print Assumptions C13_reload_refuted.

(** "L 12 -7" in character codes, loaded between other lines, then two ranks add links *)
Example C13_example :
  let s0 := {| fwd := []; rev := [] |} in
  let file := asciiLines [51] [48] [[67; 32; 49]] [(12, -7); (3, 4)] in
  nth 3 file [] = [76; 32; 49; 50; 32; 45; 55] /\
  addNewLink [setLinkMapFromFile s0 file; setLinkMapFromFile s0 file] [[(5, 6)]; [(7, 8); (5, 6)]]
  = let s := {| fwd := [(12, -7); (3, 4); (5, 6); (7, 8); (5, 6)];
                rev := [(-7, 12); (4, 3); (6, 5); (8, 7); (6, 5)] |} in Done [s; s].
Proof. split; vm_compute; reflexivity. Qed.

(** ** C15 *)
Theorem C15_lookup : forall D (fresh : D) junk pubs reqs data0,
  Forall (fun p => NoDup (map fst (concat p))) pubs ->
  let dir := fold_left buildIndex pubs [] in
  let (res, ok) := zddFind fresh junk dir reqs data0 in
  length res = Nat.max (length reqs) (length data0) /\
  skipn (length reqs) res = skipn (length reqs) data0 /\
  (forall i id d, nth_error reqs i = Some id -> last_published pubs id d -> nth_error res i = Some d) /\
  (ok = true <-> Forall (fun id => exists d, last_published pubs id d) reqs).
Proof. exact @zddFind_correct. Qed.
Print Assumptions C15_lookup.

Example C15_example :
  let dir := fold_left buildIndex [ [[(1, 10); (2, 20)]; [(3, 30)]]; [[(3, 31)]; [(1, 11)]] ] [] in
  zddFind 0 (fun _ => 99) dir [3; 1; 2; 3] [7] = ([31; 11; 20; 31], true) /\
  zddFind 0 (fun _ => 99) dir [5; 2] [7; 7; 7] = ([99; 20; 7], false).
Proof. split; vm_compute; reflexivity. Qed.

(** ** C45 *)
Theorem C45_two_block_map : forall (m1 m2 : list (list Z)) n1 n2, length m1 = length m2 ->
  Permutation (concat m1) (range 0 n1) -> Permutation (concat m2) (range 0 n2) ->
  Z.of_nat n1 + Z.of_nat n2 <= INT_MAX ->
  exists m, getTMAPFromTwoBlockTMAP m1 m2 = Done m /\ length m = length m1 /\
    (forall r a b, nth_error m1 r = Some a -> nth_error m2 r = Some b ->
       nth_error m r = Some (a ++ map (fun g => g + Z.of_nat n1) b)) /\
    Permutation (concat m) (range 0 (n1 + n2)) /\ NoDup (concat m).
Proof. exact two_block_map. Qed.
Print Assumptions C45_two_block_map.

Theorem C45_two_block_vector : forall A (zero : A) v1 v2, getTVFromTwoBlockTV zero v1 v2 = Done (v1 ++ v2).
Proof. exact @two_block_vector. Qed.
Print Assumptions C45_two_block_vector.

Theorem C45_vector_copy : forall A (junk : A) l, getTVFromVector junk l = Done l.
Proof. exact @vector_copy. Qed.
Print Assumptions C45_vector_copy.

Example C45_example :
  getTMAPFromLocalSize [2; 1]%nat = Done [[0; 1]; [2]] /\ getTMAPFromLocalSize [0; 2]%nat = Done [[]; [0; 1]] /\
  getTMAPFromTwoBlockTMAP [[0; 1]; [2]] [[]; [0; 1]] = Done [[0; 1]; [2; 3; 4]] /\
  getTVFromTwoBlockTV 0 [5; 6] [7] = Done [5; 6; 7] /\ getTVFromVector 9 [1; 2] = Done [1; 2].
Proof. repeat split; vm_compute; reflexivity. Qed.
