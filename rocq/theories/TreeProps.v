(** C62-C65: the tree of the neighbour search. *)
From Coq Require Import List Arith ZArith Lia Bool Permutation Reals Lra Sorted.
From Flocq Require Import Core BinarySingleNaN.
From Verif Require Import Outcome ListUtil F64 Arith ParticleModel VecSpec DomainModel NearModel NearSpec TreeModel TreeSpec TreeOct TreeSearch TreeReal TreeFloat TreeContact.
Import ListNotations.
Local Open Scope Z_scope.

(** keys of the examples: 0, 1, 1000..., 1300..., 1300...01, 5000..., 7000..., 7000...07 in octal *)
Definition exKeys : list Z := [0; 1; 8 ^ 20; 8 ^ 20 + 3 * 8 ^ 19; 8 ^ 20 + 3 * 8 ^ 19 + 1; 5 * 8 ^ 20; 7 * 8 ^ 20; 7 * 8 ^ 20 + 7].
Definition exJunk (_ : nat) : cell := Cell 99 77 55 3.
Definition up (_ : Z) (n : nat) : list nat := seq 0 n.
Definition down (_ : Z) (n : nat) : list nat := rev (seq 0 n).
(** particles on the x axis, particle k at k, with search radius k/4 *)
Definition exSite (k : Z) : site F_arith := Site (Vec (f_ofZ k) (f_ofZ 0) (f_ofZ 0)) (f_lit k (-2)).
Definition exSites : list (site F_arith) := map exSite (zrange 0 8).
Definition exMom (_ : nat) : moment F_arith := Moment (Ort (s_pos (exSite 3)) (s_pos (exSite 2))) (Ort (s_pos (exSite 5)) (s_pos (exSite 1))).

(** ** C62 *)

(** LinkCell and LinkCellST: for any sorted keys, processing the cells of a level in any order *)
Theorem C62_tree : forall junk sched keys limit tc part, any_order sched -> fits limit keys -> 1 <= limit -> length part = 23%nat ->
  exists tc' part' lev_max, linkCell junk sched keys limit tc part = Done (tc', part', lev_max) /\
    octree tc' keys limit 0 0 0 (Z.of_nat (length keys)) /\ layered tc' keys limit part' lev_max.
Proof. intros junk sched keys limit tc part H1 (H2 & H3 & H4) H5 H6. exact (linkCell_ok keys limit H2 H3 H5 H4 junk sched tc part H1 H6). Qed.
Print Assumptions C62_tree.

(** n_leaf_limit 0 is accepted by initialize, and one particle is too many for a leaf then *)
Theorem C62_leaf_limit_refuted : exists junk sched keys tc part, any_order sched /\ fits 0 keys /\ length part = 23%nat /\ linkCell junk sched keys 0 tc part = UB.
Proof.
  exists exJunk, up, [5], [], (repeat 0 23). split; [intros l n; apply Permutation_refl|]. split; [|split; reflexivity].
  split; [|split; reflexivity || discriminate || lia]. intros i j Hi Hij Hj. cbn in Hj. assert (i = 0) by lia. assert (j = 0) by lia. subst. cbn. lia.
Qed.
Print Assumptions C62_leaf_limit_refuted.

(** eight particles, leaves of two, the parents of a level in reverse order: three levels *)
Example C62_example :
  match linkCell exJunk down exKeys 2 [] (repeat (-9) 23) with
  | Done (tc, part, lev_max) => (firstn 5 part, lev_max, map (fun c => (n_ptcl c, adr_tc c)) (firstn 2 tc), map n_ptcl (skipn 8 tc), map adr_ptcl (firstn 3 (skipn 8 tc)), map adr_ptcl (skipn 16 tc), adr_tc (nth 9 tc (exJunk 0)))
  | _ => ([], 0, [], [], [], [], 0) end
  = ([0; 8; 16; 24; -9], 2, [(8, 8); (0, 2 ^ 31)], [2; 3; 0; 0; 0; 1; 0; 2; 1; 0; 0; 2; 0; 0; 0; 0], [0; 2; 2 ^ 32 - 1], [2; 2 ^ 32 - 1; 2 ^ 32 - 1; 3; 2 ^ 32 - 1; 2 ^ 32 - 1; 2 ^ 32 - 1; 2 ^ 32 - 1], 16).
Proof. vm_compute. reflexivity. Qed.

(** ** C63 *)

(** every cell with particles gets the smallest boxes around their positions and around their search spheres *)
Theorem C63_boxes_reals : forall junk jm sched sched' keys eps limit tc part, any_order sched -> any_order sched' -> fits limit keys -> length eps = length keys -> length part = 23%nat -> 1 <= limit ->
  usable (@all_ok R_arith) (fun x => x) eps -> exists t, buildTree junk jm sched sched' keys eps limit tc part = Done t /\ builds (@all_ok R_arith) (fun x => x) limit keys eps t.
Proof. exact (buildTree_fits _ _ reals_ordered). Qed.
Print Assumptions C63_boxes_reals.

Theorem C63_boxes_doubles : forall junk jm sched sched' keys eps limit tc part, any_order sched -> any_order sched' -> fits limit keys -> length eps = length keys -> length part = 23%nat -> 1 <= limit ->
  usable finite real eps -> exists t, buildTree junk jm sched sched' keys eps limit tc part = Done t /\ builds finite real limit keys eps t.
Proof. exact (buildTree_fits _ _ doubles_ordered). Qed.
Print Assumptions C63_boxes_doubles.

(** the cell of particles 2, 3 and 4: positions from 2 to 4, search spheres from 1.5 to 5 *)
Example C63_example :
  match buildTree exJunk exMom up down exKeys exSites 2 [] (repeat 0 23) with
  | Done (tc, moms) => match nth_error moms 9 with
      | Some m => feq (vx (olow (v_in m))) (f_ofZ 2) && feq (vx (ohigh (v_in m))) (f_ofZ 4) && feq (vx (olow (v_out m))) (f_lit 3 (-1)) && feq (vx (ohigh (v_out m))) (f_ofZ 5)
                && feq (vy (olow (v_out m))) (f_ofZ (-1)) && feq (vy (ohigh (v_in m))) (f_ofZ 0)
      | None => false end
  | _ => false end = true.
Proof. vm_compute. reflexivity. Qed.

(** ** C64 *)

(** the groups take all particles in order, and a group is larger than n_group_limit only if all its keys agree *)
Theorem C64_groups : forall (N : arith) ok val limit keys (eps : list (site N)) t grpLimit, builds ok val limit keys eps t -> fits limit keys -> length eps = length keys -> limit <= grpLimit ->
  exists gs, makeIPGroup 22 (fst t) (snd t) grpLimit [] 0 = Done gs /\ tiled g_n g_adr 0 gs (Z.of_nat (length eps)) /\ forall g, In g gs -> grouped ok val keys eps grpLimit g.
Proof. exact @groups_fits. Qed.
Print Assumptions C64_groups.

(** with n_group_limit below n_leaf_limit, both accepted by initialize, cells that were never written are visited *)
Theorem C64_limits_refuted : exists junk keys (eps : list (site F_arith)) t, fits 8 keys /\ length eps = length keys /\
  buildTree junk exMom up up keys eps 8 [] (repeat 0 23) = Done t /\ makeIPGroup 22 (fst t) (snd t) 4 [] 0 = UB.
Proof.
  set (f := do t <- buildTree exJunk exMom up up exKeys exSites 8 [] (repeat 0 23); match makeIPGroup 22 (fst t) (snd t) 4 [] 0 with UB => Done true | _ => Done false end).
  assert (E : match f with Done b => b | _ => false end = true) by (vm_compute; reflexivity). unfold f in E. clear f. exists exJunk, exKeys, exSites. destruct (buildTree exJunk exMom up up exKeys exSites 8 [] (repeat 0 23)) as [t| |]; cbn [obind] in E; try discriminate. exists t.
  split; [|split; [reflexivity|split; [reflexivity|]]].
  - split; [|split; vm_compute; (reflexivity || discriminate)]. assert (Hs : forallb (fun i => forallb (fun j => implb (i <=? j) ((0 <=? keyAt exKeys i) && (keyAt exKeys i <=? keyAt exKeys j) && (keyAt exKeys j <? 8 ^ 21))) (zrange 0 8)) (zrange 0 8) = true) by (vm_compute; reflexivity).
    intros i j Hi Hij Hj. change (Z.of_nat (length exKeys)) with 8 in Hj. rewrite forallb_forall in Hs. specialize (Hs i). rewrite forallb_forall in Hs. rewrite !TreeLink.zrange_in in Hs. specialize (Hs ltac:(lia) j). rewrite TreeLink.zrange_in in Hs. specialize (Hs ltac:(lia)).
    replace (i <=? j) with true in Hs by (symmetry; apply Z.leb_le; assumption). cbn [implb] in Hs. apply andb_true_iff in Hs. destruct Hs as (Hs & H3). apply andb_true_iff in Hs. destruct Hs as (H1 & H2). apply Z.leb_le in H1, H2. apply Z.ltb_lt in H3. lia.
  - destruct (makeIPGroup 22 (fst t) (snd t) 4 [] 0); try discriminate. reflexivity.
Qed.
Print Assumptions C64_limits_refuted.

Example C64_example :
  match (do t <- buildTree exJunk exMom up up exKeys exSites 1 [] (repeat 0 23); makeIPGroup 22 (fst t) (snd t) 2 [] 0) with
  | Done gs => map (fun g => (g_adr g, g_n g)) gs | _ => [] end = [(0, 2); (2, 1); (3, 2); (5, 1); (6, 2)].
Proof. vm_compute. reflexivity. Qed.

(** ** C65 *)

(** the whole search: every particle is in one group, whose list has every particle within the search radius of either *)
Theorem C65_search_reals : forall jl ml s1 s2 tl pl jg mg s3 s4 tg pg keysI epi keysJ epj limit grpLimit,
  any_order s1 -> any_order s2 -> any_order s3 -> any_order s4 -> length pl = 23%nat -> length pg = 23%nat -> fits limit keysI -> fits limit keysJ ->
  length epi = length keysI -> length epj = length keysJ -> 1 <= limit <= grpLimit -> usable (@all_ok R_arith) (fun x => x) epi -> usable (@all_ok R_arith) (fun x => x) epj ->
  exists res, searchLists (fun k e => buildTree jl ml s1 s2 k e limit tl pl) (fun k e => buildTree jg mg s3 s4 k e limit tg pg) keysI epi keysJ epj limit grpLimit = Done res /\
    searched (@all_ok R_arith) (fun x => x) tight keysI epi epj grpLimit res.
Proof. exact search_reals. Qed.
Print Assumptions C65_search_reals.

(** in doubles, with a relative margin of 2^-50 in the test with the radius of the source *)
Theorem C65_search_doubles : forall jl ml s1 s2 tl pl jg mg s3 s4 tg pg keysI epi keysJ epj limit grpLimit,
  any_order s1 -> any_order s2 -> any_order s3 -> any_order s4 -> length pl = 23%nat -> length pg = 23%nat -> fits limit keysI -> fits limit keysJ ->
  length epi = length keysI -> length epj = length keysJ -> 1 <= limit <= grpLimit -> usable finite real epi -> usable finite real epj ->
  exists res, searchLists (fun k e => buildTree jl ml s1 s2 k e limit tl pl) (fun k e => buildTree jg mg s3 s4 k e limit tg pg) keysI epi keysJ epj limit grpLimit = Done res /\
    searched finite real loose keysI epi epj grpLimit res.
Proof. exact search_doubles. Qed.
Print Assumptions C65_search_doubles.

(** the list of a group is exactly what its boxes reach *)
Theorem C65_exact : forall limit keys eps t (g : group R_arith) fs, builds (@all_ok R_arith) (fun x => x) limit keys eps t -> fits limit keys -> length eps = length keys ->
  usable (@all_ok R_arith) (fun x => x) eps -> fs <> [] -> hull (@all_ok R_arith) (fun x => x) (map point fs) (g_in g) ->
  exists l, interactionList (fst t) (snd t) eps limit g = Done l /\ StronglySorted Z.lt l /\ forall k, In k l <-> exists e, at_ eps k e /\ reached (g_in g) (g_out g) e.
Proof. exact exact_fits. Qed.
Print Assumptions C65_exact.

(** no contact is missed: two objects whose cores are closer than the limit for a contact meet in a list *)
Theorem C65_contacts : forall jl ml s1 s2 tl pl jg mg s3 s4 tg pg keysI (ai : list ep) keysJ (bj : list ep) limit grpLimit,
  any_order s1 -> any_order s2 -> any_order s3 -> any_order s4 -> length pl = 23%nat -> length pg = 23%nat -> fits limit keysI -> fits limit keysJ ->
  length ai = length keysI -> length bj = length keysJ -> 1 <= limit <= grpLimit -> usable (@all_ok R_arith) (fun x => x) (map siteOf ai) -> usable (@all_ok R_arith) (fun x => x) (map siteOf bj) ->
  exists res, searchLists (fun k e => buildTree jl ml s1 s2 k e limit tl pl) (fun k e => buildTree jg mg s3 s4 k e limit tg pg) keysI (map siteOf ai) keysJ (map siteOf bj) limit grpLimit = Done res /\
    forall i j a b p q, at_ ai i a -> at_ bj j b -> sized a -> sized b -> covered a -> covered b -> core_point a p -> core_point b q -> (dist3 p q < NearSpec.limit a b)%R ->
      exists g l, In (g, l) res /\ g_adr g <= i < g_adr g + g_n g /\ In j l.
Proof. exact contacts_found. Qed.
Print Assumptions C65_contacts.

(** in doubles without the margin: the source at distance just below its radius is not listed *)
Definition tightE : site F_arith := Site (Vec (f_ofZ 0) (f_ofZ 0) (f_ofZ 0)) (f_ofZ 0).
Definition tightX : f64 := f_lit 0x17166677e49c3d (-53).
Definition tightY : f64 := f_lit 0x16c2153e00d1a2 (-53).
Definition tightR : f64 := f_lit 0x1035949d5dae48 (-52).
Definition tightF : site F_arith := Site (Vec tightX tightY (f_ofZ 0)) tightR.
Theorem C65_margin_refuted : exists e f : site F_arith, (apart real e f <= real (s_rad f) ^ 2)%R /\
  match searchLists (fun k s => buildTree exJunk exMom up up k s 8 [] (repeat 0 23)) (fun k s => buildTree exJunk exMom up up k s 8 [] (repeat 0 23)) [0] [e] [1] [f] 8 64 with
  | Done [(g, l)] => l = [] | _ => False end.
Proof.
  exists tightE, tightF. split; [|vm_compute; reflexivity].
  assert (Z0 : B2R (f_ofZ 0) = 0%R) by (apply f_ofZ_exact; cbn; lia).
  assert (L : forall m e, B2SF (f_lit (Zpos m) e) = SpecFloat.S754_finite false m e -> B2R (f_lit (Zpos m) e) = (IZR (Zpos m) * bpow radix2 e)%R) by (intros m e H; rewrite <- SF2R_B2SF, H; reflexivity).
  unfold apart, real. cbn [tightE tightF s_pos s_rad vx vy vz]. unfold tightX, tightY, tightR. rewrite Z0, !L by (vm_compute; reflexivity). change (-52) with (1 + -53). rewrite bpow_plus. change (bpow radix2 1) with 2%R. assert (P := bpow_gt_0 radix2 (-53)). set (u := bpow radix2 (-53)) in *. clearbody u. assert (Q : (0 < u * u)%R) by (apply Rmult_lt_0_compat; assumption). nra.
Qed.
Print Assumptions C65_margin_refuted.

(** leaves of one, groups of two: the lists of the groups {0,1}, {2}, {3,4}, {5}, {6,7}.  Particle 0 has radius 0 and sees nobody, but 4 sees 3 and 5, which do not see it: 5 is listed for the group {3,4}, and 4 for the group {5} *)
Example C65_example :
  match searchLists (fun k s => buildTree exJunk exMom up down k s 1 [] (repeat 0 23)) (fun k s => buildTree exJunk exMom down up k s 1 [] (repeat 0 23)) exKeys exSites exKeys exSites 1 2 with
  | Done res => map (fun gl => (g_adr (fst gl), g_n (fst gl), snd gl)) res | _ => [] end
  = [(0, 2, [0; 1]); (2, 1, [2]); (3, 2, [3; 4; 5]); (5, 1, [4; 5; 6]); (6, 2, [5; 6; 7])].
Proof. vm_compute. reflexivity. Qed.
