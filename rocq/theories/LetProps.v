(** C66-C68: the exchange of particles between ranks. *)
From Coq Require Import List Arith ZArith Lia Bool Permutation Reals Lra Sorted.
From Flocq Require Import Core BinarySingleNaN.
From Verif Require Import Outcome ListUtil F64 Arith ParticleModel VecModel DomainModel StatProofs NearModel NearSpec TreeModel TreeSpec TreeSearch TreeProps LetModel LetSpec LetImages LetFind LetProofs LetReal LetOpen LetSearch.
Import ListNotations.
Local Open Scope Z_scope.

(** ** Things for the examples *)
Fixpoint insertKey (p : Z * nat) (l : list (Z * nat)) : list (Z * nat) :=
  match l with [] => [p] | q :: r => if fst p <=? fst q then p :: q :: r else q :: insertKey p r end.
Definition sortKeys (l : list (Z * nat)) : list (Z * nat) := fold_right insertKey [] l.
Lemma insertKey_perm p l : Permutation (insertKey p l) (p :: l).
Proof. induction l as [|q l IH]; [reflexivity|]. cbn [insertKey]. destruct (fst p <=? fst q); [reflexivity|]. rewrite IH. apply perm_swap. Qed.
Lemma sortKeys_ok l : Permutation (sortKeys l) l /\ StronglySorted Z.le (map fst (sortKeys l)).
Proof.
  induction l as [|p l (IH1 & IH2)]; [split; [reflexivity|constructor]|]. cbn [sortKeys fold_right]. fold (sortKeys l). split; [rewrite insertKey_perm, IH1; reflexivity|].
  clear IH1. revert IH2. generalize (sortKeys l). clear l. induction l as [|q l IH]; intros H; [repeat constructor|]. cbn [map] in H. inversion H; subst. cbn [insertKey]. destruct (Z.leb_spec (fst p) (fst q)) as [L|L].
  - cbn [map]. constructor; [exact H|]. constructor; [exact L|]. rewrite Forall_forall in H3 |- *. intros x Hx. specialize (H3 x Hx). lia.
  - cbn [map]. constructor; [apply IH; assumption|]. rewrite Forall_forall in H3 |- *. intros x Hx. apply (Permutation_in _ (Permutation_map fst (insertKey_perm p l))) in Hx. destruct Hx as [<-|Hx]; [lia|apply H3; exact Hx].
Qed.
Definition exChance {P} (y : P) (_ : nat) : chance F_arith P :=
  Chance (fun _ => Vec (f_ofZ 7) (f_ofZ 7) (f_ofZ 7)) (fun k => k + 3)%nat (fun _ => 9) (fun _ => Item (exSite 5) y)
    [[1%nat]; [0%nat]] (fun l => [rev l]) (fun m => rev (seq 0 m)) (fun m => seq 0 m) [1%nat; 0%nat] sortKeys
    (fun keys eps => buildTree exJunk exMom up down keys eps 1 [] (repeat 0 23)).
Lemma exChance_any {P} (y : P) r : any_chance 2 (exChance y r).
Proof.
  repeat split; cbn [exChance c_deal1 c_deal2 c_images1 c_images c_merge c_sort c_tree]; try (intros; apply sortKeys_ok).
  - cbn. apply perm_swap.
  - intros l. cbn [concat]. rewrite app_nil_r. symmetry. apply Permutation_rev.
  - intros m. symmetry. apply Permutation_rev.
  - intros m. reflexivity.
  - apply perm_swap.
  - intros keys eps. exists exJunk, exMom, up, down, [], (repeat 0 23). split; [intros l n; reflexivity|]. split; [intros l n; symmetry; apply Permutation_rev|]. split; reflexivity.
Qed.
Definition exItem (y : nat) (x8 r8 : Z) : item F_arith nat := Item (@Site F_arith (Vec (f_lit x8 (-3)) (f_ofZ 1) (f_ofZ 1)) (f_lit r8 (-3))) y.
Definition exBox (lo hi : Z) : ort F_arith := Ort (Vec (f_ofZ lo) (f_ofZ 0) (f_ofZ 0)) (Vec (f_ofZ hi) (f_ofZ 2) (f_ofZ 2)).
Definition exTree (limit : Z) (keys : list Z) (l : list (item F_arith nat)) : list cell * list (moment F_arith) :=
  match buildTree exJunk exMom down up keys (map i_site l) limit [] (repeat 0 23) with Done t => t | _ => ([], []) end.
Definition exKey (p : vec F_arith) : outcome Z := Done (Z.max 0 (f_trunc (fmul (f_ofZ 8) (fadd (vx p) (f_ofZ 8))))).

(** ** C66 *)

(** the images of a domain that a box around search spheres meets are found, each once, the domain itself first *)
Theorem C66_images : forall (pa : vec bool) (root my target : ort R), periodic_box pa root -> domain_in pa root target ->
  (exists x, inside root x /\ inBox my x) \/ my = @emptyBox R_arith ->
  exists F ks, (forall fuel acc, (F <= fuel)%nat -> @imageShifts R_arith fuel pa (@fullLength R_arith root) my target acc = Done (acc ++ map (@imageShift R_arith (@fullLength R_arith root)) ks)) /\ NoDup ks /\
    (forall k, In k ks -> lattice pa k /\ ((vx pa || vy pa || vz pa)%bool = true -> meets root my target k)) /\
    (forall k, lattice pa k -> meets root my target k -> In k ks) /\ (meets root my target origin -> exists ks', ks = origin :: ks').
Proof. exact images_ok. Qed.
Print Assumptions C66_images.

(** the image of a received particle is found from its position alone *)
Theorem C66_recovered : forall (pa : vec bool) (root : ort R) (x : vec R) k, periodic_box pa root -> inside root x -> lattice pa k ->
  forall fuel, (Z.to_nat (norm k) < fuel)%nat -> @imageId R_arith fuel pa root (away root (Vec (- vx k) (- vy k) (- vz k)) x) = Done k.
Proof. exact imageId_ok. Qed.
Print Assumptions C66_recovered.

(** not so in doubles: next to the upper face the image -1 is taken for the particle itself *)
Definition halfBox : ort F_arith := Ort (Vec (f_ofZ (-3)) (f_ofZ 0) (f_ofZ 0)) (Vec (f_ofZ 1) (f_ofZ 2) (f_ofZ 2)).
Definition nearFace : vec F_arith := Vec (f_lit (2 ^ 53 - 1) (-53)) (f_ofZ 1) (f_ofZ 1).
Lemma lit_R m e : B2SF (f_lit (Zpos m) e) = SpecFloat.S754_finite false m e -> B2R (f_lit (Zpos m) e) = (IZR (Zpos m) * bpow radix2 e)%R.
Proof. intros H. rewrite <- SF2R_B2SF, H. reflexivity. Qed.
Lemma nearFace_x : B2R (f_lit (2 ^ 53 - 1) (-53)) = (1 - bpow radix2 (-53))%R.
Proof.
  change (2 ^ 53 - 1) with 9007199254740991. rewrite lit_R by (vm_compute; reflexivity). change 9007199254740991 with (2 ^ 53 - 1). rewrite minus_IZR. change (IZR (2 ^ 53)) with (IZR (Zpower radix2 53)). rewrite IZR_Zpower by lia. rewrite Rmult_minus_distr_r, <- bpow_plus. change (bpow radix2 (53 + -53)) with 1%R. ring.
Qed.
Theorem C66_recovered_doubles_refuted : exists (root : ort F_arith) (x : vec F_arith), open_box root /\ inside_real root x /\
  forall fuel, imageId fuel (Vec true false false) root (vsub x (imageShift (fullLength root) (Vec 1 0 0))) = Done origin.
Proof.
  exists halfBox, nearFace.
  assert (Z3 : B2R (f_ofZ (-3)) = (-3)%R) by (apply f_ofZ_exact; cbn; lia). assert (Z0 : B2R (f_ofZ 0) = 0%R) by (apply f_ofZ_exact; cbn; lia). assert (Z1 : B2R (f_ofZ 1) = 1%R) by (apply f_ofZ_exact; cbn; lia). assert (Z2 : B2R (f_ofZ 2) = 2%R) by (apply f_ofZ_exact; cbn; lia).
  split; [|split].
  - intros c [<-|[<-|[<-|[]]]]; unfold finite, real; cbn [halfBox olow ohigh vx vy vz]; rewrite ?Z3, ?Z0, ?Z1, ?Z2; (split; [reflexivity|]); (split; [reflexivity|]); (split; [vm_compute; reflexivity|lra]).
  - intros c [<-|[<-|[<-|[]]]]; unfold real; cbn [halfBox nearFace olow ohigh vx vy vz]; rewrite ?Z3, ?Z0, ?Z1, ?Z2; try lra. rewrite nearFace_x. assert (P := bpow_gt_0 radix2 (-53)). assert (Q : (bpow radix2 (-53) < 1)%R) by (apply (bpow_lt radix2 (-53) 0); lia). lra.
  - intros fuel. unfold imageId. assert (H : containsPos halfBox (vsub nearFace (imageShift (fullLength halfBox) (Vec 1 0 0))) = true) by (vm_compute; reflexivity). rewrite H. reflexivity.
Qed.
Print Assumptions C66_recovered_doubles_refuted.

(** two periodic axes, a box of size 4 and 2: search spheres from (-1,-1) to (5,1) meet the domain [0,2] x [0,2] itself, its copy at x = 4, and the copies of both at y = -2 *)
Example C66_example :
  match imageShifts 9 (Vec true true false) (fullLength (exBox 0 4)) (Ort (Vec (f_ofZ (-1)) (f_ofZ (-1)) (f_ofZ 0)) (Vec (f_ofZ 5) (f_ofZ 1) (f_ofZ 2))) (exBox 0 2) [] with
  | Done l => map (fun v => (f_trunc (vx v), f_trunc (vy v), f_trunc (vz v))) l | _ => [] end = [(0, 0, 0); (0, -2, 0); (4, -2, 0); (4, 0, 0)].
Proof. vm_compute. reflexivity. Qed.
Example C66_example_recovered : imageId 9 (Vec true true false) (exBox 0 4) (Vec (f_ofZ (-5)) (f_ofZ 3) (f_ofZ 1)) = Done (Vec (-2) 1 0).
Proof. vm_compute. reflexivity. Qed.

(** ** C67 *)

(** each rank gets, once, the images of other particles that its particles see, whatever the division of work and the content of fresh memory *)
Theorem C67_exchange : forall (P : Type) (ch : nat -> chance R_arith P) key pa root doms E trees limit, ready ch key pa root doms E trees limit ->
  exists F, forall fuel, (F <= fuel)%nat -> exists out,
    @exchangeLet R_arith P ch key fuel pa root doms E trees limit = Done out /\ length out = length doms /\ forall r o, nth_error out r = Some o -> delivers (fun x : R_arith => x) tight pa (image root) E (needed root doms E r) r o.
Proof. exact @exchange_reals. Qed.
Print Assumptions C67_exchange.

(** in doubles without periodic axes *)
Theorem C67_exchange_open : forall (P : Type) (ch : nat -> chance F_arith P) key root doms E trees limit fuel, ready_open ch key root doms E trees limit ->
  exists out, exchangeLet ch key fuel open root doms E trees limit = Done out /\ length out = length doms /\ forall r o, nth_error out r = Some o -> delivers real tight open (fun _ f => f) E (fun _ _ => True) r o.
Proof. intros P ch key root doms E trees limit fuel Y. destruct (exchange_search_open ch key root doms E trees limit fuel Y) as (out & H1 & H2 & H3 & _). exists out. auto. Qed.
Print Assumptions C67_exchange_open.

(** in doubles with a periodic axis a particle in the search sphere of another may not arrive *)
Definition faceE : item F_arith nat := Item (@Site F_arith nearFace (f_lit 1 (-2))) 1%nat.
Definition faceF : item F_arith nat := exItem 0 (-23) 0.
Theorem C67_periodic_doubles_refuted : exists (ch : nat -> chance F_arith nat) key root doms E trees e f o o',
  (forall r, any_chance (length doms) (ch r)) /\ open_box root /\ homes_real root doms E /\ E = [[f]; [e]] /\ trees = [exTree 1 [3] [f]; exTree 1 [4] [e]] /\
  sees (fun x : R_arith => x) tight (i_site (real_item e)) (i_site (image (real_box root) (Vec (-1) 0 0) (real_item f))) /\
  exchangeLet ch key 4 (Vec true false false) root doms E trees 1 = Done [o; o'] /\ forall g, In g o' -> ~ sees real tight (i_site e) (i_site g).
Proof.
  set (X := exchangeLet (exChance 9%nat) exKey 4 (Vec true false false) halfBox [exBox (-3) (-1); exBox (-1) 1] [[faceF]; [faceE]] [exTree 1 [3] [faceF]; exTree 1 [4] [faceE]] 1).
  assert (H : match X with Done [_; [g]] => feq (vx (s_pos (i_site g))) (f_lit (-23) (-3)) && is_finite (vx (s_pos (i_site g)) : f64) && feq (s_rad (i_site g)) (f_lit 0 (-3)) && is_finite (s_rad (i_site g) : f64) | _ => false end = true) by (vm_compute; reflexivity).
  assert (Z3 : B2R (f_ofZ (-3)) = (-3)%R) by (apply f_ofZ_exact; cbn; lia). assert (Z0 : B2R (f_ofZ 0) = 0%R) by (apply f_ofZ_exact; cbn; lia). assert (Z1 : B2R (f_ofZ 1) = 1%R) by (apply f_ofZ_exact; cbn; lia). assert (Z2 : B2R (f_ofZ 2) = 2%R) by (apply f_ofZ_exact; cbn; lia). assert (Zm : B2R (f_ofZ (-1)) = (-1)%R) by (apply f_ofZ_exact; cbn; lia).
  assert (L23 : B2R (f_lit (-23) (-3)) = (- 23 / 8)%R). { assert (Y : B2R (fopp (f_lit (-23) (-3))) = (23 / 8)%R) by (rewrite <- SF2R_B2SF; change (B2SF (fopp (f_lit (-23) (-3)))) with (SpecFloat.S754_finite false 6473924464345088 (-51)); cbn [SF2R]; unfold F2R; cbn [Fnum Fexp cond_Zopp]; change (bpow radix2 (-51)) with (/ 2251799813685248)%R; lra). unfold fopp in Y. rewrite B2R_Bopp in Y. lra. }
  assert (L0 : B2R (f_lit 0 (-3)) = 0%R) by reflexivity.
  assert (L4 : B2R (f_lit 1 (-2)) = (/ 4)%R) by (destruct (f_lit_pow2 (-2)) as (Y & _); [lia|]; rewrite Y; cbn; lra).
  assert (P := bpow_gt_0 radix2 (-53)). assert (Q : (bpow radix2 (-53) < 1)%R) by (apply (bpow_lt radix2 (-53) 0); lia). assert (Q' : (bpow radix2 (-53) < / 100)%R) by (apply (Rlt_trans _ (bpow radix2 (-8))); [apply bpow_lt; lia|cbn; lra]).
  assert (NX := nearFace_x). set (u := bpow radix2 (-53)) in *. clearbody u.
  assert (EX : exists y, X = y) by (exists X; reflexivity). destruct EX as (y & EX). rewrite EX in H. destruct y as [[|o [|[|g [|]] [|]]]| |]; try discriminate H. apply andb_true_iff in H. destruct H as (H & H4). apply andb_true_iff in H. destruct H as (H & H3). apply andb_true_iff in H. destruct H as (H1 & H2).
  apply feq_B2R in H1; [|exact H2|reflexivity]. apply feq_B2R in H3; [|exact H4|reflexivity]. rewrite L23 in H1. rewrite L0 in H3.
  exists (exChance 9%nat), exKey, halfBox, [exBox (-3) (-1); exBox (-1) 1], [[faceF]; [faceE]], [exTree 1 [3] [faceF]; exTree 1 [4] [faceE]], faceE, faceF, o, [g].
  split; [intros r; apply exChance_any|]. split; [|split; [|split; [reflexivity|split; [reflexivity|split; [|split]]]]].
  - intros c [<-|[<-|[<-|[]]]]; unfold finite, real; cbn [halfBox olow ohigh vx vy vz]; rewrite ?Z3, ?Z0, ?Z1, ?Z2; (split; [reflexivity|]); (split; [reflexivity|]); (split; [vm_compute; reflexivity|lra]).
  - intros r own d e Hr Hd He. destruct r as [|[|[|r]]]; try discriminate Hr; cbn [nth_error] in Hr, Hd; injection Hr as <-; injection Hd as <-; destruct He as [<-|[]]; (split; intros c [<-|[<-|[<-|[]]]]); unfold real; cbn [faceE faceF exItem nearFace exBox halfBox i_site s_pos olow ohigh vx vy vz]; rewrite ?Z3, ?Z0, ?Z1, ?Z2, ?Zm, ?NX, ?L23; lra.
  - left. unfold apart, image, away, edge, real_item, real_box, real_vec, real. cbn [faceE faceF exItem nearFace halfBox i_site s_pos s_rad i_pay olow ohigh vx vy vz]. rewrite ?Z3, ?Z0, ?Z1, ?Z2, ?Zm, ?NX, ?L23, ?L4. nra.
  - exact EX.
  - intros g' [<-|[]]. unfold sees, tight, apart, real in *. cbn [faceE i_site s_pos s_rad nearFace vx vy vz]. rewrite NX, L4, H3, H1. set (a := (B2R (f_ofZ 1) - B2R (vy (s_pos (i_site g)) : f64))%R). set (b := (B2R (f_ofZ 1) - B2R (vz (s_pos (i_site g)) : f64))%R). assert (A := pow2_ge_0 a). assert (B := pow2_ge_0 b). clearbody a b. intros [S|S]; nra.
Qed.
Print Assumptions C67_periodic_doubles_refuted.

(** two ranks, x periodic with size 4.  Particle 0 reaches across x = 0, so rank 1 gets it at 4.25 and rank 0 gets particle 3 at -0.125; particle 2 reaches across x = 2, so rank 0 gets it, and rank 1 gets particle 1 *)
Definition exA : list (item F_arith nat) := [exItem 0 2 4; exItem 1 14 0].
Definition exB : list (item F_arith nat) := [exItem 2 17 4; exItem 3 31 0].
Definition eighths (l : list (item F_arith nat)) : list (nat * Z) := map (fun e => (i_pay e, f_trunc (fmul (f_ofZ 8) (vx (s_pos (i_site e)))))) l.
Example C67_example :
  match exchangeLet (exChance 9%nat) exKey 4 (Vec true false false) (exBox 0 4) [exBox 0 2; exBox 2 4] [exA; exB] [exTree 1 [3; 5 * 8 ^ 20] exA; exTree 1 [4; 6 * 8 ^ 20] exB] 1 with
  | Done out => map eighths out | _ => [] end = [[(2%nat, 17); (3%nat, -1)]; [(0%nat, 34); (1%nat, 14)]].
Proof. vm_compute. reflexivity. Qed.

(** ** C68 *)

(** exchange and search together: the list of the group of a particle has every image of every particle of all ranks that it sees *)
Theorem C68_neighbours : forall (P : Type) (ch : nat -> chance R_arith P) key pa root doms E trees limit, ready ch key pa root doms E trees limit ->
  exists F, forall fuel, (F <= fuel)%nat -> exists out, @exchangeLet R_arith P ch key fuel pa root doms E trees limit = Done out /\ length out = length doms /\
    forall r own o all, nth_error E r = Some own -> nth_error out r = Some o -> Permutation all (own ++ o) ->
    search_lists all_ok (fun x : R_arith => x) limit own all (lists_all pa (image root) E (sees_item (fun x => x) tight) own all).
Proof. exact @exchange_search. Qed.
Print Assumptions C68_neighbours.

(** hence no contact between rods of different ranks or across a periodic boundary is missed *)
Theorem C68_contacts : forall (ch : nat -> chance R_arith ep) key pa root doms E trees limit, ready ch key pa root doms E trees limit -> (forall l f, In l E -> In f l -> proper_rod f) ->
  exists F, forall fuel, (F <= fuel)%nat -> exists out, @exchangeLet R_arith ep ch key fuel pa root doms E trees limit = Done out /\ length out = length doms /\
    forall r own o all, nth_error E r = Some own -> nth_error out r = Some o -> Permutation all (own ++ o) ->
    search_lists all_ok (fun x : R_arith => x) limit own all (lists_all pa (image root) E (fun a b => close (placed a) (placed b)) own all).
Proof. exact exchange_contacts. Qed.
Print Assumptions C68_contacts.

Theorem C68_neighbours_open : forall (P : Type) (ch : nat -> chance F_arith P) key root doms E trees limit fuel, ready_open ch key root doms E trees limit ->
  exists out, exchangeLet ch key fuel open root doms E trees limit = Done out /\ length out = length doms /\
    forall r own o all, nth_error E r = Some own -> nth_error out r = Some o -> Permutation all (own ++ o) ->
    search_lists finite real limit own all (lists_all open (fun _ f => f) E (sees_item real loose) own all).
Proof. intros P ch key root doms E trees limit fuel Y. destruct (exchange_search_open ch key root doms E trees limit fuel Y) as (out & H1 & H2 & _ & H3). exists out. auto. Qed.
Print Assumptions C68_neighbours_open.

(** rank 1 of the example above: its own particles 2 and 3 and the received 0 and 1, with keys in order of position; leaves and groups of one.  Particle 2 at 2.125 has itself and 1 at 1.75 in its list, particle 3 at 3.875 itself and 0 at 4.25 *)
Definition exAll : list (item F_arith nat) := [exItem 1 14 0; exItem 2 17 4; exItem 3 31 0; exItem 0 34 4].
Example C68_example :
  match searchLists (fun k e => buildTree exJunk exMom up down k e 1 [] (repeat 0 23)) (fun k e => buildTree exJunk exMom down up k e 1 [] (repeat 0 23)) [2 * 8 ^ 20; 6 * 8 ^ 20] (map i_site exB) [8 ^ 20; 2 * 8 ^ 20; 6 * 8 ^ 20; 7 * 8 ^ 20] (map i_site exAll) 1 1 with
  | Done res => map (fun gl => (g_adr (fst gl), map (fun x => match nth_error exAll (Z.to_nat x) with Some e => i_pay e | None => 99%nat end) (snd gl))) res | _ => [] end = [(0, [1%nat; 2%nat]); (1, [3%nat; 0%nat])].
Proof. vm_compute. reflexivity. Qed.

(** the requirements of C68_neighbours_open hold for the same particles when no axis is periodic *)
Lemma exSmall (x : f64) : is_finite x && fle (f_ofZ (-100)) x && fle x (f_ofZ 100) = true -> @finite x /\ (Rabs (real x) <= 16777215 * 2 ^ 97)%R.
Proof.
  intros H. apply andb_true_iff in H. destruct H as (H & H3). apply andb_true_iff in H. destruct H as (H1 & H2). split; [exact H1|].
  apply fle_R in H2; [|reflexivity|exact H1]. apply fle_R in H3; [|exact H1|reflexivity]. destruct (f_ofZ_exact (-100)) as (E1 & _); [cbn; lia|]. destruct (f_ofZ_exact 100) as (E2 & _); [cbn; lia|]. rewrite E1 in H2. rewrite E2 in H3. unfold real. apply Rabs_le. lra.
Qed.
Lemma exTree_own keys l : usable finite real (map i_site l) -> fits 1 keys -> length l = length keys -> own_tree finite real 1 l (exTree 1 keys l).
Proof.
  intros U F L. split; [exact U|]. exists exJunk, exMom, down, up, keys, [], (repeat 0 23). unfold exTree.
  assert (D : any_order down) by (intros l' n; symmetry; apply Permutation_rev). assert (D' : any_order up) by (intros l' n; reflexivity).
  destruct (C63_boxes_doubles exJunk exMom down up keys (map i_site l) 1 [] (repeat 0 23)) as (t & -> & _); auto; [rewrite map_length; exact L|lia|]. repeat (split; [assumption||reflexivity|]). reflexivity.
Qed.
Example C68_example_ready : ready_open (exChance 9%nat) exKey (exBox 0 4) [exBox 0 2; exBox 2 4] [exA; exB] [exTree 1 [3; 5 * 8 ^ 20] exA; exTree 1 [4; 6 * 8 ^ 20] exB] 1.
Proof.
  assert (B : forall l, In l [exA; exB] -> usable finite real (map i_site l)).
  { intros l Hl e He. destruct Hl as [<-|[<-|[]]]; destruct He as [<-|[<-|[]]]; (split; [|split; [|split; [reflexivity|apply (fle_R (f_ofZ 0)); reflexivity]]]); intros c [<-|[<-|[<-|[]]]];
      cbn [point ball exItem i_site s_pos s_rad olow ohigh vx vy vz];
      match goal with |- ?f ?a /\ _ /\ _ /\ _ => assert (A1 := exSmall a); match goal with |- _ /\ ?g ?b /\ _ /\ _ => assert (A2 := exSmall b) end end;
      (destruct A1 as (A11 & A12); [vm_compute; reflexivity|]); (destruct A2 as (A21 & A22); [vm_compute; reflexivity|]); auto. }
  assert (F : forall a b, 0 <= a <= b -> b < 8 ^ 21 -> fits 1 [a; b]).
  { intros a b H1 H2. split; [|split; cbn; lia]. intros i j Hi Hij Hj. cbn [length] in Hj. assert (i = 0 \/ i = 1) as [-> | ->] by lia; assert (j = 0 \/ j = 1) as [-> | ->] by lia; unfold keyAt; change (8 ^ 21) with 9223372036854775808 in *; change (Z.to_nat 1) with 1%nat; cbn; lia. }
  assert (T1 := exTree_own [3; 5 * 8 ^ 20] exA (B exA (or_introl eq_refl)) (F 3 (5 * 8 ^ 20) ltac:(lia) ltac:(lia)) eq_refl).
  assert (T2 := exTree_own [4; 6 * 8 ^ 20] exB (B exB (or_intror (or_introl eq_refl))) (F 4 (6 * 8 ^ 20) ltac:(lia) ltac:(lia)) eq_refl).
  revert T1 T2. generalize (exTree 1 [3; 5 * 8 ^ 20] exA) (exTree 1 [4; 6 * 8 ^ 20] exB). intros t1 t2 T1 T2.
  constructor; try reflexivity.
  - intros c [<-|[<-|[<-|[]]]]; (split; [reflexivity|]); (split; [reflexivity|]); (split; [vm_compute; reflexivity|apply flt_R; reflexivity]).
  - intros d [<-|[<-|[]]] c [<-|[<-|[<-|[]]]]; split; reflexivity.
  - intros r own d e Hr Hd He. destruct r as [|[|[|r]]]; try discriminate Hr; cbn [nth_error] in Hr, Hd; injection Hr as <-; injection Hd as <-; destruct He as [<-|[<-|[]]]; split; intros c [<-|[<-|[<-|[]]]]; (split; [apply fle_R; reflexivity|apply flt_R; reflexivity]).
  - intros r own t Hr Ht. destruct r as [|[|[|r]]]; try discriminate Hr; cbn [nth_error] in Hr, Ht; injection Hr as <-; injection Ht as <-; assumption.
  - intros r. apply exChance_any.
  - intros own e [<-|[<-|[]]] [<-|[<-|[]]]; eexists; (split; [vm_compute; reflexivity|lia]).
Qed.
