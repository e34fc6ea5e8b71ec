(** C69-C71: the neighbour search of all ranks as a whole. *)
From Coq Require Import List Arith ZArith Lia Bool Permutation Reals Lra Sorted.
From Flocq Require Import Core BinarySingleNaN.
From Verif Require Import Outcome ListUtil F64 Arith ParticleModel VecSpec NearModel NearSpec RadixModel RadixSpec TreeModel TreeSpec TreeProps ConModel MortonModel LetModel LetSpec LetProps CallModel CallSpec CallRoot CallProofs CallContact.
Import ListNotations.
Local Open Scope Z_scope.

(** ** Things for the examples *)
Definition oneRegion (m : nat) : region := Region 1 (map (pair 0%nat) (seq 0 m)) (map (pair 0%nat) (seq 0 m)).
Definition oneSorter (m : nat) : sorter := Sorter (fun _ => oneRegion m) (rev (seq 0 m)) [repeat 7%nat 256] [repeat 5%nat 256] (repeat (3, 2%nat) m).
Lemma oneSorter_any m : any_sorter m (oneSorter m).
Proof.
  exists 1%nat. split; [lia|]. cbn [oneSorter so_gs so_copy so_b so_p so_buf]. split; [|split; [symmetry; apply Permutation_rev|split; [split; [reflexivity|constructor; [apply repeat_length|constructor]]|split; [split; [reflexivity|constructor; [apply repeat_length|constructor]]|rewrite repeat_length; lia]]]].
  intros _. assert (F : follows [seq 0 m] (map (pair 0%nat) (seq 0 m))).
  { split; [intros e He; apply in_map_iff in He; destruct He as (i & <- & _); cbn; lia|]. intros [|[|t]] c Hc; cbn [nth_error] in Hc; inversion Hc; subst. clear. induction (seq 0 m) as [|i l IH]; [reflexivity|]. cbn [map filter fst Nat.eqb snd]. rewrite IH. reflexivity. }
  split; [reflexivity|]. exists [seq 0 m]. split; [reflexivity|]. split; [apply app_nil_r|]. split; exact F.
Qed.
Definition exTeam {N : arith} {P Fo : Type} (mom : nat -> moment N) (v : vec N) (e : item N P) (f : Fo) (limit : Z) (ranks n : nat) : cast N P Fo :=
  Cast [rev (seq 0 n)] oneSorter oneSorter (fun keys eps => buildTree exJunk mom up down keys eps limit [] (repeat 0 23)) (fun keys eps => buildTree exJunk mom down up keys eps limit [] (repeat 0 23))
    (Chance (fun _ => v) (fun k => k + 3)%nat (fun _ => 9) (fun _ => e) [rev (seq 0 ranks)] (fun l => [rev l]) (fun m => rev (seq 0 m)) (fun m => seq 0 m) (rev (seq 0 ranks)) sortKeys (fun keys eps => buildTree exJunk mom up down keys eps 1 [] (repeat 0 23)))
    (fun m => map (fun i => (Nat.modulo i 2, i)) (rev (seq 0 m))) (rev (seq 0 n)) (fun _ => f) (fun _ => f).
Lemma exTeam_any {N : arith} {P Fo : Type} (mom : nat -> moment N) (v : vec N) (e : item N P) (f : Fo) (limit : Z) (ranks n : nat) : any_cast ranks 2 limit n (exTeam mom v e f limit ranks n).
Proof.
  assert (R : forall m, Permutation (rev (seq 0 m)) (seq 0 m)) by (intros m; symmetry; apply Permutation_rev). assert (U : any_order up) by (intros l m; reflexivity). assert (D : any_order down) by (intros l m; apply R).
  constructor; cbn [exTeam q_deal q_sort1 q_sort2 q_tree1 q_tree2 q_let q_calls q_copy]; try (intros; apply oneSorter_any); try apply R.
  - cbn [concat]. rewrite app_nil_r. apply R.
  - intros keys eps. exists exJunk, mom, up, down, [], (repeat 0 23). auto.
  - intros keys eps. exists exJunk, mom, down, up, [], (repeat 0 23). auto.
  - repeat split; cbn [c_deal1 c_deal2 c_images1 c_images c_merge c_sort c_tree]; try (intros; apply sortKeys_ok); try (intros; apply R); try reflexivity.
    + cbn [concat]. rewrite app_nil_r. apply R.
    + intros l. cbn [concat]. rewrite app_nil_r. symmetry. apply Permutation_rev.
    + intros keys eps. exists exJunk, mom, up, down, [], (repeat 0 23). auto.
  - intros m. rewrite !map_map. cbn [fst snd]. split; [rewrite map_id; apply R|]. intros t Ht. apply in_map_iff in Ht. destruct Ht as (i & <- & _). apply Nat.mod_upper_bound. lia.
Qed.
Definition exDouble (sizes : list nat) (r : nat) : cast F_arith nat (list nat) := exTeam exMom (s_pos (exSite 7)) (exItem 99 0 0) [88%nat] 1 (length sizes) (nth r sizes 0%nat).

(** ** C69 *)

(** the root cell holds every particle and every image that is sent: all have keys *)
Theorem C69_root_cell : forall (P : Type) pa root doms (E : list (list (item R_arith P))) deal fuel, arena pa root doms E -> 9001 < Z.of_nat fuel ->
  (forall r own, nth_error E r = Some own -> Permutation (concat (deal r)) (seq 0 (length own))) ->
  exists cell, @setRootCell R_arith P deal fuel pa root E = Done cell /\
    forall r s own e k, nth_error E s = Some own -> In e own -> lattice pa k -> k = origin \/ needed root doms E r s k ->
      keyed_at (@cellKey R_arith Ztrunc cell) (away root k (s_pos (i_site e))) /\ @usable R_arith all_ok (fun x => x) [i_site (image root k e)].
Proof. intros P pa root doms E deal fuel HA. exact (root_cell pa root doms E HA deal fuel). Qed.
Print Assumptions C69_root_cell.

(** in doubles and without periodic axes, the cell of a lone particle may have no size, and there is no key *)
Definition lone : item F_arith nat := Item (@Site F_arith (Vec (f_ofZ 1) (f_ofZ 1) (f_ofZ 1)) (f_lit 1 (-60))) 0%nat.
Theorem C69_lone_doubles_refuted : exists (root : ort F_arith) (e : item F_arith nat), open_box root /\ inside_real root (s_pos (i_site e)) /\ (0 < real (s_rad (i_site e)))%R /\
  exists cell, setRootCell (fun _ => [[0%nat]]) 1 open root [[e]] = Done cell /\ cellKey f_cast cell (s_pos (i_site e)) = UB.
Proof.
  exists (exBox 0 4), lone. split; [|split; [|split]].
  - intros c [<-|[<-|[<-|[]]]]; (split; [reflexivity|]); (split; [reflexivity|]); (split; [vm_compute; reflexivity|apply flt_R; reflexivity]).
  - intros c [<-|[<-|[<-|[]]]]; (split; [apply fle_R; reflexivity|apply flt_R; reflexivity]).
  - apply (flt_R (f_ofZ 0)); reflexivity.
  - assert (H : match setRootCell (fun _ => [[0%nat]]) 1 open (exBox 0 4) [[lone]] with Done cell => match cellKey f_cast cell (s_pos (i_site lone)) with UB => true | _ => false end | _ => false end = true) by (vm_compute; reflexivity).
    destruct (setRootCell _ _ _ _ _) as [cell| |]; try discriminate H. exists cell. split; [reflexivity|]. destruct (cellKey _ _ _); try discriminate H. reflexivity.
Qed.
Print Assumptions C69_lone_doubles_refuted.

(** the particles of C67_example, x periodic with size 4: one copy of the box on each side is taken in, and the cell has three times the size, and a millionth more *)
Example C69_example : match setRootCell (fun _ => [[1%nat]; [0%nat]]) 9 (Vec true false false) (exBox 0 4) [exA; exB] with
  | Done (c, l) => (f_trunc (fmul (f_ofZ 100000) l), f_trunc (fmul (f_ofZ 8) (vx c)), map (fun e => match cellKey f_cast (c, l) (s_pos (i_site e)) with Done k => k / 8 ^ 20 | _ => 9 end) (exA ++ exB))
  | _ => (0, 0, []) end = (1200001, 16, [3; 3; 7; 7]).
Proof. vm_compute. reflexivity. Qed.

(** ** C70 *)

(** calcForceAll as a whole: the functor is called so that every particle is a target once, with all images it sees among the sources, none twice, and its force is what the functor makes of it *)
Theorem C70_calls : forall (P Fo : Type) (q : nat -> cast R_arith P Fo) threads pa root doms limit grpLimit (E : list (list (item R_arith P))) func clear, arena pa root doms E ->
  (forall r, any_cast (length doms) threads limit (length (nth r E [])) (q r)) -> 1 <= limit <= grpLimit -> (forall epi epj fs, length fs = length epi -> length (func epi epj fs) = length fs) -> roomy pa root doms E ->
  exists F, forall fuel, (F <= fuel)%nat -> exists res, @calcForceAll R_arith P Fo func clear q Ztrunc fuel pa root doms limit grpLimit E = Done res /\ length res = length E /\
    forall r own x, nth_error E r = Some own -> nth_error res r = Some x -> served (fun v : R_arith => v) tight pa (image root) E func clear threads own x.
Proof. exact @call_all. Qed.
Print Assumptions C70_calls.

(** there is room when no search radius is more than m boxes and the particles are few enough *)
Theorem C70_room : forall (P : Type) pa root doms (E : list (list (item R_arith P))) m, arena pa root doms E ->
  (forall own e, In own E -> In e own -> along pa (fun c : vec R -> R => (s_rad (i_site e) : R) <= INR m * edge root c)%R) ->
  (forall own, In own E -> treeable (length own + length (concat E) * copies pa m)) -> roomy pa root doms E.
Proof. exact @room. Qed.
Print Assumptions C70_room.

(** two ranks, x periodic. The functor keeps the names of the sources: particle 0 has itself and the image of 3, particle 1 has itself and 2, and so on *)
Definition keepNames (epi epj : list (item F_arith nat)) (fs : list (list nat)) : list (list nat) := map (fun f => f ++ map i_pay epj) fs.
Example C70_example : match calcForceAll keepNames (fun _ => []) (exDouble [2; 2]%nat) f_cast 9 (Vec true false false) (exBox 0 4) [exBox 0 2; exBox 2 4] 1 1 [exA; exB] with
  | Done res => map (fun x => (map (fun c => (fst c, (map i_pay (fst (snd c)), eighths (snd (snd c))))) (fst x), snd x)) res | _ => [] end
  = [([(1%nat, ([1%nat], [(1%nat, 14); (2%nat, 17)])); (0%nat, ([0%nat], [(3%nat, -1); (0%nat, 2)]))], [[3; 0]; [1; 2]]%nat);
     ([(1%nat, ([3%nat], [(3%nat, 31); (0%nat, 34)])); (0%nat, ([2%nat], [(1%nat, 14); (2%nat, 17)]))], [[1; 2]; [3; 0]]%nat)].
Proof. vm_compute. reflexivity. Qed.

(** ** C71 *)

(** with the functor of the contacts: on each rank the queues get, for each of its particles, one block for each image of a particle of larger id that is near enough, whatever rank it is on, and no other blocks *)
Theorem C71_contacts : forall (Fo : Type) (func : list (item R_arith ep) -> list (item R_arith ep) -> list Fo -> list Fo) clear q threads pa root doms limit grpLimit (E : list (list (item R_arith ep))), arena pa root doms E ->
  (forall r, any_cast (length doms) threads limit (length (nth r E [])) (q r)) -> 1 <= limit <= grpLimit -> (forall epi epj fs, length fs = length epi -> length (func epi epj fs) = length fs) -> roomy pa root doms E ->
  (forall l f, In l E -> In f l -> proper_rod f) ->
  exists F, forall fuel, (F <= fuel)%nat -> exists res, @calcForceAll R_arith ep Fo func clear q Ztrunc fuel pa root doms limit grpLimit E = Done res /\ length res = length E /\
    forall r own x p, nth_error E r = Some own -> nth_error res r = Some x -> length p = threads ->
      exists p' blocks, nearCalls (N := R_arith) PI (rods (fst x)) p = Done p' /\ Permutation (concat p') (concat p ++ blocks) /\ contacts pa root E own blocks.
Proof. exact @call_contacts. Qed.
Print Assumptions C71_contacts.

(** two spheres of radius 1/2 on two ranks, in a box of size 4 with x periodic, at 1/4 and at 15/4: across the boundary they overlap, and rank 0 finds the contact *)
Definition exBall (g : Z) (x : R) : item R_arith ep := let y := @NearEP R_arith g g g (/ 2)%R 0%R (/ 2)%R 0%R 0%R (@Vec R x 1%R 1%R) (@Vec R 1%R 0%R 0%R) in Item (siteOf y) y.
Definition exRoot (lo hi : R) : ort R := Ort (Vec lo 0%R 0%R) (Vec hi 2%R 2%R).
Definition exBalls : list (list (item R_arith ep)) := [[exBall 0 (/ 4)]; [exBall 1 (15 / 4)]].
Definition exReal (r : nat) : cast R_arith ep unit := exTeam (fun _ => @initMoment R_arith) (@Vec R 7%R 7%R 7%R) (exBall 9 9) tt 1 2 (length (nth r exBalls [])).
Lemma exRSearch g x : s_rad (i_site (exBall g x)) = 1%R.
Proof. cbn. unfold SegModel.stdmax, QPModel.stdmax. rarith. rcase; lra. Qed.
Lemma exArena : arena (Vec true false false) (exRoot 0 4) [exRoot 0 2; exRoot 2 4] exBalls.
Proof.
  assert (P100 : (8 <= 2 ^ 100)%R) by (apply (Rle_trans _ (2 ^ 3)); [lra|apply Rle_pow; [lra|lia]]).
  constructor.
  - split; [intros _; cbn; rewrite ?Rabs_R0, ?Rabs_pos_eq by lra; lra|split; discriminate].
  - intros own e c Ho He Hc. destruct Ho as [<-|[<-|[]]]; destruct He as [<-|[]]; destruct Hc as [<-|[<-|[<-|[]]]]; cbn; rewrite Rabs_pos_eq by lra; lra.
  - split; [intros _; unfold edge; cbn; lra|split; discriminate].
  - intros d [<-|[<-|[]]]; (split; [intros _; cbn; lra|split; discriminate]).
  - reflexivity.
  - intros r own d e Hr Hd He. destruct r as [|[|[|r]]]; try discriminate Hr; cbn [nth_error exBalls] in Hr, Hd; injection Hr as <-; injection Hd as <-; destruct He as [<-|[]]; split; intros c [<-|[<-|[<-|[]]]]; cbn; lra.
  - intros own [<-|[<-|[]]]; split; cbn; lia.
  - intros own e Ho He. assert (X : s_rad (i_site e) = 1%R) by (destruct Ho as [<-|[<-|[]]]; destruct He as [<-|[]]; apply exRSearch). rewrite X. split; [lra|]. split; [|left; reflexivity]. split; [intros _; unfold edge; cbn; lra|split; discriminate].
Qed.
Example C71_example : exists F, forall fuel, (F <= fuel)%nat -> exists res, @calcForceAll R_arith ep unit (fun _ _ f => f) (fun f => f) exReal Ztrunc fuel (Vec true false false) (exRoot 0 4) [exRoot 0 2; exRoot 2 4] 1 1 exBalls = Done res /\
  exists x p' b, nth_error res 0 = Some x /\ nearCalls (N := R_arith) PI (rods (fst x)) [[]; []] = Done p' /\ In b (concat p') /\ gidI b = 0 /\ gidJ b = 1.
Proof.
  assert (Room : roomy (Vec true false false) (exRoot 0 4) [exRoot 0 2; exRoot 2 4] exBalls).
  { apply (C70_room _ _ _ _ _ 1 exArena); [|intros own [<-|[<-|[]]]; split; cbn; lia]. intros own e Ho He. assert (X : s_rad (i_site e) = 1%R) by (destruct Ho as [<-|[<-|[]]]; destruct He as [<-|[]]; apply exRSearch). split; [|split; discriminate]. intros _. rewrite X. unfold edge; cbn; lra. }
  assert (Rod : forall l f, In l exBalls -> In f l -> proper_rod f).
  { intros l f Hl Hf. assert (Y : exists g x, f = exBall g x) by (destruct Hl as [<-|[<-|[]]]; destruct Hf as [<-|[]]; eauto). destruct Y as (g & x & ->). split; [reflexivity|]. split; [|left; cbn; lra]. unfold NearSpec.sized, unit3, norm3, dot3. cbn. repeat split; try lra. }
  destruct (C71_contacts unit (fun _ _ f => f) (fun f => f) exReal 2 _ _ _ 1 1 _ exArena (fun r => exTeam_any _ _ _ _ _ _ _) ltac:(lia) (fun _ _ fs _ => eq_refl) Room Rod) as (F & HF). exists F. intros fuel Hf. destruct (HF fuel Hf) as (res & R1 & R2 & R3). exists res. split; [exact R1|].
  destruct res as [|x res]; [discriminate R2|]. destruct (R3 0%nat [exBall 0 (/ 4)] x [[]; []] eq_refl eq_refl eq_refl) as (p' & blocks & H1 & H2 & ts & _ & T2 & T3).
  assert (T := T3 0 (exBall 0 (/ 4)) 1%nat [exBall 1 (15 / 4)] 0 (exBall 1 (15 / 4)) (Vec 1 0 0)). destruct (In_nth_error ts (0, (1%nat, 0, Vec 1 0 0))) as (n & Hn).
  { apply T; [split; [lia|reflexivity]|reflexivity|split; [lia|reflexivity]|split; [discriminate|split; reflexivity]|cbn; lia|].
    exists (@Vec R (/ 4)%R 1%R 1%R), (@Vec R (- / 4)%R 1%R 1%R). assert (Q : forall g y k, NearSpec.round (placed (image (exRoot 0 4) k (exBall g y)))) by (intros; unfold NearSpec.round; cbn; lra). assert (Q0 : forall g y, NearSpec.round (placed (exBall g y))) by (intros; unfold NearSpec.round; cbn; lra).
    split; [left; split; [apply Q0|reflexivity]|]. split; [left; split; [apply Q|]|left; split; [left; apply Q0|]].
    - cbn. unfold away, edge. cbn. f_equal; lra.
    - unfold NearSpec.limit, skin. cbn. destruct (Rlt_dec _ _) as [_|W]; [|exfalso; apply W; lra]. unfold dist3, norm3, dot3, sub3. cbn. match goal with |- (sqrt ?a < _)%R => replace a with ((/ 2) ^ 2)%R by lra end. rewrite sqrt_pow2 by lra. lra. }
  destruct (CallSort.Forall2_nth' _ _ _ T2 _ _ Hn) as (b & Hb & _ & e & l & f & P & Q & A1 & A2 & A3 & _ & _ & _ & A4). injection A2 as <-. destruct A1 as (_ & A1), A3 as (_ & A3). injection A1 as <-. injection A3 as <-.
  exists x, p', b. split; [reflexivity|]. split; [exact H1|]. split; [apply (Permutation_in _ (Permutation_sym H2)); apply nth_error_In in Hb; exact Hb|]. unfold contact_block in A4. cbv zeta in A4. destruct A4 as (_ & _ & _ & _ & _ & _ & A4 & A5 & _). split; [exact A4|exact A5].
Qed.
