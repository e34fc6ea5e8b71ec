(** C72, C73: preparing a step and collecting the contacts, on all ranks. *)
From Coq Require Import List Arith ZArith Lia Bool Permutation Reals Lra.
From Flocq Require Import Core BinarySingleNaN.
From Verif Require Import Outcome ListUtil SortModel F64 Arith VecModel VecSpec SylModel ParticleModel ParticleSpec ParticleProofs DomainModel DomainSpec PointsModel BoxModel GeoSpec IndexSpec StepModel ConModel NearModel NearSpec TreeModel TreeSpec LetModel LetSpec CallModel CallSpec CallContact CallProps TreeProps MortonModel PipeModel PipeSpec PipeProofs PipeCollect.
Import ListNotations.
Local Open Scope Z_scope.

(** ** C72 *)

(** the box made from the settings *)
Theorem C72_box : forall (pbc : vec bool) (low high : vec R) d,
  (forall b c, In (b, c) [(vx pbc, vx); (vy pbc, vy); (vz pbc, vz)] -> c low < c high /\ Rabs (c low) <= 2 ^ 100 /\ Rabs (c high) <= 2 ^ 100)%R ->
  setDomainInfo (N := R_arith) pbc low high newDomainInfo = Some d -> d_axis d = pbc /\ fit_box pbc (Ort (d_low d) (d_high d)).
Proof. exact box_fit. Qed.
Print Assumptions C72_box.

(** initialize: the domains tile the box and each object is moved into the box and to the rank of its domain; none is lost or changed otherwise *)
Theorem C72_distribute : forall (k : luck R_arith) b nx ny nz (ranks : list ranked), any_luck k -> (forall x, In x coords -> x (olow (b_root b)) < x (ohigh (b_root b)))%R -> tidy b nx ny nz ranks -> sampled k ranks ->
  exists n, forall fuel, (n <= fuel)%nat -> exists b' out, distribute k fuel b ranks = Done (Some (b', out)) /\ b_root b' = b_root b /\ b_n b' = b_n b /\ b_coef b' = b_coef b /\
    settled b' out /\ length out = length ranks /\
    exists before, Permutation before (objects ranks) /\ Forall2 (fun s t => exists x r, boxed (b_root b) (spos s) x /\ t = withRank (N := R_arith) r (withPose s x (orient s))) before (objects out).
Proof. intros k b nx ny nz ranks HK HR. exact (distribute_ok k HK b nx ny nz HR ranks). Qed.
Print Assumptions C72_distribute.

(** prepareStep: the same for every step, with new domains in every 50th, and the objects are numbered rank by rank *)
Theorem C72_prepare : forall (k : luck R_arith) c b nx ny nz dmax stepCount (ranks : list ranked), any_luck k -> (forall x, In x coords -> x (olow (b_root b)) < x (ohigh (b_root b)))%R -> tidy b nx ny nz ranks ->
  (Z.rem stepCount 50 = 0 -> sampled k ranks) -> (b_doms b = None -> Z.rem stepCount 50 = 0) -> 6 * Z.of_nat (length (objects ranks)) <= INT_MAX ->
  (c_monolayer c = true -> nz = 1%nat /\ vz (olow (b_root b)) <= (c_highZ c + c_lowZ c) / 2 < vz (ohigh (b_root b)))%R ->
  exists n, forall fuel, (n <= fuel)%nat -> exists b' out, prepareStep k fuel dmax c stepCount b ranks = Done (Some (b', out)) /\ b_root b' = b_root b /\ b_n b' = b_n b /\ b_coef b' = b_coef b /\
    (Z.rem stepCount 50 <> 0 -> b_doms b' = b_doms b) /\ settled b' out /\ length out = length ranks /\
    (exists before, Permutation before (objects ranks) /\ Forall2 (ready_object (b_root b) c) before (objects out)) /\ map (fun s => s_index s) (objects out) = IndexSpec.range 0 (length (objects ranks)).
Proof. intros k c b nx ny nz dmax stepCount ranks HK HR. exact (prepare_ok k HK c b nx ny nz HR dmax stepCount ranks). Qed.
Print Assumptions C72_prepare.

(** *** Examples in doubles *)

Definition f3 (x y z : Z) (e : Z) : vec F_arith := @Vec f64 (f_lit x e) (f_lit y e) (f_lit z e).
(** an object with radius 1/8 at multiples of 2^-4 *)
Definition exObject (g x y z : Z) : sylinder F_arith :=
  let o := f3 0 0 0 0 in
  @Syl F_arith g 77 77 (-1) false (f_lit 1 (-3)) (f_ofZ 0) (f_ofZ 0) (f_ofZ 0) (f_ofZ 0) (f_ofZ 0) (f_ofZ 0) (f3 x y z (-4)) (@Quat F_arith (f_ofZ 0) (f_ofZ 0) (f_ofZ 0) (f_ofZ 1))
    (@Motion F_arith o o o o o o o o o o o o o o o o o o).
Definition exRank (l : list (sylinder F_arith)) : @prank (sylinder F_arith) := Build_prank l 0 0.
Definition exLuck : luck F_arith :=
  @Luck F_arith (fun r i => Z.of_nat (5 * r + 3 * i) * 2 ^ 40) (fun sizes r => 200 * Z.of_nat (nth r sizes 0%nat)) (fun c => stable_sort (fun a b => flt (c a) (c b))) (exObject 99 9 9 9) (fun _ n => rev (seq 0 n)) (fun _ n => seq 0 n).
Definition exSettings (mono : bool) : stepConfig F_arith := @StepConfig F_arith (f_ofZ 1) (f_ofZ 1) (f_ofZ 1) mono false (f_ofZ 1) (f_ofZ 1) (f_lit 1 (-3)) (f_ofZ 0) (f_ofZ 2).
(** the domains before the first step, for simBoxPBC, simBoxLow and simBoxHigh *)
Definition exDomains (pbc : vec bool) (size : Z) (n : nat * nat * nat) : option (domains F_arith) :=
  match setDomainInfo (N := F_arith) pbc (f3 0 0 0 0) (f3 size size size 0) newDomainInfo with Some d => Some (@Domains F_arith (Ort (d_low d) (d_high d)) n (f_ofZ 1) None) | None => None end.
Definition exView (s : sylinder F_arith) : Z * Z * Z * list Z := (s_gid s, s_index s, s_rank s, map (fun c => f_trunc (fmul (f_ofZ 16) (c (spos s)))) [vx; vy; vz]).
(** initialize and the first step *)
Definition exStart (mono : bool) (pbc : vec bool) (size : Z) (n : nat * nat * nat) (ranks : list (@prank (sylinder F_arith))) : outcome (option (domains F_arith * list (@prank (sylinder F_arith)))) :=
  match exDomains pbc size n with
  | Some b => do x <- distribute exLuck 9 b ranks; match x with Some (b, ranks) => prepareStep exLuck 9 (f_ofZ 0) (exSettings mono) 0 b ranks | None => Done None end
  | None => Done None
  end.

(** two ranks along x, periodic in x with size 4. All objects are on rank 0 at first, object 0 at -1/8 and object 3 at 17/4: they are moved into the box, and rank 1 gets the objects 0 and 2 *)
Example C72_example : match exStart false (Vec true false false) 4 (2, 1, 1)%nat [exRank [exObject 0 (-2) 3 (-5); exObject 1 20 1 2; exObject 2 40 (-30) 0; exObject 3 68 3 3]; exRank []] with
  | Done (Some (b, ranks)) => Some (map (fun p => map exView (pr_ptcl p)) ranks) | _ => None end
  = Some [[(1, 0, 0, [20; 1; 2]); (3, 1, 0, [4; 3; 3])]; [(0, 2, 1, [62; 3; -5]); (2, 3, 1, [40; -30; 0])]].
Proof. vm_compute. reflexivity. Qed.

(** in a monolayer on several layers of domains: the objects 0 and 1 are moved to the same height and overlap, but stay on ranks whose domains do not contain them *)
Definition exMono : list (@prank (sylinder F_arith)) :=
  [exRank [exObject 0 15 8 30; exObject 1 17 8 2; exObject 2 8 8 20; exObject 3 24 8 8; exObject 4 8 24 8; exObject 5 9 24 24; exObject 6 24 24 8; exObject 7 25 24 24];
   exRank []; exRank []; exRank []; exRank []; exRank []; exRank []; exRank []].
(** collectPairCollision after that *)
Definition exHelp (ranks n : nat) : cast F_arith (nearEP F_arith) unit :=
  exTeam exMom (f3 7 7 7 0) (treeItem (exObject 99 9 9 9)) tt 1 ranks n.
Definition exCollect (pbc : vec bool) (b : domains F_arith) (ranks : list (@prank (sylinder F_arith))) : outcome (list (list (list (block F_arith)))) :=
  collectPairCollision (fun _ _ f => f) (fun f => f) (fun r => exHelp (length ranks) (length (pr_ptcl (nth r ranks (exRank []))))) f_cast (f_lit 884279719003555 (-48)) 2 9 pbc 1 4 b ranks.

(** ** C73 *)

(** collectPairCollision: on each rank one block for each of its objects and each image of an object of larger id found to be within the limit, in particular for all images near enough *)
Theorem C73_collect : forall pa m (b : domains R_arith) (ranks : list ranked), fit_box pa (b_root b) -> settled b ranks -> (forall s, In s (objects ranks) -> fit_ready pa (b_root b) m s) -> Z.of_nat m <= 9000 ->
  treeable (length (objects ranks) * S (copies pa m)) -> forall Fo (func : list (item R_arith ep) -> list (item R_arith ep) -> list Fo -> list Fo) clear (q : nat -> cast R_arith ep Fo) threads lim grpLimit,
  (forall r, any_cast (length ranks) threads lim (nth r (sizes ranks) 0%nat) (q r)) -> 1 <= lim <= grpLimit -> (forall epi epj fs, length fs = length epi -> length (func epi epj fs) = length fs) ->
  exists n, forall fuel, (n <= fuel)%nat -> exists pools, collectPairCollision (N := R_arith) func clear q Ztrunc PI threads fuel pa lim grpLimit b ranks = Done pools /\ length pools = length ranks /\
    forall r own pool, nth_error (tree_items ranks) r = Some own -> nth_error pools r = Some pool -> exists blocks, Permutation (concat pool) blocks /\ contacts pa (b_root b) (tree_items ranks) own blocks.
Proof. intros. apply (collect_ok pa m b ranks); assumption. Qed.
Print Assumptions C73_collect.

(** prepareStep and collectPairCollision, from any distribution of the objects over the ranks *)
Theorem C73_step : forall (k : luck R_arith) c pa m b nx ny nz dmax stepCount (ranks : list ranked), any_luck k -> c_monolayer c = false -> fit_box pa (b_root b) -> tidy b nx ny nz ranks ->
  (Z.rem stepCount 50 = 0 -> sampled k ranks) -> (b_doms b = None -> Z.rem stepCount 50 = 0) -> 6 * Z.of_nat (length (objects ranks)) <= INT_MAX ->
  (forall s, In s (objects ranks) -> fit_object pa (b_root b) m c s) -> Z.of_nat m <= 9000 -> treeable (length (objects ranks) * S (copies pa m)) ->
  exists n, forall fuel, (n <= fuel)%nat -> exists b' out before, prepareStep k fuel dmax c stepCount b ranks = Done (Some (b', out)) /\ length out = length ranks /\
    Permutation before (objects ranks) /\ Forall2 (ready_object (b_root b) c) before (objects out) /\
    forall Fo (func : list (item R_arith ep) -> list (item R_arith ep) -> list Fo -> list Fo) clear (q : nat -> cast R_arith ep Fo) threads lim grpLimit,
      (forall r, any_cast (length out) threads lim (nth r (sizes out) 0%nat) (q r)) -> 1 <= lim <= grpLimit -> (forall epi epj fs, length fs = length epi -> length (func epi epj fs) = length fs) ->
      exists n', forall fuel', (n' <= fuel')%nat -> exists pools, collectPairCollision (N := R_arith) func clear q Ztrunc PI threads fuel' pa lim grpLimit b' out = Done pools /\ length pools = length out /\
        forall r own pool, nth_error (tree_items out) r = Some own -> nth_error pools r = Some pool -> exists blocks, Permutation (concat pool) blocks /\ contacts pa (b_root b) (tree_items out) own blocks.
Proof. exact step_ok. Qed.
Print Assumptions C73_step.

(** two ranks as in C72_example: object 0, wrapped to 31/8, on rank 1, and object 3, wrapped to 1/16, on rank 0, overlap across the boundary, and rank 1 finds the contact *)
Example C73_example : match exStart false (Vec true false false) 4 (2, 1, 1)%nat [exRank [exObject 0 (-2) 3 (-5); exObject 1 20 1 2; exObject 2 40 (-30) 0; exObject 3 65 3 (-5)]; exRank []] with
  | Done (Some (b, ranks)) => match exCollect (Vec true false false) b ranks with Done pools => Some (map (fun p => map exView (pr_ptcl p)) ranks, map (map (map (fun b => (gidI b, gidJ b)))) pools) | _ => None end | _ => None end
  = Some ([[(1, 0, 0, [20; 1; 2]); (3, 1, 0, [1; 3; -5])]; [(0, 2, 1, [62; 3; -5]); (2, 3, 1, [40; -30; 0])]], [[[]; []]; [[(0, 3)]; []]]).
Proof. vm_compute. reflexivity. Qed.

(** in a monolayer with more than one layer of domains, the objects are moved to the same height after they have been sent to the ranks: two objects overlap, and no rank finds the contact *)
Theorem C73_monolayer_refuted : exists b b0 r0 b' out pools (s t : sylinder F_arith), exDomains (Vec false false false) 2 (2, 2, 2)%nat = Some b /\
  distribute exLuck 9 b exMono = Done (Some (b0, r0)) /\ prepareStep exLuck 9 (f_ofZ 0) (exSettings true) 0 b0 r0 = Done (Some (b', out)) /\ exCollect (Vec false false false) b' out = Done pools /\
  In s (concat (map pr_ptcl out)) /\ In t (concat (map pr_ptcl out)) /\ s_gid s = 0 /\ s_gid t = 1 /\
  flt (vnorm (vsub (spos s) (spos t))) (fadd (radiusCol s) (radiusCol t)) = true /\
  forall k, In k (concat (concat pools)) -> gidI k <> 0 /\ gidJ k <> 0.
Proof.
  pose (pick := fun g (l : list (sylinder F_arith)) => find (fun s => s_gid s =? g) l).
  assert (H : match exDomains (Vec false false false) 2 (2, 2, 2)%nat with Some b => match distribute exLuck 9 b exMono with Done (Some (b0, r0)) => match prepareStep exLuck 9 (f_ofZ 0) (exSettings true) 0 b0 r0 with Done (Some (b', out)) =>
      match exCollect (Vec false false false) b' out with Done pools => match pick 0 (concat (map pr_ptcl out)), pick 1 (concat (map pr_ptcl out)) with Some s, Some t =>
        flt (vnorm (vsub (spos s) (spos t))) (fadd (radiusCol s) (radiusCol t)) && forallb (fun k => negb (gidI k =? 0) && negb (gidJ k =? 0)) (concat (concat pools)) | _, _ => false end
      | _ => false end | _ => false end | _ => false end | _ => false end = true) by (vm_compute; reflexivity).
  destruct (exDomains _ _ _) as [b|]; [|discriminate H]. destruct (distribute _ _ _ _) as [[(b0, r0)|]| |] eqn:E1; try discriminate H. destruct (prepareStep _ _ _ _ _ _ _) as [[(b', out)|]| |] eqn:E2; try discriminate H.
  destruct (exCollect _ _ _) as [pools| |] eqn:E3; try discriminate H. destruct (pick 0 _) as [s|] eqn:P1; [|discriminate H]. destruct (pick 1 _) as [t|] eqn:P2; [|discriminate H].
  apply andb_true_iff in H. destruct H as (H1 & H2). apply find_some in P1, P2. destruct P1 as (P1 & Q1), P2 as (P2 & Q2). apply Z.eqb_eq in Q1, Q2.
  exists b, b0, r0, b', out, pools, s, t. repeat (split; [assumption || reflexivity|]). intros k Hk. pose proof (proj1 (forallb_forall _ _) H2 k Hk) as X. apply andb_true_iff in X. destruct X as (X & Y). apply negb_true_iff, Z.eqb_neq in X, Y. auto.
Qed.
Print Assumptions C73_monolayer_refuted.

(** the premises of C73_step hold for two balls of radius 1/2 at 1/4 and -1/4, both on rank 0 of two ranks, x periodic with size 4 and the other axes open; a block for the two is found *)
Definition exR3 (x y z : R) : vec R_arith := @Vec R x y z.
Definition exSphere (g : Z) (x : R) : syl :=
  let o := exR3 0 0 0 in
  @Syl R_arith g 77 77 (-1) false (/ 2)%R 0%R 0%R 0%R 0%R 0%R 0%R (exR3 x 1 1) (@Quat R_arith 0%R 0%R 0%R 1%R) (@Motion R_arith o o o o o o o o o o o o o o o o o o).
Definition exSpheres : list ranked := [Build_prank [exSphere 0 (/ 4); exSphere 1 (- / 4)] 0 0; Build_prank [] 0 0].
Definition exWide : R := (16777215 * 2 ^ 100)%R.
Definition exWorld : domains R_arith := @Domains R_arith (Ort (exR3 0 (- exWide) (- exWide)) (exR3 4 exWide exWide)) (2, 1, 1)%nat 1%R None.
Definition exAny : luck R_arith := @Luck R_arith (fun _ _ => 0) (fun _ _ => 400) (fun c => stable_sort (fun a b => Rlt_bool (c a) (c b))) (exSphere 99 0) (fun _ n => seq 0 n) (fun _ n => seq 0 n).
Definition exReals : stepConfig R_arith := @StepConfig R_arith 1%R 1%R 1%R false false 1%R 1%R 0%R 0%R 0%R.
Example C73_example_reals : exists n, forall fuel, (n <= fuel)%nat -> exists b out, prepareStep exAny fuel (0%R : R_arith) exReals 0 exWorld exSpheres = Done (Some (b, out)) /\
  exists n', forall fuel', (n' <= fuel')%nat -> exists pools pool k,
    collectPairCollision (N := R_arith) (fun _ _ f => f) (fun f => f) (fun r => exTeam (fun _ => @initMoment R_arith) (exR3 7 7 7) (exBall 9 9) tt 1 2 (nth r (sizes out) 0%nat)) Ztrunc PI 2 fuel' (Vec true false false) 1 1 b out = Done pools /\
    In pool pools /\ In k (concat pool) /\ gidI k = 0 /\ gidJ k = 1.
Proof.
  assert (P100 : (8 <= 2 ^ 100)%R) by (apply (Rle_trans _ (2 ^ 3)); [lra|apply Rle_pow; [lra|lia]]).
  assert (PW : (2 ^ 100 < exWide)%R) by (unfold exWide; lra).
  assert (Hbox : fit_box (Vec true false false) (b_root exWorld)).
  { intros b c [H|[H|[H|[]]]]; injection H as <- <-; cbn [exWorld b_root olow ohigh exR3 vx vy vz]; (split; [lra|]); rewrite ?Rabs_R0, ?(Rabs_pos_eq 4) by lra; lra. }
  destruct (C73_step exAny exReals (Vec true false false) 1 exWorld 2 1 1 (0%R : R_arith) 0 exSpheres) as (n & Hn).
  - split; [intros; cbn; lia|]. split; [apply R_sorts|]. split; intros; apply Permutation_refl.
  - reflexivity.
  - exact Hbox.
  - repeat split; try (cbn; lia); cbn; lra.
  - intros _. split; [cbn; lia|]. split; [cbn; unfold INT_MAX; lia|]. intros [|[|[|r]]] m Hm; cbn in Hm; inversion Hm; subst; cbn; lia.
  - reflexivity.
  - cbn. unfold INT_MAX. lia.
  - assert (X : reach (/ 2) 0 (0 * 1) 0 = 1%R) by (unfold reach; rewrite Rmax_left; lra).
    intros s Hs. cbn in Hs. assert (Y : exists g x, s = exSphere g x /\ (Rabs x <= 1)%R) by (destruct Hs as [<-|[<-|[]]]; do 2 eexists; (split; [reflexivity|]); rewrite ?Rabs_Ropp, Rabs_pos_eq; lra). destruct Y as (g & x & -> & Hx).
    unfold fit_object, fit. cbn [exSphere spos orient radius slength exReals c_diameterRatio c_lengthRatio c_colBuf exR3]. rewrite X. split.
    { intros b c [H|[H|[H|[]]]] Hb; injection H as <- <-; try discriminate Hb; cbn; rewrite Rabs_pos_eq; lra. }
    repeat (split; [lra|]). split; [unfold unitq; cbn; lra|]. split; [lra|]. split; [split; [intros _; unfold edge; cbn; lra|split; discriminate]|]. split; [left; reflexivity|]. left. lra.
  - lia.
  - split; vm_compute; congruence.
  - exists n. intros fuel Hf. destruct (Hn fuel Hf) as (b & out & before & E & L & P & F & C). exists b, out. split; [exact E|]. clear Hn E.
    destruct (C unit (fun _ _ f => f) (fun f => f) (fun r => exTeam (fun _ => @initMoment R_arith) (exR3 7 7 7) (exBall 9 9) tt 1 2 (nth r (sizes out) 0%nat)) 2%nat 1 1) as (n' & Hn'); [intros r; rewrite L; apply exTeam_any|lia|auto|].
    exists n'. intros fuel' Hf'. destruct (Hn' fuel' Hf') as (pools & E & L2 & K). exists pools. clear Hn' C.
    (* the two balls after the preparation *)
    assert (T : forall s, In s (objects exSpheres) -> exists r p i t, nth_error out r = Some p /\ nth_error (pr_ptcl p) i = Some t /\ ready_object (b_root exWorld) exReals s t).
    { intros s Hs. apply (Permutation_in _ (Permutation_sym P)) in Hs. apply In_nth_error in Hs. destruct Hs as (i & Hi). destruct (CallSort.Forall2_nth' _ _ _ F _ _ Hi) as (t & Ht & R). apply nth_error_In, in_concat in Ht. destruct Ht as (l & Hl & Ht). apply in_map_iff in Hl. destruct Hl as (p & <- & Hp).
      apply In_nth_error in Hp, Ht. destruct Hp as (r & Hr), Ht as (j & Hj). exists r, p, j, t. auto. }
    destruct (T (exSphere 0 (/ 4)) (or_introl eq_refl)) as (r0 & p0 & i0 & t0 & A1 & A2 & A3). destruct (T (exSphere 1 (- / 4)) (or_intror (or_introl eq_refl))) as (r1 & p1 & i1 & t1 & B1 & B2 & B3).
    destruct A3 as (A3 & _ & _ & _ & _ & A4 & A5 & A6 & x0 & A7 & A8 & _), B3 as (B3 & _ & _ & _ & _ & B4 & B5 & B6 & x1 & B7 & B8 & _). cbn [exSphere s_gid radius slength exReals c_diameterRatio c_lengthRatio c_colBuf] in A3, A4, A5, A6, B3, B4, B5, B6.
    assert (X0 : x0 = exR3 (/ 4) 1 1 /\ x1 = exR3 (15 / 4) 1 1).
    { pose proof (A7 vx ltac:(cbn; auto)) as (_ & _ & G1). pose proof (A7 vy ltac:(cbn; auto)) as (_ & _ & G2). pose proof (A7 vz ltac:(cbn; auto)) as (_ & _ & G3). pose proof (B7 vx ltac:(cbn; auto)) as (K1 & (w & K2) & _). pose proof (B7 vy ltac:(cbn; auto)) as (_ & _ & K3). pose proof (B7 vz ltac:(cbn; auto)) as (_ & _ & K4).
      cbn [exSphere spos exWorld b_root olow ohigh exR3 vx vy vz] in *. specialize (G1 ltac:(lra)). specialize (G2 ltac:(lra)). specialize (G3 ltac:(lra)). specialize (K3 ltac:(lra)). specialize (K4 ltac:(lra)).
      assert (W : w = 1). { assert (0 < IZR w < 2)%R by lra. destruct H as (H1 & H2). apply lt_IZR in H1, H2. lia. }
      rewrite W in K2. destruct x0 as [x0x x0y x0z], x1 as [x1x x1y x1z]. cbn [vx vy vz] in *. unfold exR3. split; f_equal; try assumption. lra. }
    destruct X0 as (-> & ->). clear A7 B7.
    assert (exists pool, nth_error pools r0 = Some pool) as (pool & Hpool) by (destruct (nth_error pools r0) eqn:Y; [eauto|apply nth_error_None in Y; assert (r0 < length out)%nat by (apply nth_error_Some; congruence); lia]).
    destruct (K r0 (map (treeItem (N := R_arith)) (pr_ptcl p0)) pool (map_nth_error _ _ _ A1) Hpool) as (blocks & HP & ts & _ & T2 & T3).
    assert (Q0 : NearSpec.round (placed (treeItem (N := R_arith) t0))) by (unfold NearSpec.round; cbn; rewrite A5, A6; lra). assert (Q1 : forall k, NearSpec.round (placed (image (b_root exWorld) k (treeItem (N := R_arith) t1)))) by (intros; unfold NearSpec.round; cbn; rewrite B5, B6; lra).
    destruct (In_nth_error ts (Z.of_nat i0, (r1, Z.of_nat i1, Vec 1 0 0))) as (m & Hm).
    { apply (T3 _ (treeItem (N := R_arith) t0) r1 (map (treeItem (N := R_arith)) (pr_ptcl p1)) _ (treeItem (N := R_arith) t1)).
      - split; [lia|]. rewrite Nat2Z.id. apply map_nth_error. exact A2.
      - apply (map_nth_error (fun p : ranked => map (treeItem (N := R_arith)) (pr_ptcl p))). exact B1.
      - split; [lia|]. rewrite Nat2Z.id. apply map_nth_error. exact B2.
      - split; [discriminate|split; reflexivity].
      - cbn. rewrite A3, B3. lia.
      - exists (@Vec R (/ 4)%R 1%R 1%R), (@Vec R (- / 4)%R 1%R 1%R). split; [left; split; [exact Q0|cbn; rewrite A8; reflexivity]|]. split; [left; split; [apply Q1|cbn; rewrite B8; unfold away, edge; cbn; f_equal; lra]|left; split; [left; exact Q0|]].
        unfold NearSpec.limit, skin. cbn. rewrite A4, A5, A6, B4, B5, B6. destruct (Rlt_dec _ _) as [_|W]; [|exfalso; apply W; lra]. unfold dist3, norm3, dot3, sub3. cbn. match goal with |- (sqrt ?a < _)%R => replace a with ((/ 2) ^ 2)%R by lra end. rewrite sqrt_pow2 by lra. lra. }
    destruct (CallSort.Forall2_nth' _ _ _ T2 _ _ Hm) as (k & Hk & _ & e & l & f & PP & QQ & D1 & D2 & D3 & _ & _ & _ & D4). exists pool, k. split; [exact E|]. split; [eapply nth_error_In; exact Hpool|]. split; [apply (Permutation_in _ (Permutation_sym HP)); eapply nth_error_In; exact Hk|].
    destruct D1 as (_ & D1), D3 as (_ & D3). rewrite Nat2Z.id in D1, D3. pose proof (eq_trans (eq_sym (map_nth_error (treeItem (N := R_arith)) _ _ A2)) D1) as Y1. injection Y1 as <-. pose proof (eq_trans (eq_sym (map_nth_error (fun p : ranked => map (treeItem (N := R_arith)) (pr_ptcl p)) _ _ B1)) D2) as Y2. injection Y2 as <-. pose proof (eq_trans (eq_sym (map_nth_error (treeItem (N := R_arith)) _ _ B2)) D3) as Y3. injection Y3 as <-.
    unfold contact_block in D4. cbv zeta in D4. destruct D4 as (_ & _ & _ & _ & _ & _ & D4 & D5 & _). cbn in D4, D5. rewrite A3 in D4. rewrite B3 in D5. auto.
Qed.
