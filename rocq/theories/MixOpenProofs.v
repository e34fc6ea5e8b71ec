(** Proofs about the interaction of two kinds of particles on all ranks in doubles, when no axis is periodic. *)
From Coq Require Import List Arith ZArith Bool Reals Permutation Lia Lra.
From Flocq Require Import Core BinarySingleNaN.
From Verif Require Import Outcome ListUtil F64 Arith ParticleModel GeoModel TreeModel TreeSpec MortonModel LetModel LetSpec CallModel CallSpec CallSort CallProofs CallOpenSpec CallOpenProofs MixModel MixSpec MixProofs MixRankModel MixRankProofs MixOpenSpec.
Import ListNotations.
Local Open Scope R_scope.

(** ** Positions in the box stay *)
Lemma coordinate_stays n (lo hi x : F_arith) : finite lo -> finite hi -> finite x -> real lo <= real x < real hi -> adjustCoordinate n lo hi x = Done x.
Proof.
  intros Fl Fh Fx (H1 & H2). unfold real in *. assert (E1 : flt x lo = false) by (destruct (flt x lo) eqn:E; [apply (flt_R x lo Fx Fl) in E; lra|reflexivity]).
  assert (E2 : fle hi x = false) by (destruct (fle hi x) eqn:E; [apply (fle_R hi x Fh Fx) in E; lra|reflexivity]).
  assert (E3 : feq x hi = false) by (unfold feq; rewrite (Beqb_correct prec64 emax64 x hi Fx Fh); apply Req_bool_false; lra).
  unfold adjustCoordinate. assert (A : addWhile n lo (hi - lo)%A x = Done x) by (destruct n; cbn [addWhile]; change (x <? lo)%A with (flt x lo); rewrite E1; reflexivity).
  assert (B : subWhile n hi (hi - lo)%A x = Done x) by (destruct n; cbn [subWhile]; change (x >=? hi)%A with (fle hi x); rewrite E2; reflexivity).
  rewrite A. cbn [obind]. rewrite B. cbn [obind]. change (x =? hi)%A with (feq x hi). rewrite E3. reflexivity.
Qed.
Lemma position_stays n (root : ort F_arith) (p : vec F_arith) : open_box root -> (forall c, In c coords -> finite (c p)) -> inside_real root p -> adjustPosition n root p = Done p.
Proof.
  intros HB HF HI. unfold adjustPosition. assert (X : forall c, In c coords -> adjustCoordinate n (c (olow root)) (c (ohigh root)) (c p) = Done (c p)).
  { intros c Hc. destruct (HB c Hc) as (B1 & B2 & _). apply coordinate_stays; auto. }
  rewrite (X vx) by (cbn; auto). cbn [obind]. rewrite (X vy) by (cbn; auto). cbn [obind]. rewrite (X vz) by (cbn; auto). destruct p; reflexivity.
Qed.

Section MixOpen.
  Context {EPT EPS FPT FPS Force : Type} (PT : particle (vec F_arith) F_arith EPT) (PS : particle (vec F_arith) F_arith EPS) (copyT : FPT -> EPT) (copyS : FPS -> EPS).
  Notation epI := (mixEPI (vec F_arith) F_arith EPT).
  Notation epJ := (mixEPJ (vec F_arith) F_arith EPS).
  Notation itemE := (item F_arith (epI * epJ)).
  Notation member := (EPT + EPS)%type.
  Hypotheses (LT : lawful PT) (LS : lawful PS).

  (** the item of the tree for a particle *)
  Definition standing (m : member) (x : itemE) : Prop :=
    i_site x = i_site (member_item PT PS m) /\
    match m with
    | inl t => i_trg (fst (i_pay x)) = true /\ i_radius (fst (i_pay x)) = getRSearch PT t /\ i_ep (fst (i_pay x)) = t /\ j_src (snd (i_pay x)) = false
    | inr p => j_src (snd (i_pay x)) = true /\ j_radius (snd (i_pay x)) = getRSearch PS p /\ j_ep (snd (i_pay x)) = p
    end.
  Lemma standing_target t (p : mixFP EPT EPS) ei ej : trgFlag p = true -> epTrg p = t ->
    standing (inl t) (Item (@Site F_arith (jPos PS (jCopy PT PS ej p)) (j_radius (jCopy PT PS ej p))) (iCopy PT PS ei p, jCopy PT PS ej p)).
  Proof using LT.
    intros F Ep. destruct LT as (L1 & L2 & L3). unfold standing, member_item. cbn [i_site i_pay fst snd s_rad]. unfold iCopy, jCopy, fpRadius, fpPos. rewrite F, Ep. cbn. rewrite L2. repeat split.
  Qed.
  Lemma standing_source s (p : mixFP EPT EPS) ei ej : trgFlag p = false -> epSrc p = s ->
    standing (inr s) (Item (@Site F_arith (jPos PS (jCopy PT PS ej p)) (j_radius (jCopy PT PS ej p))) (iCopy PT PS ei p, jCopy PT PS ej p)).
  Proof using LS.
    intros F Ep. destruct LS as (L1 & L2 & L3). unfold standing, member_item. cbn [i_site i_pay fst snd s_rad]. unfold iCopy, jCopy, fpRadius, fpPos. rewrite F, Ep. cbn. unfold jPos, jSetPos. cbn. rewrite L2. repeat split.
  Qed.

  Definition place (m : member) : vec F_arith := match m with inl t => getPos PT t | inr s => getPos PS s end.
  Lemma enter_open root n k d : any_stage_open (length (fst d)) (length (snd d)) k ->
    (forall m, In m (members copyT copyS d) -> adjustPosition (N := F_arith) n root (place m) = Done (place m)) ->
    exists own', enterRank (N := F_arith) (Force := Force) PT PS copyT copyS n root k (fst d) (snd d) = Done own' /\ Forall2 standing (members copyT copyS d) own'.
  Proof using LT LS.
    intros (S1 & S2 & S3 & S4 & S5 & _) HA. destruct d as [trg src]. cbn [fst snd] in *.
    assert (A1 : forall t, In t trg -> adjustPosition (N := F_arith) n root (getPos PT (copyT t)) = Done (getPos PT (copyT t))).
    { intros t Ht. apply (HA (inl (copyT t))). apply in_or_app. left. apply (in_map (fun t => inl (copyT t))). exact Ht. }
    assert (A2 : forall t, In t src -> adjustPosition (N := F_arith) n root (getPos PS (copyS t)) = Done (getPos PS (copyS t))).
    { intros t Ht. apply (HA (inr (copyS t))). apply in_or_app. right. apply (in_map (fun t => inr (copyS t))). exact Ht. }
    destruct (updateSystem_ok PT PS copyT copyS (k_o1 k) (k_o2 k) (adjustPosition (N := F_arith) n root) trg src (k_mem k) S1 S2 S3) as (sys & Es & Ls & U1 & U2).
    { intros t Ht. eexists. apply (A1 t Ht). }
    { intros t Ht. eexists. apply (A2 t Ht). }
    assert (EN : enterRank (N := F_arith) (Force := Force) PT PS copyT copyS n root k trg src = enterTree (N := F_arith) PT PS k sys) by exact (f_equal (fun o => obind o (enterTree (N := F_arith) PT PS k)) Es).
    rewrite EN. unfold enterTree.
    destruct (omap_nth (fun ip => do ei <- mread (k_epi k) (fst ip); do ej <- mread (k_epj k) (fst ip);
      Done (Item (@Site F_arith (jPos PS (jCopy PT PS ej (snd ip))) (j_radius (jCopy PT PS ej (snd ip)))) (iCopy PT PS ei (snd ip), jCopy PT PS ej (snd ip)))) (combine (seq 0 (length sys)) sys)) as (own' & Eo & Lo & Ho).
    { intros (i, p) Hi. cbn [fst snd]. apply in_combine_l in Hi. apply in_seq in Hi. destruct (mread_ok (k_epi k) i ltac:(lia)) as (ei & _ & R1). destruct (mread_ok (k_epj k) i ltac:(lia)) as (ej & _ & R2).
      rewrite R1. cbn [obind]. rewrite R2. cbn [obind]. eauto. }
    exists own'. split; [exact Eo|]. rewrite combine_length, seq_length, Nat.min_id in Lo.
    assert (HN : forall i p, nth_error sys i = Some p -> nth_error (combine (seq 0 (length sys)) sys) i = Some (i, p)).
    { intros i p Hp. apply (nth_indexed sys i 0 p Hp). }
    unfold members. cbn [fst snd]. apply of_nth; [rewrite app_length, !map_length; lia|]. intros i m x He Hx.
    destruct (Nat.lt_ge_cases i (length trg)) as [C|C].
    - destruct (mread_ok trg i C) as (t & Et & _). rewrite nth_error_app1 in He by (rewrite map_length; lia). rewrite nth_error_map, Et in He. injection He as <-.
      destruct (U1 i t Et) as (y & p & Ey & Ep & Fp & Pp). rewrite (A1 t (nth_error_In _ _ Et)) in Ey. injection Ey as <-. destruct (Ho _ _ (HN i p Ep)) as (b & Eb & Fb). assert (b = x) as -> by congruence. cbn [fst snd] in Fb.
      destruct (mread (k_epi k) i); cbn [obind] in Fb; try discriminate. destruct (mread (k_epj k) i); cbn [obind] in Fb; try discriminate. injection Fb as <-.
      apply standing_target; [exact Fp|]. rewrite Pp. apply (proj1 (proj2 LT)).
    - rewrite nth_error_app2 in He by (rewrite map_length; lia). rewrite map_length, nth_error_map in He. destruct (nth_error src (i - length trg)) as [t|] eqn:Et; [|discriminate]. injection He as <-.
      destruct (U2 _ t Et) as (y & p & Ey & Ep & Fp & Pp). rewrite (A2 t (nth_error_In _ _ Et)) in Ey. injection Ey as <-. replace (length trg + (i - length trg))%nat with i in Ep by lia.
      destruct (Ho _ _ (HN i p Ep)) as (b & Eb & Fb). assert (b = x) as -> by congruence. cbn [fst snd] in Fb.
      destruct (mread (k_epi k) i); cbn [obind] in Fb; try discriminate. destruct (mread (k_epj k) i); cbn [obind] in Fb; try discriminate. injection Fb as <-.
      apply standing_source; [exact Fp|]. rewrite Pp. apply (proj1 (proj2 LS)).
  Qed.
End MixOpen.

(** ** Only positions and radii matter for the tree *)

Section Sites.
  Context {P P' : Type} (E : list (list (item F_arith P))) (E' : list (list (item F_arith P'))).
  Hypothesis same : map (map i_site) E = map (map i_site) E'.
  Lemma open_own r own' : nth_error E' r = Some own' -> exists own, nth_error E r = Some own /\ map i_site own = map i_site own'.
  Proof.
    intros H. assert (G : nth_error (map (map i_site) E) r = Some (map i_site own')) by (rewrite same, nth_error_map, H; reflexivity).
    rewrite nth_error_map in G. destruct (nth_error E r); [|discriminate]. injection G as G. eauto.
  Qed.
  Lemma open_in own own' e' : map i_site own = map i_site own' -> In e' own' -> exists e : item F_arith P, In e own /\ i_site e = i_site (e' : item F_arith P').
  Proof. intros H He. apply (in_map i_site) in He. rewrite <- H in He. apply in_map_iff in He as (e & G & He). eauto. Qed.
  Lemma open_all : map i_site (concat E) = map i_site (concat E').
  Proof. rewrite !concat_map. f_equal. exact same. Qed.
  Lemma open_arena root doms : arena_open root doms E -> arena_open root doms E'.
  Proof.
    intros A. pose proof open_all as HA. assert (HA' := eq_sym HA). split.
    - exact (w_box _ _ _ A).
    - exact (w_doms _ _ _ A).
    - rewrite <- (w_E _ _ _ A). apply (f_equal (@length _)) in same as L. rewrite !map_length in L. congruence.
    - intros r own' d e' Ho Hd He. apply open_own in Ho as (own & Ho & H). destruct (open_in _ _ _ H He) as (e & Hi & <-). exact (w_homes _ _ _ A r own d e Ho Hd Hi).
    - apply (f_equal (@length _)) in HA as L. rewrite !map_length in L. rewrite <- L. exact (w_few _ _ _ A).
    - intros e' c He Hc. destruct (open_in _ _ _ HA He) as (e & Hi & <-). exact (w_pos _ _ _ A e c Hi Hc).
    - intros e' He. destruct (open_in _ _ _ HA He) as (e & Hi & <-). exact (w_rad _ _ _ A e Hi).
    - intros Hne. destruct (w_wide _ _ _ A) as (big & B1 & B2 & B3); [intros X; apply Hne; rewrite X in HA; symmetry in HA; exact (map_eq_nil _ _ HA)|].
      assert (Hb : exists big', In big' (concat E') /\ i_site big' = i_site big). { apply (in_map i_site) in B1. rewrite HA in B1. apply in_map_iff in B1 as (b & G & Hb). eauto. }
      destruct Hb as (big' & Hb & Eb). exists big'. split; [exact Hb|]. rewrite Eb. split; [exact B2|]. intros e' c He Hc. destruct (open_in _ _ _ HA He) as (e & Hi & <-). exact (B3 e c Hi Hc).
  Qed.
End Sites.

Section Forces.
  Context {EPT EPS FPT FPS Force : Type} (PT : particle (vec F_arith) F_arith EPT) (PS : particle (vec F_arith) F_arith EPS) (copyT : FPT -> EPT) (copyS : FPS -> EPS).
  Notation epI := (mixEPI (vec F_arith) F_arith EPT).
  Notation epJ := (mixEPJ (vec F_arith) F_arith EPS).
  Notation itemE := (item F_arith (epI * epJ)).
  Hypotheses (LT : lawful PT) (LS : lawful PS).
  Variables (near : EPT -> F_arith -> EPS -> F_arith -> bool) (zero : Force) (add : EPT -> EPS -> Force -> Force).
  Variables (data : list (list FPT * list FPS)) (E' : list (list itemE)).
  Hypothesis HD : Forall2 (fun d l => Forall2 (standing PT PS) (members copyT copyS d) l) data E'.

  Lemma member_source d n y : nth_error (members copyT copyS d) n = Some (inr y) -> exists i p, n = (length (fst d) + i)%nat /\ nth_error (snd d) i = Some p /\ y = copyS p.
  Proof.
    unfold members. intros H. destruct (Nat.lt_ge_cases n (length (fst d))) as [C|C].
    - rewrite nth_error_app1 in H by (rewrite map_length; lia). rewrite nth_error_map in H. destruct (nth_error (fst d) n); discriminate.
    - rewrite nth_error_app2 in H by (rewrite map_length; lia). rewrite map_length, nth_error_map in H. destruct (nth_error (snd d) (n - length (fst d))) as [p|] eqn:Ep; [|discriminate]. injection H as <-. exists (n - length (fst d))%nat, p. split; [lia|auto].
  Qed.
  Lemma member_at d i p : nth_error (snd d) i = Some p -> nth_error (members copyT copyS d) (length (fst d) + i) = Some (inr (copyS p)).
  Proof. intros H. unfold members. rewrite nth_error_app2 by (rewrite map_length; lia). rewrite map_length, nth_error_map. replace (length (fst d) + i - length (fst d))%nat with i by lia. rewrite H. reflexivity. Qed.

  (** the tag of source i of rank s in the tree *)
  Definition back (tag : nat * nat) : nat * Z * vec Z := ((fst tag, Z.of_nat (length (fst (nth (fst tag) data ([], []))) + snd tag)), origin).
  (** what the kernel does with one entry of a list *)
  Definition entry_open (t : EPT) (rt : F_arith) (x : epJ) (f : Force) : Force := if j_src x then if near t rt (j_ep x) (j_radius x) then add t (j_ep x) f else f else f.
  Lemma pick_open t rt tags epj : Forall2 (names open (fun _ f => f) E') tags epj -> NoDup tags ->
    exists tags' ys, NoDup tags' /\ Forall2 (fun tag y => source_at copyS data tag y /\ near t rt y (getRSearch PS y) = true) tags' ys /\
      (forall tag, In tag tags' -> In (back tag) tags) /\
      (forall tag y, In (back tag) tags -> source_at copyS data tag y -> near t rt y (getRSearch PS y) = true -> In tag tags') /\
      forall f, fold_left (fun f x => entry_open t rt x f) (map (sourceOf (N := F_arith) PS) epj) f = fold_left (fun f y => add t y f) ys f.
  Proof using HD LS.
    induction 1 as [|tag x tags epj Hx HF IH]; intros ND; [exists [], []; repeat split; try constructor; try (intros ? []); intros ? ? []|].
    inversion ND as [|? ? Hni ND']; subst. destruct (IH ND') as (tags' & ys & N1 & F1 & S1 & C1 & V1). clear IH.
    destruct tag as ((s, j), k). destruct Hx as (Hk & l' & f' & Hl' & (Hj & Hf') & Hx). cbn in Hx. subst x. apply open_origin in Hk. subst k.
    destruct (Forall2_nth _ _ _ HD s l' Hl') as (d & Hd & Hll). destruct (Forall2_nth _ _ _ Hll _ f' Hf') as (m & Hm & Hst).
    assert (Dn : nth s data ([], []) = d) by exact (nth_error_nth data s ([], []) Hd).
    assert (U : forall tag y, back tag = (s, j, origin) -> source_at copyS data tag y -> m = inr y).
    { intros (s', i) y EB (d' & p & D1 & D2 & ->). unfold back in EB. cbn [fst snd] in *. injection EB as -> EB. rewrite Dn in EB. assert (d' = d) as -> by congruence. pose proof (member_at d i p D2) as M. rewrite <- EB in Hm. rewrite Nat2Z.id in Hm. congruence. }
    destruct Hst as (Es & Hst). destruct m as [t0|y0].
    - destruct Hst as (_ & _ & _ & Hsrc). exists tags', ys. split; [exact N1|]. split; [exact F1|]. split; [intros tag H; right; apply S1; exact H|]. split.
      + intros tag y [HB|Hin] Hs Hn; [|exact (C1 tag y Hin Hs Hn)]. pose proof (U tag y (eq_sym HB) Hs). discriminate.
      + intros f0. cbn [map fold_left]. rewrite <- V1. f_equal. destruct f' as [sf (ii, [b rr pp ee])]. cbn in Hsrc. subst b. reflexivity.
    - destruct Hst as (Hsrc & Hrad & Hep). destruct (member_source d _ y0 Hm) as (i & p & Ei & Ep & Ey).
      assert (EB : back (s, i) = (s, j, origin)) by (unfold back; cbn [fst snd]; rewrite Dn; do 2 f_equal; lia).
      assert (SI : source_at copyS data (s, i) y0) by (exists d, p; auto).
      assert (V : forall f0, entry_open t rt (sourceOf (N := F_arith) PS f') f0 = if near t rt y0 (getRSearch PS y0) then add t y0 f0 else f0).
      { intros f0. destruct f' as [sf (ii, [b rr pp ee])]. cbn in Hsrc, Hrad, Hep, Es. subst b rr ee sf. unfold sourceOf, entry_open, jSetPos. cbn. rewrite (proj1 (proj2 LS)). reflexivity. }
      destruct (near t rt y0 (getRSearch PS y0)) eqn:En.
      + exists ((s, i) :: tags'), (y0 :: ys). split; [constructor; [intros H; apply S1 in H; rewrite EB in H; exact (Hni H)|exact N1]|]. split; [constructor; [split; [exact SI|exact En]|exact F1]|]. split; [intros tag [<-|H]; [left; symmetry; exact EB|right; apply S1, H]|]. split.
        * intros tag y' [HB|Hin] Hs Hn; [|right; exact (C1 tag y' Hin Hs Hn)]. left. rewrite <- EB in HB. unfold back in HB. destruct tag as (s2, i2). cbn [fst snd] in HB. injection HB as -> HB. f_equal. lia.
        * intros f0. cbn [map fold_left]. rewrite V. apply V1.
      + exists tags', ys. split; [exact N1|]. split; [exact F1|]. split; [intros tag H; right; apply S1; exact H|]. split.
        * intros tag y' [HB|Hin] Hs Hn; [|exact (C1 tag y' Hin Hs Hn)]. pose proof (U tag y' (eq_sym HB) Hs) as X. injection X as <-. congruence.
        * intros f0. cbn [map fold_left]. rewrite V. apply V1.
  Qed.

  Lemma forces_rank threads d own' res (k : stage F_arith EPT EPS Force) : Forall2 (standing PT PS) (members copyT copyS d) own' ->
    served real loose open (fun _ f => f) E' (mixFunctor (N := F_arith) PS (nearKernel near zero add)) (fun _ => zero) threads own' res ->
    any_stage_open (length (fst d)) (length (snd d)) k ->
    exists forces, takeForces (N := F_arith) k (snd res) = Done forces /\ forces_open PT PS copyT copyS near zero add data (fst d) forces.
  Proof using HD LT LS.
    intros HO (SL & _ & its & HC & HP) (_ & _ & _ & _ & _ & K3 & KL).
    assert (LO : length own' = (length (fst d) + length (snd d))%nat) by (apply Forall2_length in HO; unfold members in HO; rewrite app_length, !map_length in HO; congruence).
    destruct (scatter_ok (fun i => i) (fun i a => nth i (snd res) a) (fun out i => do f <- mread (snd res) i; mwrite out i f) (k_o3 k) (k_old k)) as (forces & EF & LF & WF & _).
    { rewrite map_id. exact (perm_nodup _ _ K3). }
    { intros i m' Hi _ a _. apply (perm_lt _ _ _ K3) in Hi. unfold mread. rewrite (nth_error_nth' (snd res) a) by (rewrite SL; lia). reflexivity. }
    { intros i Hi. apply (perm_lt _ _ _ K3) in Hi. lia. }
    exists forces. split; [exact EF|]. split; [lia|]. intros i t0 Et0 t.
    assert (Hi : (i < length (fst d))%nat) by (apply nth_error_Some; congruence).
    assert (Em : nth_error (members copyT copyS d) i = Some (inl t)) by (unfold members; rewrite nth_error_app1 by (rewrite map_length; exact Hi); rewrite nth_error_map, Et0; reflexivity).
    destruct (Forall2_nth' _ _ _ HO i _ Em) as (e' & He' & Hs & St & Sr & Se & _).
    assert (Hin : In (Z.of_nat i) (concat (map fst its))) by (rewrite HP; apply in_map, in_seq; lia).
    apply in_concat in Hin as (is & His & Hii). apply in_map_iff in His as ((is', tags) & E0 & Hit). cbn in E0. subst is'.
    apply In_nth_error in Hit as (c & Hc). destruct (Forall2_nth' _ _ _ HC c _ Hc) as (call & _ & Hcall). destruct call as (th & (epi & epj)).
    destruct Hcall as (Hepi & ND & Hnames & Hsee & before & after & Lb & Ef & Hforce).
    destruct (In_nth_error _ _ Hii) as (a & Ha). specialize (Hforce a _ Ha). rewrite Nat2Z.id in Hforce.
    destruct (Forall2_nth' _ _ _ Hepi a _ Ha) as (e1 & He1 & (_ & Hat)). rewrite Nat2Z.id in Hat. assert (e1 = e') as -> by congruence.
    destruct (pick_open t (getRSearch PT t) tags epj Hnames ND) as (tags' & ys & N1 & F1 & S1 & C1 & V1).
    exists tags', ys. split; [exact N1|]. split; [exact F1|]. split.
    - intros (s, j) y Hsi Hn Hv. apply (C1 (s, j) y); [|exact Hsi|exact Hn]. destruct Hsi as (d2 & p & Hd2 & Hp & ->). cbn [fst snd] in *.
      destruct (Forall2_nth' _ _ _ HD s d2 Hd2) as (l' & Hl' & Hll). destruct (Forall2_nth' _ _ _ Hll _ _ (member_at d2 j p Hp)) as (f' & Hf' & Esf & _).
      unfold back. cbn [fst snd]. rewrite (nth_error_nth data s ([], []) Hd2).
      apply (Hsee (Z.of_nat i) e' s l' _ f' origin Hii); [split; [lia|rewrite Nat2Z.id; exact He']|exact Hl'|split; [lia|rewrite Nat2Z.id; exact Hf']|repeat split|].
      unfold sees, apart. rewrite Hs, Esf. exact Hv.
    - rewrite WF by (apply (perm_lt _ _ _ K3); exact Hi). destruct (mread_ok (k_old k) i ltac:(lia)) as (old & Eo & _). rewrite Eo. cbn [option_map].
      rewrite <- (nth_error_nth' (snd res) old (n := i)) by (rewrite SL; lia). rewrite Hforce, <- Ef. unfold mixFunctor. rewrite nth_error_map.
      assert (La : (a < length before)%nat) by (rewrite Lb; apply nth_error_Some; congruence). destruct (mread_ok before a La) as (b0 & Eb & _).
      assert (EC : forall (l1 : list itemE) (l2 : list Force) n x y, nth_error l1 n = Some x -> nth_error l2 n = Some y -> nth_error (combine l1 l2) n = Some (x, y)).
      { induction l1 as [|x1 l1 IH]; intros [|x2 l2] [|n] x y H1 H2; try discriminate; cbn in *; [congruence|apply IH; assumption]. }
      refine (eq_trans (f_equal (option_map _) (EC epi (map (fun _ => zero) before) a e' zero He1 ltac:(rewrite nth_error_map, Eb; reflexivity))) _). cbn [option_map fst snd]. f_equal.
      rewrite <- V1. clear - St Sr Se. destruct e' as [se ([b rr pp ee], jj)]. cbn in St, Sr, Se. subst b rr ee. reflexivity.
  Qed.
End Forces.

Theorem mix_open {EPT EPS FPT FPS Force : Type} (PT : particle (vec F_arith) F_arith EPT) (PS : particle (vec F_arith) F_arith EPS) (copyT : FPT -> EPT) (copyS : FPS -> EPS) near (zero : Force) add (k : nat -> stage F_arith EPT EPS Force) q root doms limit grpLimit data :
  lawful PT -> lawful PS -> ready_open PT PS copyT copyS root doms limit grpLimit k q data ->
  forall fuel, exists res,
    mixForces (N := F_arith) PT PS copyT copyS (nearKernel near zero add) (fun _ => zero) k q f_cast fuel open root doms limit grpLimit data = Done res /\ length res = length data /\
    forall r d forces, nth_error data r = Some d -> nth_error res r = Some forces -> forces_open PT PS copyT copyS near zero add data (fst d) forces.
Proof.
  intros LT LS [HA HL Hk (threads & Hq)] fuel. set (E := map (fun d => map (member_item PT PS) (members copyT copyS d)) data) in *.
  assert (HM : forall d m, In d data -> In m (members copyT copyS d) -> adjustPosition (N := F_arith) fuel root (place PT PS m) = Done (place PT PS m)).
  { intros d m Hd Hm. assert (Ho : In (map (member_item PT PS) (members copyT copyS d)) E) by exact (in_map (fun d => map (member_item PT PS) (members copyT copyS d)) data d Hd).
    assert (He : In (member_item PT PS m) (map (member_item PT PS) (members copyT copyS d))) by (apply in_map; exact Hm). assert (Hc : In (member_item PT PS m) (concat E)) by (apply in_concat; eauto).
    assert (Ep : s_pos (i_site (member_item PT PS m)) = place PT PS m) by (destruct m; reflexivity). rewrite <- Ep. apply position_stays; [exact (w_box _ _ _ HA)|intros c Hcc; exact (proj1 (w_pos _ _ _ HA _ c Hc Hcc))|].
    apply In_nth_error in Ho as (r & Hr). assert (Hrd : (r < length doms)%nat) by (rewrite <- (w_E _ _ _ HA); apply nth_error_Some; congruence). destruct (mread_ok doms r Hrd) as (dm & Hdm & _). exact (proj2 (w_homes _ _ _ HA r _ dm _ Hr Hdm He)). }
  set (enter := fun r => do d <- mread data r; enterRank (N := F_arith) (Force := Force) PT PS copyT copyS fuel root (k r) (fst d) (snd d)).
  assert (HE : exists E', omap enter (seq 0 (length data)) = Done E' /\ Forall2 (fun d l => Forall2 (standing PT PS) (members copyT copyS d) l) data E').
  { assert (EN : forall r d, nth_error data r = Some d -> exists own', enter r = Done own' /\ Forall2 (standing PT PS) (members copyT copyS d) own').
    { intros r d Hd. destruct (enter_open PT PS copyT copyS LT LS root fuel (k r) d (Hk r d Hd)) as (own' & Eo & HS); [intros m Hm; exact (HM d m (nth_error_In _ _ Hd) Hm)|]. exists own'. split; [|exact HS]. unfold enter, mread. rewrite Hd. exact Eo. }
    destruct (omap_nth enter (seq 0 (length data))) as (E' & E1 & E2 & E3).
    - intros r Hr. apply in_seq in Hr. destruct (mread_ok data r ltac:(lia)) as (d & Hd & _). destruct (EN r d Hd) as (own' & X & _). eauto.
    - exists E'. split; [exact E1|]. rewrite seq_length in E2. apply of_nth; [exact (eq_sym E2)|]. intros r d own' Hd Ho'. assert (Hr : (r < length data)%nat) by (apply nth_error_Some; congruence).
      destruct (E3 r r) as (own2 & H2 & H3); [rewrite (nth_error_nth' _ 0%nat) by (rewrite seq_length; lia); rewrite seq_nth by lia; reflexivity|]. pose proof (eq_trans (eq_sym H2) Ho') as X; injection X as ->.
      destruct (EN r d Hd) as (own3 & X & HS). rewrite X in H3. injection H3 as ->. exact HS. }
  destruct HE as (E' & EE & HE).
  assert (HS : map (map i_site) E = map (map i_site) E').
  { unfold E. clear - HE. induction HE as [|d l data E' H HL IH]; [reflexivity|]. cbn [map]. f_equal; [|exact IH]. rewrite map_map. clear - H. induction H as [|m x ms l (H & _) HL IH]; [reflexivity|]. cbn [map]. congruence. }
  assert (Hq' : forall r, any_cast (length doms) threads limit (length (nth r E' [])) (q r)).
  { intros r. specialize (Hq r). replace (length (nth r E' [])) with (length (members copyT copyS (nth r data ([], [])))); [exact Hq|]. clear - HE. revert r. induction HE as [|d l data E' H HL IH]; intros [|r]; [reflexivity|reflexivity|exact (Forall2_length _ _ _ H)|exact (IH r)]. }
  destruct (call_open q threads root doms limit grpLimit E' (mixFunctor (N := F_arith) PS (nearKernel near zero add)) (fun _ => zero) (open_arena E E' HS root doms HA) Hq' HL) with (fuel := fuel) as (res & R1 & R2 & R3).
  { intros epi epj fs H. unfold mixFunctor. rewrite map_length, combine_length, H, Nat.min_id. reflexivity. }
  assert (LE : length E' = length data) by (symmetry; exact (Forall2_length _ _ _ HE)).
  assert (LR : length res = length data) by exact (eq_trans R2 LE).
  assert (HRk : forall r d, nth_error data r = Some d -> exists x forces, nth_error res r = Some x /\ takeForces (N := F_arith) (k r) (snd x) = Done forces /\ forces_open PT PS copyT copyS near zero add data (fst d) forces).
  { intros r d Hd. destruct (Forall2_nth' _ _ _ HE r d Hd) as (own' & Ho' & HO).
    assert (Hr : (r < length data)%nat) by (apply nth_error_Some; congruence). destruct (mread_ok res r ltac:(lia)) as (x & Hx & _).
    destruct (forces_rank PT PS copyT copyS LT LS near zero add data E' HE threads d own' x (k r) HO (R3 r own' x Ho' Hx) (Hk r d Hd)) as (forces & T1 & T2). exists x, forces. auto. }
  destruct (omap_nth (fun r => do x <- mread res r; takeForces (N := F_arith) (EPT := EPT) (EPS := EPS) (k r) (snd x)) (seq 0 (length data))) as (out & O1 & O2 & O3).
  { intros r Hr. apply in_seq in Hr. destruct (mread_ok data r ltac:(lia)) as (d & Hd & _). destruct (HRk r d Hd) as (x & forces & Hx & Hf2 & _). exists forces. unfold mread. rewrite Hx. exact Hf2. }
  exists out. split; [|split; [rewrite O2; apply seq_length|]].
  - unfold mixForces. unfold enter in EE. rewrite EE. cbn [obind]. refine (eq_trans (f_equal (fun o => obind o _) R1) _). exact O1.
  - intros r d forces Hd Hfo. destruct (HRk r d Hd) as (x & forces1 & Hx & Hf1 & Hf2).
    assert (Hr : (r < length data)%nat) by (apply nth_error_Some; congruence).
    destruct (O3 r r) as (f3 & H3 & H4); [rewrite (nth_error_nth' _ 0%nat) by (rewrite seq_length; lia); rewrite seq_nth by lia; reflexivity|]. assert (f3 = forces) as -> by congruence.
    unfold mread in H4. rewrite Hx in H4. cbn [obind] in H4. assert (forces1 = forces) as -> by congruence. exact Hf2.
Qed.

(** ** The ranks do not matter *)

Section Ranks.
  Context {EPT EPS FPT FPS Force : Type} (PT : particle (vec F_arith) F_arith EPT) (PS : particle (vec F_arith) F_arith EPS) (copyT : FPT -> EPT) (copyS : FPS -> EPS).
  Variables (near : EPT -> F_arith -> EPS -> F_arith -> bool) (t : EPT).
  Definition nearb (y : EPS) : bool := near t (getRSearch PT t) y (getRSearch PS y).
  Definition value_at (data : list (list FPT * list FPS)) (tag : nat * nat) : list EPS :=
    match nth_error data (fst tag) with Some d => match nth_error (snd d) (snd tag) with Some p => [copyS p] | None => [] end | None => [] end.
  Lemma value_source data tag y : source_at copyS data tag y <-> value_at data tag = [y].
  Proof.
    unfold source_at, value_at. split.
    - intros (d & p & -> & H & ->). rewrite H. reflexivity.
    - destruct (nth_error data (fst tag)) as [d|]; [|discriminate]. destruct (nth_error (snd d) (snd tag)) as [p|] eqn:E; [|discriminate]. intros H. injection H as <-. exists d, p. auto.
  Qed.
  Definition all_places (data : list (list FPT * list FPS)) : list (nat * nat) :=
    flat_map (fun sd => map (fun j => (fst sd, j)) (seq 0 (length (snd (snd sd))))) (combine (seq 0 (length data)) data).
  Lemma in_all data s j : In (s, j) (all_places data) <-> exists d, nth_error data s = Some d /\ (j < length (snd d))%nat.
  Proof.
    unfold all_places. rewrite in_flat_map. split.
    - intros ((s', d) & Hs & Hj). cbn [fst snd] in Hj. apply in_map_iff in Hj as (j' & H & Hj). injection H as -> ->. apply in_seq in Hj. apply in_indexed in Hs as (_ & Hs). rewrite Nat.sub_0_r in Hs. exists d. split; [exact Hs|lia].
    - intros (d & Hd & Hj). exists (s, d). split; [apply in_indexed; rewrite Nat.sub_0_r; split; [lia|exact Hd]|]. cbn [fst snd]. apply in_map_iff. exists j. split; [reflexivity|apply in_seq; lia].
  Qed.
  Lemma all_nodup data : NoDup (all_places data).
  Proof.
    unfold all_places. generalize 0%nat at 2 as n. induction data as [|d data IH]; intros n; [constructor|]. cbn [length seq combine flat_map fst snd]. apply NoDup_app_intro.
    - apply FinFun.Injective_map_NoDup; [intros a b H; injection H; auto|apply seq_NoDup].
    - apply IH.
    - intros (s, j) H1 H2. apply in_map_iff in H1 as (j' & H1 & _). injection H1 as <- _. apply in_flat_map in H2 as ((s', d') & Hs & Hj). cbn [fst snd] in Hj. apply in_map_iff in Hj as (j2 & H & _). injection H as -> _. apply in_indexed in Hs as (Hs & _). lia.
  Qed.
  Lemma flat_map_ext_in {A B} (f g : A -> list B) l : (forall a, In a l -> f a = g a) -> flat_map f l = flat_map g l.
  Proof. induction l as [|a l IH]; intros H; [reflexivity|]. cbn. rewrite (H a) by now left. rewrite IH; [reflexivity|]. intros b Hb. apply H. now right. Qed.
  Lemma flat_seq_nth {A B} (f : A -> B) (l : list A) : flat_map (fun j => match nth_error l j with Some p => [f p] | None => [] end) (seq 0 (length l)) = map f l.
  Proof.
    induction l as [|a l IH] using rev_ind; [reflexivity|]. rewrite app_length. cbn [length]. rewrite Nat.add_1_r, seq_S, flat_map_app, map_app. cbn [flat_map Nat.add]. f_equal.
    - rewrite <- IH. apply flat_map_ext_in. intros j Hj. apply in_seq in Hj. rewrite nth_error_app1 by lia. reflexivity.
    - rewrite nth_error_app2, Nat.sub_diag by lia. reflexivity.
  Qed.
  Lemma flat_map_map' {A B C} (f : B -> list C) (g : A -> B) l : flat_map f (map g l) = flat_map (fun a => f (g a)) l.
  Proof. induction l; cbn; congruence. Qed.
  Lemma flat_map_flat {A B C} (f : B -> list C) (g : A -> list B) l : flat_map f (flat_map g l) = flat_map (fun a => flat_map f (g a)) l.
  Proof. induction l; cbn; [reflexivity|]. rewrite flat_map_app. congruence. Qed.
  Lemma all_values (data : list (list FPT * list FPS)) : flat_map (value_at data) (all_places data) = sources copyS data.
  Proof.
    unfold all_places, sources. rewrite flat_map_flat. rewrite (flat_map_ext_in _ (fun sd => map copyS (snd (snd sd)))).
    - rewrite <- (flat_map_map' (fun d => map copyS (snd d)) snd), indexed_snd. reflexivity.
    - intros (s, d) Hs. apply in_indexed in Hs as (_ & Hs). rewrite Nat.sub_0_r in Hs. cbn [fst snd]. rewrite flat_map_map'. unfold value_at. cbn [fst snd]. rewrite Hs. apply flat_seq_nth.
  Qed.
  Lemma filter_flat {A B} (h : B -> bool) (g : A -> list B) l : filter h (flat_map g l) = flat_map (fun a => filter h (g a)) l.
  Proof. induction l; cbn; [reflexivity|]. rewrite filter_app. congruence. Qed.

  Lemma canonical_open (data : list (list FPT * list FPS)) tags ys : NoDup tags -> Forall2 (fun tag y => source_at copyS data tag y /\ nearb y = true) tags ys ->
    (forall tag y, source_at copyS data tag y -> nearb y = true -> In tag tags) -> Permutation ys (filter nearb (sources copyS data)).
  Proof.
    intros ND HF HC. set (good := fun tag => filter nearb (value_at data tag)).
    assert (E1 : ys = flat_map good tags).
    { clear ND HC. induction HF as [|tag y tags ys (H1 & H2) HF IH]; [reflexivity|]. cbn. unfold good at 1. apply value_source in H1. rewrite H1. cbn. rewrite H2. cbn. congruence. }
    set (h := fun tag => match good tag with [] => false | _ => true end).
    assert (E2 : filter nearb (sources copyS data) = flat_map good (filter h (all_places data))).
    { rewrite <- all_values, filter_flat. symmetry. apply flat_filter. intros a _ Ha. unfold h in Ha. fold (good a). destruct (good a); [reflexivity|discriminate]. }
    rewrite E1, E2. apply Permutation_flat_map. apply NoDup_Permutation; [exact ND|apply NoDup_filter, all_nodup|]. intros (s, j). rewrite filter_In, in_all. split.
    - intros Hi. apply In_nth_error in Hi as (i & Hi). destruct (Forall2_nth' _ _ _ HF i _ Hi) as (y & _ & H1 & H2). destruct H1 as (d & p & D1 & D2 & ->). cbn [fst snd] in *. split.
      + exists d. split; [exact D1|]. apply nth_error_Some. congruence.
      + unfold h, good, value_at. cbn [fst snd]. rewrite D1, D2. cbn. rewrite H2. reflexivity.
    - intros ((d & Hd & Hj) & Hh). destruct (mread_ok (snd d) j Hj) as (p & Hp & _). unfold h, good, value_at in Hh. cbn [fst snd] in Hh. rewrite Hd, Hp in Hh. cbn in Hh. destruct (nearb (copyS p)) eqn:En; [|discriminate].
      apply (HC (s, j) (copyS p)); [exists d, p; auto|exact En].
  Qed.
End Ranks.

Lemma filter_perm {A} (h : A -> bool) l l' : Permutation l l' -> Permutation (filter h l) (filter h l').
Proof. induction 1; cbn; [constructor|destruct (h x); auto|destruct (h x), (h y); auto; apply perm_swap|eapply perm_trans; eauto]. Qed.

Lemma same_open {EPT EPS FPT FPS Force : Type} (PT : particle (vec F_arith) F_arith EPT) (PS : particle (vec F_arith) F_arith EPS) (copyT : FPT -> EPT) (copyS : FPS -> EPS) near (zero : Force) add (data data' : list (list FPT * list FPS)) trg trg' forces forces' i i' (p : FPT) :
  (forall t x y (f : Force), add t x (add t y f) = add t y (add t x f)) -> Permutation (sources copyS data) (sources copyS data') ->
  forces_open PT PS copyT copyS near zero add data trg forces -> forces_open PT PS copyT copyS near zero add data' trg' forces' ->
  nth_error trg i = Some p -> nth_error trg' i' = Some p ->
  (forall y, In y (sources copyS data) -> near (copyT p) (getRSearch PT (copyT p)) y (getRSearch PS y) = true -> in_sight PT PS (copyT p) y) ->
  nth_error forces i = nth_error forces' i'.
Proof.
  intros HC HP (_ & H) (_ & H') Hi Hi' HS. destruct (H i p Hi) as (tags & ys & A1 & A2 & A3 & A4). destruct (H' i' p Hi') as (tags' & ys' & B1 & B2 & B3 & B4). rewrite A4, B4. f_equal.
  assert (SI : forall (dt : list (list FPT * list FPS)) tag y, source_at copyS dt tag y -> In y (sources copyS dt)). { intros dt tag y (d & q & D1 & D2 & ->). apply in_flat_map. exists d. split; [exact (nth_error_In _ _ D1)|apply in_map; exact (nth_error_In _ _ D2)]. }
  assert (PY : Permutation ys ys').
  { eapply perm_trans; [apply (canonical_open PT PS copyS near (copyT p) data tags ys A1 A2)|eapply perm_trans; [apply filter_perm; exact HP|apply Permutation_sym; apply (canonical_open PT PS copyS near (copyT p) data' tags' ys' B1 B2)]].
    - intros tag y Hs Hn. exact (A3 tag y Hs Hn (HS y (SI _ _ _ Hs) Hn)).
    - intros tag y Hs Hn. apply (B3 tag y Hs Hn). apply HS; [|exact Hn]. apply (Permutation_in _ (Permutation_sym HP)). exact (SI _ _ _ Hs). }
  apply fold_perm; [exact HC|exact PY].
Qed.

Theorem mix_open_same {EPT EPS FPT FPS Force : Type} (PT : particle (vec F_arith) F_arith EPT) (PS : particle (vec F_arith) F_arith EPS) (copyT : FPT -> EPT) (copyS : FPS -> EPS) near (zero : Force) add
  (k k' : nat -> stage F_arith EPT EPS Force) q q' root root' doms doms' limit limit' grpLimit grpLimit' (data data' : list (list FPT * list FPS)) :
  lawful PT -> lawful PS -> (forall t x y (f : Force), add t x (add t y f) = add t y (add t x f)) ->
  ready_open PT PS copyT copyS root doms limit grpLimit k q data -> ready_open PT PS copyT copyS root' doms' limit' grpLimit' k' q' data' -> Permutation (sources copyS data) (sources copyS data') ->
  forall fuel, exists res res',
    mixForces (N := F_arith) PT PS copyT copyS (nearKernel near zero add) (fun _ => zero) k q f_cast fuel open root doms limit grpLimit data = Done res /\
    mixForces (N := F_arith) PT PS copyT copyS (nearKernel near zero add) (fun _ => zero) k' q' f_cast fuel open root' doms' limit' grpLimit' data' = Done res' /\
    forall r r' d d' forces forces' i i' p, nth_error data r = Some d -> nth_error data' r' = Some d' -> nth_error res r = Some forces -> nth_error res' r' = Some forces' ->
      nth_error (fst d) i = Some p -> nth_error (fst d') i' = Some p ->
      (forall y, In y (sources copyS data) -> near (copyT p) (getRSearch PT (copyT p)) y (getRSearch PS y) = true -> in_sight PT PS (copyT p) y) ->
      nth_error forces i = nth_error forces' i'.
Proof.
  intros LT LS HC H H' HP fuel. destruct (mix_open PT PS copyT copyS near zero add k q root doms limit grpLimit data LT LS H fuel) as (res & R1 & _ & R2). destruct (mix_open PT PS copyT copyS near zero add k' q' root' doms' limit' grpLimit' data' LT LS H' fuel) as (res' & R1' & _ & R2').
  exists res, res'. split; [exact R1|]. split; [exact R1'|]. intros r r' d d' forces forces' i i' p Hd Hd' Hf Hf' Hi Hi' HS. exact (same_open PT PS copyT copyS near zero add data data' _ _ forces forces' i i' p HC HP (R2 r d forces Hd Hf) (R2' r' d' forces' Hd' Hf') Hi Hi' HS).
Qed.
