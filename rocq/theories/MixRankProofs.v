(** Proofs about the interaction of two kinds of particles on all ranks. *)
From Coq Require Import List Arith ZArith Bool Reals Permutation Lia Lra.
From Flocq Require Import Core.
From Verif Require Import Outcome ListUtil Arith ParticleModel VecSpec GeoModel GeoSpec GeoProofs TreeModel TreeSpec LetModel LetSpec CallModel CallSpec CallSort CallProofs MixModel MixSpec MixProofs MixRankModel MixRankSpec.
Import ListNotations.
Local Open Scope R_scope.

Lemma brought_unique root p q q' : brought root p q -> brought root p q' -> q = q'.
Proof.
  intros H H'. assert (A : forall c, In c coords -> c q = c q').
  { intros c Hc. destruct (H c Hc) as (B & (k & Ek)). destruct (H' c Hc) as (B' & (k' & Ek')). set (L := edge root c) in *. unfold edge in L.
    assert (HL : 0 < L) by (unfold L; lra).
    assert (k = k'); [|subst; lra].
    assert (-1 < IZR (k - k') < 1). { rewrite minus_IZR. assert (E : (IZR k - IZR k') * L = c q - c q') by lra. assert (- L < (IZR k - IZR k') * L < L) by (rewrite E; unfold L; lra).
      split; apply (Rmult_lt_reg_r L); lra. }
    destruct H0 as [H1 H2]. apply lt_IZR in H2. apply (lt_IZR (-1)) in H1. lia. }
  destruct q as [x y z], q' as [x' y' z']. f_equal; [apply (A vx)|apply (A vy)|apply (A vz)]; cbn; auto.
Qed.

(** ** More fuel *)

Section Fuel.
  Context {N : arith}.
  Lemma sub_more ub L fuel : forall (x y : N) fuel', subWhile fuel ub L x = Done y -> (fuel <= fuel')%nat -> subWhile fuel' ub L x = Done y.
  Proof.
    induction fuel as [|f IH]; intros x y fuel' H Hf; [destruct fuel'; cbn [subWhile] in *; destruct (x >=? ub)%A; try discriminate; exact H|].
    destruct fuel' as [|f']; [lia|]. cbn [subWhile] in *. destruct (x >=? ub)%A; [|exact H]. apply (IH _ _ f' H). lia.
  Qed.
  Lemma add_more lb L fuel : forall (x y : N) fuel', addWhile fuel lb L x = Done y -> (fuel <= fuel')%nat -> addWhile fuel' lb L x = Done y.
  Proof.
    induction fuel as [|f IH]; intros x y fuel' H Hf; [destruct fuel'; cbn [addWhile] in *; destruct (x <? lb)%A; try discriminate; exact H|].
    destruct fuel' as [|f']; [lia|]. cbn [addWhile] in *. destruct (x <? lb)%A; [|exact H]. apply (IH _ _ f' H). lia.
  Qed.
  Lemma coordinate_more fuel fuel' (lo hi x y : N) : adjustCoordinate fuel lo hi x = Done y -> (fuel <= fuel')%nat -> adjustCoordinate fuel' lo hi x = Done y.
  Proof.
    unfold adjustCoordinate. intros H Hf. destruct (addWhile fuel lo _ x) as [x1| |] eqn:E1; cbn [obind] in H; try discriminate.
    rewrite (add_more _ _ _ _ _ _ E1 Hf). cbn [obind]. destruct (subWhile fuel hi _ x1) as [x2| |] eqn:E2; cbn [obind] in H; try discriminate.
    rewrite (sub_more _ _ _ _ _ _ E2 Hf). exact H.
  Qed.
  Lemma position_more fuel fuel' (root : ort N) p q : adjustPosition fuel root p = Done q -> (fuel <= fuel')%nat -> adjustPosition fuel' root p = Done q.
  Proof.
    unfold adjustPosition. intros H Hf.
    destruct (adjustCoordinate fuel (vx (olow root)) _ _) as [x| |] eqn:E1; cbn [obind] in H; try discriminate. rewrite (coordinate_more _ _ _ _ _ _ E1 Hf).
    destruct (adjustCoordinate fuel (vy (olow root)) _ _) as [y| |] eqn:E2; cbn [obind] in H; try discriminate. rewrite (coordinate_more _ _ _ _ _ _ E2 Hf).
    destruct (adjustCoordinate fuel (vz (olow root)) _ _) as [z| |] eqn:E3; cbn [obind] in H; try discriminate. rewrite (coordinate_more _ _ _ _ _ _ E3 Hf). exact H.
  Qed.
  Lemma omap_more {A B} (f g : A -> outcome B) l bs : (forall a b, f a = Done b -> g a = Done b) -> omap f l = Done bs -> omap g l = Done bs.
  Proof.
    intros H. revert bs. induction l as [|a l IH]; intros bs E; [exact E|]. cbn [omap] in *. destruct (f a) eqn:Ea; cbn [obind] in E; try discriminate. rewrite (H _ _ Ea). cbn [obind].
    destruct (omap f l) eqn:El; cbn [obind] in E; try discriminate. rewrite (IH _ eq_refl). exact E.
  Qed.
  Lemma enter_more {EPT EPS FPT FPS Force : Type} (PT : particle (vec N) N EPT) (PS : particle (vec N) N EPS) (copyT : FPT -> EPT) (copyS : FPS -> EPS) n fuel root (k : stage N EPT EPS Force) trg src own :
    enterRank PT PS copyT copyS n root k trg src = Done own -> (n <= fuel)%nat -> enterRank PT PS copyT copyS fuel root k trg src = Done own.
  Proof.
    intros H Hf. unfold enterRank, updateSystem in *.
    repeat match type of H with obind (obind ?x _) _ = _ => destruct x; cbn [obind] in H |- *; try discriminate end.
    match type of H with obind (omap ?f ?l) _ = _ => destruct (omap f l) as [m| |] eqn:Em end; cbn [obind] in H; try discriminate.
    match goal with |- obind (omap ?g ?l) _ = _ => assert (X : omap g l = Done m) end; [|rewrite X; exact H].
    refine (omap_more _ _ _ _ _ Em). intros p y Hy. cbv beta in *. destruct (adjustPosition n root (fpPos PT PS p)) as [x| |] eqn:Ex; cbn [obind] in Hy; try discriminate.
    rewrite (position_more n fuel _ _ _ Ex Hf). exact Hy.
  Qed.
End Fuel.

Lemma adjust_all (root : ort R) (ps : list (vec R)) : (forall p, In p ps -> exists q, brought root p q) ->
  exists n, forall fuel, (n <= fuel)%nat -> forall p q, In p ps -> brought root p q -> adjustPosition (N := R_arith) fuel root p = Done q.
Proof.
  intros H. destruct ps as [|p0 ps0]; [exists 0%nat; intros ? ? ? ? []|]. destruct (H p0 (or_introl eq_refl)) as (q0 & H0).
  destruct (adjustPositions_R root (p0 :: ps0)) as (n & Hn).
  { intros c Hc. destruct (H0 c) as ((A & B) & _); [exact Hc|lra]. }
  exists n. intros fuel Hf p q Hp Hq. destruct (Hn fuel Hf) as (qs & E & F). clear Hn H H0. unfold adjustPositions in E. remember (p0 :: ps0) as ps eqn:X. clear X.
  revert qs E F. induction ps as [|a ps IH]; intros qs E F; [destruct Hp|]. inversion F as [|? b ? bs Hb F']; subst. cbn [omap] in E.
  destruct (adjustPosition fuel root a) as [b'| |] eqn:Ea; cbn [obind] in E; try discriminate. destruct (omap (adjustPosition fuel root) ps) as [bs'| |] eqn:El; cbn [obind] in E; try discriminate.
  injection E as -> ->. destruct Hp as [->|Hp]; [|exact (IH Hp bs eq_refl F')].
  rewrite Ea. f_equal. apply (brought_unique root p); [|exact Hq]. intros c Hc. destruct (Hb c Hc) as (B1 & B2 & _). split; assumption.
Qed.

Lemma Forall2_length {A B} (P : A -> B -> Prop) l m : Forall2 P l m -> length l = length m.
Proof. induction 1; cbn; congruence. Qed.
Lemma of_nth {A B} (P : A -> B -> Prop) (l : list A) : forall m : list B, length l = length m -> (forall i a b, nth_error l i = Some a -> nth_error m i = Some b -> P a b) -> Forall2 P l m.
Proof. induction l as [|a l IH]; intros [|b m] HL H; try discriminate; constructor; [apply (H 0%nat); reflexivity|]. apply IH; [cbn in HL; lia|]. intros i. apply (H (S i)). Qed.
Lemma nth_indexed {A} (l : list A) : forall i n a, nth_error l i = Some a -> nth_error (combine (seq n (length l)) l) i = Some ((n + i)%nat, a).
Proof.
  induction l as [|x l IH]; intros [|i] n a H; try discriminate; cbn in *; [rewrite Nat.add_0_r; congruence|]. rewrite (IH i (S n) a H). f_equal. f_equal. lia.
Qed.

Section MixRank.
  Context {EPT EPS FPT FPS Force : Type} (PT : particle (vec R) R EPT) (PS : particle (vec R) R EPS) (copyT : FPT -> EPT) (copyS : FPS -> EPS).
  Notation epI := (mixEPI (vec R) R EPT).
  Notation epJ := (mixEPJ (vec R) R EPS).
  Notation itemS := (item R_arith (EPT + EPS)).
  Notation itemE := (item R_arith (epI * epJ)).
  Hypotheses (LT : lawful PT) (LS : lawful PS).

  (** the item of the tree for a particle *)
  Definition stands (e : itemS) (x : itemE) : Prop :=
    i_site x = i_site e /\
    match i_pay e with
    | inl t => i_trg (fst (i_pay x)) = true /\ i_radius (fst (i_pay x)) = s_rad (i_site e) /\ i_ep (fst (i_pay x)) = t /\ j_src (snd (i_pay x)) = false
    | inr p => j_src (snd (i_pay x)) = true /\ j_radius (snd (i_pay x)) = s_rad (i_site e) /\ j_ep (snd (i_pay x)) = p
    end.

  Lemma stands_target (e : itemS) t x (p : mixFP EPT EPS) ei ej : trgFlag p = true -> epTrg p = setPos PT t x -> i_pay e = inl (setPos PT t x) -> i_site e = @Site R_arith x (getRSearch PT t) ->
    stands e (Item (@Site R_arith (jPos PS (jCopy PT PS ej p)) (j_radius (jCopy PT PS ej p))) (iCopy PT PS ei p, jCopy PT PS ej p)).
  Proof.
    intros F Ep He Hs. destruct LT as (L1 & L2 & L3). unfold stands. rewrite He, Hs. cbn [i_site i_pay fst snd s_rad]. unfold iCopy, jCopy, fpRadius, fpPos. rewrite F, Ep. cbn.
    rewrite L1, L3. repeat split. rewrite <- (L1 t x) at 2. apply L2.
  Qed.
  Lemma stands_source (e : itemS) s x (p : mixFP EPT EPS) ei ej : trgFlag p = false -> epSrc p = setPos PS s x -> i_pay e = inr (setPos PS s x) -> i_site e = @Site R_arith x (getRSearch PS s) ->
    stands e (Item (@Site R_arith (jPos PS (jCopy PT PS ej p)) (j_radius (jCopy PT PS ej p))) (iCopy PT PS ei p, jCopy PT PS ej p)).
  Proof.
    intros F Ep He Hs. destruct LS as (L1 & L2 & L3). unfold stands. rewrite He, Hs. cbn [i_site i_pay fst snd s_rad]. unfold iCopy, jCopy, fpRadius, fpPos. rewrite F, Ep. cbn.
    unfold jPos, jSetPos. cbn. rewrite !L1, !L3. assert (E : setPos PS (setPos PS s x) x = setPos PS s x) by (rewrite <- (L1 s x) at 2; apply L2). rewrite ?E. repeat split.
  Qed.

  Lemma enter_rank root n k d own : together PT PS copyT copyS root d own -> any_stage (length (fst d)) (length (snd d)) k ->
    (forall p q, In p (map (fun t => getPos PT (copyT t)) (fst d) ++ map (fun s => getPos PS (copyS s)) (snd d)) -> brought root p q -> adjustPosition (N := R_arith) n root p = Done q) ->
    exists own', enterRank (N := R_arith) (Force := Force) PT PS copyT copyS n root k (fst d) (snd d) = Done own' /\ Forall2 stands own own'.
  Proof.
    intros HT (S1 & S2 & S3 & S4 & S5 & _) HA. destruct d as [trg src]. cbn [fst snd] in *. unfold together in HT. cbn [fst snd] in HT. apply Forall2_app_inv_l in HT as (o1 & o2 & T1 & T2 & ->).
    assert (Q1 : forall i t, nth_error trg i = Some t -> exists e, nth_error o1 i = Some e /\ in_box PT PS root (inl (copyT t)) e).
    { intros i t Et. destruct (Forall2_nth' _ _ _ T1 i (inl (copyT t))) as (e & Ee & He); [rewrite nth_error_map, Et; reflexivity|eauto]. }
    assert (Q2 : forall i s, nth_error src i = Some s -> exists e, nth_error o2 i = Some e /\ in_box PT PS root (inr (copyS s)) e).
    { intros i s Es. destruct (Forall2_nth' _ _ _ T2 i (inr (copyS s))) as (e & Ee & He); [rewrite nth_error_map, Es; reflexivity|eauto]. }
    apply Forall2_length in T1 as N1. apply Forall2_length in T2 as N2. rewrite map_length in N1, N2.
    assert (A1 : forall t e, In t trg -> in_box PT PS root (inl (copyT t)) e -> adjustPosition (N := R_arith) n root (getPos PT (copyT t)) = Done (s_pos (i_site e))).
    { intros t e Ht (He & _). apply HA; [|exact He]. apply in_or_app. left. apply (in_map (fun t => getPos PT (copyT t))). exact Ht. }
    assert (A2 : forall t e, In t src -> in_box PT PS root (inr (copyS t)) e -> adjustPosition (N := R_arith) n root (getPos PS (copyS t)) = Done (s_pos (i_site e))).
    { intros t e Ht (He & _). apply HA; [|exact He]. apply in_or_app. right. apply (in_map (fun t => getPos PS (copyS t))). exact Ht. }
    destruct (updateSystem_ok PT PS copyT copyS (k_o1 k) (k_o2 k) (adjustPosition (N := R_arith) n root) trg src (k_mem k) S1 S2 S3) as (sys & Es & Ls & U1 & U2).
    { intros t Ht. destruct (In_nth_error _ _ Ht) as (i & Ei). destruct (Q1 i t Ei) as (e & _ & He). eexists. apply (A1 t e Ht He). }
    { intros t Ht. destruct (In_nth_error _ _ Ht) as (i & Ei). destruct (Q2 i t Ei) as (e & _ & He). eexists. apply (A2 t e Ht He). }
    assert (EN : enterRank (N := R_arith) (Force := Force) PT PS copyT copyS n root k trg src = enterTree (N := R_arith) PT PS k sys) by exact (f_equal (fun o => obind o (enterTree (N := R_arith) PT PS k)) Es).
    rewrite EN. unfold enterTree.
    destruct (omap_nth (fun ip => do ei <- mread (k_epi k) (fst ip); do ej <- mread (k_epj k) (fst ip);
      Done (Item (@Site R_arith (jPos PS (jCopy PT PS ej (snd ip))) (j_radius (jCopy PT PS ej (snd ip)))) (iCopy PT PS ei (snd ip), jCopy PT PS ej (snd ip)))) (combine (seq 0 (length sys)) sys)) as (own' & Eo & Lo & Ho).
    { intros (i, p) Hi. cbn [fst snd]. apply in_combine_l in Hi. apply in_seq in Hi. destruct (mread_ok (k_epi k) i ltac:(lia)) as (ei & _ & R1). destruct (mread_ok (k_epj k) i ltac:(lia)) as (ej & _ & R2).
      rewrite R1. cbn [obind]. rewrite R2. cbn [obind]. eauto. }
    exists own'. split; [exact Eo|]. rewrite combine_length, seq_length, Nat.min_id in Lo.
    assert (HN : forall i p, nth_error sys i = Some p -> nth_error (combine (seq 0 (length sys)) sys) i = Some (i, p)).
    { intros i p Hp. apply (nth_indexed sys i 0 p Hp). }
    apply of_nth; [rewrite app_length; lia|]. intros i e x He Hx.
    destruct (Nat.lt_ge_cases i (length trg)) as [C|C].
    - destruct (mread_ok trg i C) as (t & Et & _). destruct (Q1 i t Et) as (e' & Ee' & Hb). rewrite nth_error_app1 in He by lia. assert (e' = e) as -> by congruence.
      destruct (U1 i t Et) as (y & p & Ey & Ep & Fp & Pp). rewrite (A1 t e (nth_error_In _ _ Et) Hb) in Ey. injection Ey as <-. destruct (Ho _ _ (HN i p Ep)) as (b & Eb & Fb). assert (b = x) as -> by congruence. cbn [fst snd] in Fb.
      destruct (mread (k_epi k) i); cbn [obind] in Fb; try discriminate. destruct (mread (k_epj k) i); cbn [obind] in Fb; try discriminate. injection Fb as <-.
      destruct Hb as (_ & Hr & Hp). apply (stands_target _ (copyT t) (s_pos (i_site e))); [exact Fp|exact Pp|exact Hp|]. rewrite <- Hr. destruct (i_site e); reflexivity.
    - destruct (mread_ok src (i - length trg) ltac:(assert (i < length (o1 ++ o2))%nat by (apply nth_error_Some; congruence); rewrite app_length in *; lia)) as (t & Et & _).
      destruct (Q2 _ t Et) as (e' & Ee' & Hb). rewrite nth_error_app2 in He by lia. rewrite <- N1 in He. assert (e' = e) as -> by congruence.
      destruct (U2 _ t Et) as (y & p & Ey & Ep & Fp & Pp). rewrite (A2 t e (nth_error_In _ _ Et) Hb) in Ey. injection Ey as <-. replace (length trg + (i - length trg))%nat with i in Ep by lia.
      destruct (Ho _ _ (HN i p Ep)) as (b & Eb & Fb). assert (b = x) as -> by congruence. cbn [fst snd] in Fb.
      destruct (mread (k_epi k) i); cbn [obind] in Fb; try discriminate. destruct (mread (k_epj k) i); cbn [obind] in Fb; try discriminate. injection Fb as <-.
      destruct Hb as (_ & Hr & Hp). apply (stands_source _ (copyS t) (s_pos (i_site e))); [exact Fp|exact Pp|exact Hp|]. rewrite <- Hr. destruct (i_site e); reflexivity.
  Qed.
End MixRank.

(** ** Only positions and radii matter for the tree *)

Section Sites.
  Context {P P' : Type} (E : list (list (item R_arith P))) (E' : list (list (item R_arith P'))).
  Hypothesis same : map (map i_site) E = map (map i_site) E'.
  Lemma site_own r own' : nth_error E' r = Some own' -> exists own, nth_error E r = Some own /\ map i_site own = map i_site own'.
  Proof.
    intros H. assert (G : nth_error (map (map i_site) E) r = Some (map i_site own')) by (rewrite same, nth_error_map, H; reflexivity).
    rewrite nth_error_map in G. destruct (nth_error E r); [|discriminate]. injection G as G. eauto.
  Qed.
  Lemma site_own_in own' : In own' E' -> exists own, In own E /\ map i_site own = map i_site own'.
  Proof. intros H. apply In_nth_error in H as (r & H). apply site_own in H as (own & H & G). exists own. split; [exact (nth_error_In _ _ H)|exact G]. Qed.
  Lemma site_in own own' e' : map i_site own = map i_site own' -> In e' own' -> exists e : item R_arith P, In e own /\ i_site e = i_site (e' : item R_arith P').
  Proof. intros H He. apply (in_map i_site) in He. rewrite <- H in He. apply in_map_iff in He as (e & G & He). eauto. Qed.
  Lemma site_hits root own own' d k : map i_site own = map i_site own' -> hits (P := P') root own' d k -> hits (P := P) root own d k.
  Proof.
    intros H (o & Ho & Hm). exists o. split; [|exact Hm]. rewrite <- (map_map i_site ball). rewrite <- (map_map i_site ball) in Ho. rewrite H. exact Ho.
  Qed.
  Lemma site_length own own' : map i_site own = map i_site own' -> length (own' : list (item R_arith P')) = length (own : list (item R_arith P)).
  Proof. intros H. apply (f_equal (@length _)) in H. rewrite !map_length in H. congruence. Qed.
  Lemma site_arena pa root doms : arena pa root doms E -> arena pa root doms E'.
  Proof.
    intros A. split.
    - exact (a_root _ _ _ _ A).
    - intros own' e' c Ho He Hc. apply site_own_in in Ho as (own & Ho & H). destruct (site_in _ _ _ H He) as (e & Hi & <-). exact (a_pos _ _ _ _ A own e c Ho Hi Hc).
    - exact (a_box _ _ _ _ A).
    - exact (a_doms _ _ _ _ A).
    - rewrite <- (a_E _ _ _ _ A). apply (f_equal (@length _)) in same as L. rewrite !map_length in L. congruence.
    - intros r own' d e' Ho Hd He. apply site_own in Ho as (own & Ho & H). destruct (site_in _ _ _ H He) as (e & Hi & <-). exact (a_homes _ _ _ _ A r own d e Ho Hd Hi).
    - intros own' Ho. apply site_own_in in Ho as (own & Ho & H). rewrite (site_length _ _ H). exact (a_few _ _ _ _ A own Ho).
    - intros own' e' Ho He. apply site_own_in in Ho as (own & Ho & H). destruct (site_in _ _ _ H He) as (e & Hi & <-). exact (a_rad _ _ _ _ A own e Ho Hi).
  Qed.
  Lemma site_roomy pa root doms : roomy pa root doms E -> roomy pa root doms E'.
  Proof.
    intros A r own' tags Ho ND Ht. apply site_own in Ho as (own & Ho & H). rewrite (site_length _ _ H). apply (A r own tags Ho ND). intros s j k Hin. destruct (Ht s j k Hin) as (H1 & H2 & H3). split; [exact H1|]. split.
    - destruct H2 as (d & d' & o1 & o2 & D1 & D2 & O1 & O2 & Hh). apply site_own in O1 as (o1' & O1 & G1). apply site_own in O2 as (o2' & O2 & G2).
      exists d, d', o1', o2'. repeat (split; [assumption|]). destruct Hh as [Hh|Hh]; [left; exact (site_hits _ _ _ _ _ G2 Hh)|right; exact (site_hits _ _ _ _ _ G1 Hh)].
    - destruct H3 as (l & f & Hl & (Hj & Hf)). apply site_own in Hl as (l' & Hl & G). assert (L := site_length _ _ G). assert (B : (Z.to_nat j < length l)%nat) by (apply nth_error_Some; congruence).
      destruct (mread_ok l' (Z.to_nat j) ltac:(lia)) as (f' & Hf' & _). exists l', f'. split; [exact Hl|]. split; assumption.
  Qed.
End Sites.

Section Forces.
  Context {EPT EPS FPT FPS Force : Type} (PT : particle (vec R) R EPT) (PS : particle (vec R) R EPS) (copyT : FPT -> EPT) (copyS : FPS -> EPS).
  Notation epI := (mixEPI (vec R) R EPT).
  Notation epJ := (mixEPJ (vec R) R EPS).
  Notation itemS := (item R_arith (EPT + EPS)).
  Notation itemE := (item R_arith (epI * epJ)).
  Hypotheses (LT : lawful PT) (LS : lawful PS).
  Variables (near : EPT -> R -> EPS -> R -> bool) (zero : Force) (add : EPT -> EPS -> Force -> Force).
  Hypothesis Hshort : short PT PS near.
  Variables (pa : vec bool) (root : ort R) (E : list (list itemS)) (E' : list (list itemE)).
  Hypothesis HE : Forall2 (Forall2 stands) E E'.

  Lemma stands_own s l : nth_error E s = Some l -> exists l', nth_error E' s = Some l' /\ Forall2 stands l l'.
  Proof. intros H. destruct (Forall2_nth' _ _ _ HE s l H) as (l' & H1 & H2). eauto. Qed.
  Lemma stands_own' s l' : nth_error E' s = Some l' -> exists l, nth_error E s = Some l /\ Forall2 stands l l'.
  Proof. intros H. destruct (Forall2_nth _ _ _ HE s l' H) as (l & H1 & H2). eauto. Qed.
  Lemma stands_at l l' j f : Forall2 (@stands EPT EPS) l l' -> at_ l j f -> exists f', at_ l' j f' /\ stands f f'.
  Proof. intros H (Hj & Hf). destruct (Forall2_nth' _ _ _ H _ _ Hf) as (f' & H1 & H2). exists f'. split; [split; assumption|exact H2]. Qed.
  Lemma stands_at' l l' j f' : Forall2 (@stands EPT EPS) l l' -> at_ l' j f' -> exists f, at_ l j f /\ stands f f'.
  Proof. intros H (Hj & Hf). destruct (Forall2_nth _ _ _ H _ _ Hf) as (f & H1 & H2). exists f. split; [split; assumption|exact H2]. Qed.
  Lemma stands_sites : map (map i_site) E = map (map i_site) E'.
  Proof.
    induction HE as [|l l' L L' H HL IH]; [reflexivity|]. cbn [map]. f_equal; [|exact (IH HL)]. clear - H. induction H as [|e x l l' (H & _) HL IH]; [reflexivity|]. cbn [map]. congruence.
  Qed.

  (** what the kernel does with one entry of a list *)
  Definition entry (t : EPT) (rt : R) (x : epJ) (f : Force) : Force := if j_src x then if near t rt (j_ep x) (j_radius x) then add t (j_ep x) f else f else f.
  Lemma pick t rt tags epj : Forall2 (names pa (image root) E') tags epj -> NoDup tags ->
    exists tags' ys, NoDup tags' /\ Forall2 (fun tag y => exists rs, source_image PS pa root E tag y rs /\ near t rt y rs = true) tags' ys /\
      (forall tag, In tag tags' -> In tag tags) /\
      (forall tag y rs, In tag tags -> source_image PS pa root E tag y rs -> near t rt y rs = true -> In tag tags') /\
      forall f, fold_left (fun f x => entry t rt x f) (map (sourceOf (N := R_arith) PS) epj) f = fold_left (fun f y => add t y f) ys f.
  Proof.
    induction 1 as [|tag x tags epj Hx HF IH]; intros ND; [exists [], []; repeat split; try constructor; try (intros ? []); intros ? ? ? []|].
    inversion ND as [|? ? Hni ND']; subst. destruct (IH ND') as (tags' & ys & N1 & F1 & S1 & C1 & V1). clear IH.
    destruct tag as ((s, j), k). destruct Hx as (Hk & l' & f' & Hl' & Hf' & ->). destruct (stands_own' s l' Hl') as (l & Hl & Hll). destruct (stands_at' _ _ _ _ Hll Hf') as (f & Hf & Hst).
    assert (U : forall y rs, source_image PS pa root E (s, j, k) y rs -> exists p, i_pay f = inr p /\ y = setPos PS p (away root k (s_pos (i_site f))) /\ rs = s_rad (i_site f)).
    { intros y rs (_ & l1 & f1 & p & H1 & (_ & H2) & H3 & H4 & H5). assert (l1 = l) as -> by congruence. destruct Hf as (_ & Hf). assert (f1 = f) as -> by congruence. eauto. }
    destruct Hst as (Es & Hst). destruct (i_pay f) as [t0|p] eqn:Ep.
    - destruct Hst as (_ & _ & _ & Hsrc). exists tags', ys. split; [exact N1|]. split; [exact F1|]. split; [intros tag H; right; apply S1; exact H|]. split.
      + intros tag y rs [<-|Hin] Hs Hn; [|exact (C1 tag y rs Hin Hs Hn)]. destruct (U y rs Hs) as (p & ? & _). congruence.
      + intros f0. cbn [map fold_left]. rewrite <- V1. f_equal. destruct f' as [sf (ii, [b rr pp ee])]. cbn in Hsrc. subst b. reflexivity.
    - destruct Hst as (Hsrc & Hrad & Hep). set (y := setPos PS p (away root k (s_pos (i_site f)))).
      assert (SI : source_image PS pa root E (s, j, k) y (s_rad (i_site f))) by (split; [exact Hk|]; exists l, f, p; repeat split; assumption || apply Hf).
      assert (V : forall f0, entry t rt (sourceOf (N := R_arith) PS (image root k f')) f0 = if near t rt y (s_rad (i_site f)) then add t y f0 else f0).
      { intros f0. unfold y. rewrite <- Es in *. destruct f' as [sf (ii, [b rr pp ee])]. cbn in Hsrc, Hrad, Hep. subst. reflexivity. }
      destruct (near t rt y (s_rad (i_site f))) eqn:En.
      + exists ((s, j, k) :: tags'), (y :: ys). split; [constructor; [intros H; apply Hni, S1, H|exact N1]|]. split; [constructor; [eexists; split; [exact SI|exact En]|exact F1]|]. split; [intros tag [<-|H]; [left; reflexivity|right; apply S1, H]|]. split.
        * intros tag y' rs [<-|Hin] Hs Hn; [left; reflexivity|right; exact (C1 tag y' rs Hin Hs Hn)].
        * intros f0. cbn [map fold_left]. rewrite V. apply V1.
      + exists tags', ys. split; [exact N1|]. split; [exact F1|]. split; [intros tag H; right; apply S1; exact H|]. split.
        * intros tag y' rs [<-|Hin] Hs Hn; [|exact (C1 tag y' rs Hin Hs Hn)]. destruct (U y' rs Hs) as (p' & Hp & -> & ->). assert (p' = p) as -> by congruence. unfold y in En. congruence.
        * intros f0. cbn [map fold_left]. rewrite V. apply V1.
  Qed.

  Lemma fold_ext {A B} (f g : A -> B -> A) l : (forall a b, f a b = g a b) -> forall a, fold_left f l a = fold_left g l a.
  Proof. intros H. induction l as [|b l IH]; intros a; [reflexivity|]. cbn. rewrite H. apply IH. Qed.

  Lemma rank_forces threads d own own' res (k : stage R_arith EPT EPS Force) : together PT PS copyT copyS root d own -> Forall2 stands own own' ->
    served (fun v : R_arith => v) tight pa (image root) E' (mixFunctor (N := R_arith) PS (nearKernel near zero add)) (fun _ => zero) threads own' res ->
    any_stage (length (fst d)) (length (snd d)) k ->
    exists forces, takeForces (N := R_arith) k (snd res) = Done forces /\ forces_ok PS near zero add pa root E own (length (fst d)) forces.
  Proof.
    intros HT HO (SL & _ & its & HC & HP) (_ & _ & _ & _ & _ & K3 & KL).
    assert (LO : length own = (length (fst d) + length (snd d))%nat) by (apply Forall2_length in HT; rewrite app_length, !map_length in HT; congruence).
    assert (LO' : length own' = length own) by (symmetry; exact (Forall2_length _ _ _ HO)).
    destruct (scatter_ok (fun i => i) (fun i a => nth i (snd res) a) (fun out i => do f <- mread (snd res) i; mwrite out i f) (k_o3 k) (k_old k)) as (forces & EF & LF & WF & _).
    { rewrite map_id. exact (perm_nodup _ _ K3). }
    { intros i m' Hi _ a _. apply (perm_lt _ _ _ K3) in Hi. unfold mread. rewrite (nth_error_nth' (snd res) a) by (rewrite SL; lia). reflexivity. }
    { intros i Hi. apply (perm_lt _ _ _ K3) in Hi. lia. }
    exists forces. split; [exact EF|]. split; [lia|]. intros i Hi.
    destruct (mread_ok own i ltac:(lia)) as (e & He & _). destruct (mread_ok (fst d) i Hi) as (t0 & Et0 & _).
    assert (Hb : in_box PT PS root (inl (copyT t0)) e).
    { destruct (Forall2_nth' _ _ _ HT i (inl (copyT t0))) as (e1 & He1 & Hb); [rewrite nth_error_app1 by (rewrite map_length; exact Hi); rewrite nth_error_map, Et0; reflexivity|]. assert (e1 = e) as -> by congruence. exact Hb. }
    destruct Hb as (_ & Hr & Hp). set (t := setPos PT (copyT t0) (s_pos (i_site e))) in *.
    destruct (Forall2_nth' _ _ _ HO i e He) as (e' & He' & Hs & Hst). rewrite Hp in Hst. destruct Hst as (St & Sr & Se & _).
    assert (Hin : In (Z.of_nat i) (concat (map fst its))) by (rewrite HP; apply in_map, in_seq; lia).
    apply in_concat in Hin as (is & His & Hii). apply in_map_iff in His as ((is', tags) & E0 & Hit). cbn in E0. subst is'.
    apply In_nth_error in Hit as (c & Hc). destruct (Forall2_nth' _ _ _ HC c _ Hc) as (call & _ & Hcall). destruct call as (th & (epi & epj)).
    destruct Hcall as (Hepi & ND & Hnames & Hsee & before & after & Lb & Ef & Hforce).
    destruct (In_nth_error _ _ Hii) as (a & Ha). specialize (Hforce a _ Ha). rewrite Nat2Z.id in Hforce.
    destruct (Forall2_nth' _ _ _ Hepi a _ Ha) as (e1 & He1 & (_ & Hat)). rewrite Nat2Z.id in Hat. assert (e1 = e') as -> by congruence.
    destruct (pick t (s_rad (i_site e)) tags epj Hnames ND) as (tags' & ys & N1 & F1 & S1 & C1 & V1).
    exists e, t, tags', ys. split; [exact He|]. split; [exact Hp|]. split; [exact N1|]. split; [exact F1|]. split.
    - intros tag y rs Hsi Hn. apply (C1 tag y rs); [|exact Hsi|exact Hn]. destruct tag as ((s, j), kk). destruct Hsi as (Hk & l & f & p & Hl & Hf & Hpay & -> & ->).
      destruct (stands_own s l Hl) as (l' & Hl' & Hll). destruct (stands_at _ _ _ _ Hll Hf) as (f' & Hf' & Hsf).
      apply (Hsee (Z.of_nat i) e' s l' j f' kk Hii); [split; [lia|rewrite Nat2Z.id; exact He']|exact Hl'|exact Hf'|exact Hk|].
      destruct Hsf as (Esf & _). apply Hshort in Hn. destruct LT as (LT1 & _ & _). destruct LS as (LS1 & _ & _). unfold t in Hn. rewrite LT1, LS1 in Hn.
      unfold sees, apart, tight, image. cbn [i_site s_pos s_rad]. rewrite Hs, Esf. exact Hn.
    - rewrite WF by (apply (perm_lt _ _ _ K3); exact Hi). destruct (mread_ok (k_old k) i ltac:(lia)) as (old & Eo & _). rewrite Eo. cbn [option_map].
      rewrite <- (nth_error_nth' (snd res) old (n := i)) by (rewrite SL; lia). rewrite Hforce, <- Ef. unfold mixFunctor. rewrite nth_error_map.
      assert (La : (a < length before)%nat) by (rewrite Lb; apply nth_error_Some; congruence). destruct (mread_ok before a La) as (b0 & Eb & _).
      assert (EC : forall (l1 : list itemE) (l2 : list Force) n x y, nth_error l1 n = Some x -> nth_error l2 n = Some y -> nth_error (combine l1 l2) n = Some (x, y)).
      { induction l1 as [|x1 l1 IH]; intros [|x2 l2] [|n] x y H1 H2; try discriminate; cbn in *; [congruence|apply IH; assumption]. }
      refine (eq_trans (f_equal (option_map _) (EC epi (map (fun _ => zero) before) a e' zero He1 ltac:(rewrite nth_error_map, Eb; reflexivity))) _). cbn [option_map fst snd]. f_equal.
      rewrite <- V1. clear - St Sr Se. destruct e' as [se ([b rr pp ee], jj)]. cbn in St, Sr, Se. subst b rr ee. reflexivity.
  Qed.
End Forces.

Theorem mix_ranks {EPT EPS FPT FPS Force : Type} (PT : particle (vec R) R EPT) (PS : particle (vec R) R EPS) (copyT : FPT -> EPT) (copyS : FPS -> EPS) near (zero : Force) add (k : nat -> stage R_arith EPT EPS Force) q pa root doms limit grpLimit data E :
  lawful PT -> lawful PS -> short PT PS near -> prepared PT PS copyT copyS pa root doms limit grpLimit k q data E ->
  exists F, forall fuel, (F <= fuel)%nat -> exists res,
    mixForces (N := R_arith) PT PS copyT copyS (nearKernel near zero add) (fun _ => zero) k q Ztrunc fuel pa root doms limit grpLimit data = Done res /\ length res = length data /\
    forall r d own forces, nth_error data r = Some d -> nth_error E r = Some own -> nth_error res r = Some forces -> forces_ok PS near zero add pa root E own (length (fst d)) forces.
Proof.
  intros LT LS Hsh [HD HA HR HL Hk (threads & Hq)].
  set (poss := fun d : list FPT * list FPS => map (fun t => getPos PT (copyT t)) (fst d) ++ map (fun s => getPos PS (copyS s)) (snd d)).
  destruct (adjust_all root (concat (map poss data))) as (n & Hn).
  { intros p Hp. apply in_concat in Hp as (ps & H1 & H2). apply in_map_iff in H1 as (d & <- & Hd). apply In_nth_error in Hd as (r & Hr). destruct (Forall2_nth' _ _ _ HD r d Hr) as (own & _ & HT). unfold together in HT.
    unfold poss in H2. apply in_app_or in H2 as [H2|H2]; apply in_map_iff in H2 as (x & <- & Hx).
    - assert (Hi : In (inl (copyT x)) (map (fun t => @inl EPT EPS (copyT t)) (fst d) ++ map (fun s => inr (copyS s)) (snd d))) by (apply in_or_app; left; apply (in_map (fun t => inl (copyT t))); exact Hx).
      apply In_nth_error in Hi as (i & Hi). destruct (Forall2_nth' _ _ _ HT _ _ Hi) as (e & _ & (He & _)). eauto.
    - assert (Hi : In (inr (copyS x)) (map (fun t => @inl EPT EPS (copyT t)) (fst d) ++ map (fun s => inr (copyS s)) (snd d))) by (apply in_or_app; right; apply (in_map (fun t => inr (copyS t))); exact Hx).
      apply In_nth_error in Hi as (i & Hi). destruct (Forall2_nth' _ _ _ HT _ _ Hi) as (e & _ & (He & _)). eauto. }
  set (enter := fun fuel r => do d <- mread data r; enterRank (N := R_arith) (Force := Force) PT PS copyT copyS fuel root (k r) (fst d) (snd d)).
  assert (LD : length data = length E) by exact (Forall2_length _ _ _ HD).
  assert (HE : exists E', omap (enter n) (seq 0 (length data)) = Done E' /\ Forall2 (Forall2 stands) E E').
  { destruct (omap_nth (enter n) (seq 0 (length data))) as (E' & E1 & E2 & E3).
    - intros r Hr. apply in_seq in Hr. destruct (mread_ok data r ltac:(lia)) as (d & Hd & Rd). destruct (Forall2_nth' _ _ _ HD r d Hd) as (own & _ & HT). unfold enter. rewrite Rd. cbn [obind].
      destruct (enter_rank PT PS copyT copyS LT LS root n (k r) d own HT (Hk r d Hd)) as (own' & Eo & _); [|eauto].
      intros p q0 Hp. apply (Hn n (Nat.le_refl _)). apply in_concat. exists (poss d). split; [apply in_map; exact (nth_error_In _ _ Hd)|exact Hp].
    - exists E'. split; [exact E1|]. rewrite seq_length in E2. apply of_nth; [exact (eq_trans (eq_sym LD) (eq_sym E2))|]. intros r own own' Ho Ho'. assert (Hr : (r < length data)%nat) by (rewrite LD; apply nth_error_Some; congruence).
      destruct (mread_ok data r Hr) as (d & Hd & Rd). destruct (Forall2_nth' _ _ _ HD r d Hd) as (own1 & Ho1 & HT). assert (own1 = own) as -> by congruence.
      destruct (E3 r r) as (own2 & H2 & H3); [rewrite (nth_error_nth' _ 0%nat) by (rewrite seq_length; lia); rewrite seq_nth by lia; reflexivity|]. pose proof (eq_trans (eq_sym H2) Ho') as X; injection X as ->.
      unfold enter in H3. rewrite Rd in H3. cbn [obind] in H3. destruct (enter_rank PT PS copyT copyS LT LS root n (k r) d own HT (Hk r d Hd)) as (own3 & Eo & HS).
      { intros p q0 Hp. apply (Hn n (Nat.le_refl _)). apply in_concat. exists (poss d). split; [apply in_map; exact (nth_error_In _ _ Hd)|exact Hp]. }
      rewrite Eo in H3. injection H3 as <-. exact HS. }
  destruct HE as (E' & EE & HE). pose proof (stands_sites E E' HE) as HS.
  assert (HM : forall fuel, (n <= fuel)%nat -> omap (enter fuel) (seq 0 (length data)) = Done E').
  { intros fuel Hf. refine (omap_more (enter n) (enter fuel) _ _ _ EE). intros r own' H. unfold enter in *. destruct (mread data r) as [d| |]; cbn [obind] in *; try discriminate. exact (enter_more PT PS copyT copyS n fuel root (k r) (fst d) (snd d) own' H Hf). }
  assert (Hq' : forall r, any_cast (length doms) threads limit (length (nth r E' [])) (q r)).
  { intros r. specialize (Hq r). replace (length (nth r E' [])) with (length (nth r E [])); [exact Hq|]. apply (f_equal (fun l => length (nth r l []))) in HS. change (@nil (site R_arith)) with (map (@i_site R_arith (EPT + EPS)) []) in HS at 1.
    change (@nil (site R_arith)) with (map (@i_site R_arith (mixEPI (vec R) R EPT * mixEPJ (vec R) R EPS)) []) in HS at 1. rewrite !map_nth, !map_length in HS. exact HS. }
  destruct (call_all q threads pa root doms limit grpLimit E' (mixFunctor (N := R_arith) PS (nearKernel near zero add)) (fun _ => zero) (site_arena E E' HS pa root doms HA) Hq' HL) as (F & HF).
  { intros epi epj fs H. unfold mixFunctor. rewrite map_length, combine_length, H, Nat.min_id. reflexivity. }
  { exact (site_roomy E E' HS pa root doms HR). }
  exists (F + n)%nat. intros fuel Hf. destruct (HF fuel ltac:(lia)) as (res & R1 & R2 & R3).
  assert (LE : length E' = length data) by (rewrite LD; symmetry; exact (Forall2_length _ _ _ HE)).
  assert (LR : length res = length data) by exact (eq_trans R2 LE).
  assert (HRk : forall r d, nth_error data r = Some d -> exists own x forces, nth_error E r = Some own /\ nth_error res r = Some x /\ takeForces (N := R_arith) (k r) (snd x) = Done forces /\ forces_ok PS near zero add pa root E own (length (fst d)) forces).
  { intros r d Hd. destruct (Forall2_nth' _ _ _ HD r d Hd) as (own & Ho & HT). destruct (Forall2_nth' _ _ _ HE r own Ho) as (own' & Ho' & HO).
    assert (Hr : (r < length data)%nat) by (apply nth_error_Some; congruence). destruct (mread_ok res r ltac:(lia)) as (x & Hx & _).
    destruct (rank_forces PT PS copyT copyS LT LS near zero add Hsh pa root E E' HE threads d own own' x (k r) HT HO (R3 r own' x Ho' Hx) (Hk r d Hd)) as (forces & T1 & T2). exists own, x, forces. auto. }
  destruct (omap_nth (fun r => do x <- mread res r; takeForces (N := R_arith) (EPT := EPT) (EPS := EPS) (k r) (snd x)) (seq 0 (length data))) as (out & O1 & O2 & O3).
  { intros r Hr. apply in_seq in Hr. destruct (mread_ok data r ltac:(lia)) as (d & Hd & _). destruct (HRk r d Hd) as (own & x & forces & _ & Hx & Hf2 & _). exists forces. unfold mread. rewrite Hx. exact Hf2. }
  exists out. split; [|split; [rewrite O2; apply seq_length|]].
  - unfold mixForces. unfold enter in HM. rewrite (HM fuel ltac:(lia)). cbn [obind]. refine (eq_trans (f_equal (fun o => obind o _) R1) _). exact O1.
  - intros r d own forces Hd Ho Hfo. destruct (HRk r d Hd) as (own1 & x & forces1 & Ho1 & Hx & Hf1 & Hf2). assert (own1 = own) as -> by congruence.
    assert (Hr : (r < length data)%nat) by (apply nth_error_Some; congruence).
    destruct (O3 r r) as (f3 & H3 & H4); [rewrite (nth_error_nth' _ 0%nat) by (rewrite seq_length; lia); rewrite seq_nth by lia; reflexivity|]. assert (f3 = forces) as -> by congruence.
    unfold mread in H4. rewrite Hx in H4. cbn [obind] in H4. assert (forces1 = forces) as -> by congruence. exact Hf2.
Qed.

(** ** The ranks do not matter *)

Lemma NoDup_app_intro {A} (l m : list A) : NoDup l -> NoDup m -> (forall a, In a l -> In a m -> False) -> NoDup (l ++ m).
Proof.
  induction l as [|a l IH]; intros Hl Hm H; [exact Hm|]. inversion Hl as [|? ? Hn Hl']; subst. cbn. constructor; [intros Hi; apply in_app_or in Hi as [Hi|Hi]; [exact (Hn Hi)|exact (H a (or_introl eq_refl) Hi)]|].
  apply IH; [exact Hl'|exact Hm|]. intros b Hb. apply H. right. exact Hb.
Qed.

Section Ranks.
  Context {EPT EPS Force : Type} (PS : particle (vec R) R EPS) (near : EPT -> R -> EPS -> R -> bool) (zero : Force) (add : EPT -> EPS -> Force -> Force).
  Notation itemS := (item R_arith (EPT + EPS)).
  Variables (pa : vec bool) (root : ort R).

  Lemma vecZ_dec (a b : vec Z) : {a = b} + {a <> b}.
  Proof. repeat decide equality. Qed.
  Definition value (f : itemS) (k : vec Z) : option EPS := match i_pay f with inr p => Some (setPos PS p (away root k (s_pos (i_site f)))) | inl _ => None end.
  Definition good (t : EPT) (rt : R) (fk : itemS * vec Z) : list EPS :=
    match value (fst fk) (snd fk) with Some y => if near t rt y (s_rad (i_site (fst fk))) then [y] else [] | None => [] end.
  (** all particles with their places *)
  Definition places (E : list (list itemS)) : list ((nat * Z) * itemS) :=
    concat (map (fun sl => map (fun jf => ((fst sl, Z.of_nat (fst jf)), snd jf)) (combine (seq 0 (length (snd sl))) (snd sl))) (combine (seq 0 (length E)) E)).
  Lemma in_indexed {A} (l : list A) : forall n i a, In (i, a) (combine (seq n (length l)) l) <-> (n <= i)%nat /\ nth_error l (i - n) = Some a.
  Proof.
    induction l as [|x l IH]; intros n i a; cbn [length seq combine In]; [split; [intros []|intros (_ & H); destruct (i - n)%nat; discriminate]|].
    rewrite IH. split.
    - intros [H|(H1 & H2)]; [injection H as -> ->; rewrite Nat.sub_diag; split; [lia|reflexivity]|]. split; [lia|]. replace (i - n)%nat with (S (i - S n)) by lia. exact H2.
    - intros (H1 & H2). destruct (Nat.eq_dec i n) as [->|Hn]; [left; rewrite Nat.sub_diag in H2; cbn in H2; congruence|]. right. split; [lia|]. replace (i - n)%nat with (S (i - S n)) in H2 by lia. exact H2.
  Qed.
  Lemma in_places E s j f : In ((s, j), f) (places E) <-> exists l, nth_error E s = Some l /\ at_ l j f.
  Proof.
    unfold places. rewrite in_concat. split.
    - intros (x & Hx & Hi). apply in_map_iff in Hx as ((s', l) & <- & Hs). cbn [fst snd] in Hi. apply in_map_iff in Hi as ((i, f') & H & Hj). cbn [fst snd] in H. injection H as -> <- ->.
      apply in_indexed in Hs as (_ & Hs). apply in_indexed in Hj as (_ & Hj). rewrite Nat.sub_0_r in *. exists l. split; [exact Hs|]. split; [lia|]. rewrite Nat2Z.id. exact Hj.
    - intros (l & Hl & (Hj & Hf)). eexists. split; [apply in_map_iff; exists (s, l); split; [reflexivity|apply in_indexed; split; [lia|rewrite Nat.sub_0_r; exact Hl]]|].
      cbn [fst snd]. apply in_map_iff. exists (Z.to_nat j, f). cbn [fst snd]. rewrite Z2Nat.id by exact Hj. split; [reflexivity|]. apply in_indexed. split; [lia|]. rewrite Nat.sub_0_r. exact Hf.
  Qed.
  Lemma indexed_snd {A} (l : list A) : forall n, map snd (combine (seq n (length l)) l) = l.
  Proof. induction l as [|a l IH]; intros n; [reflexivity|]. cbn. f_equal. apply IH. Qed.
  Lemma places_items E : map snd (places E) = concat E.
  Proof.
    unfold places. rewrite concat_map, map_map. transitivity (concat (map snd (combine (seq 0 (length E)) E))); [|rewrite indexed_snd; reflexivity]. f_equal. apply map_ext. intros (s, l). cbn [fst snd]. rewrite map_map. cbn [snd]. apply indexed_snd.
  Qed.
  Lemma indexed_fst {A} (l : list A) : forall n, map fst (combine (seq n (length l)) l) = seq n (length l).
  Proof. induction l as [|a l IH]; intros n; [reflexivity|]. cbn. f_equal. apply IH. Qed.
  Lemma places_once E : NoDup (map fst (places E)).
  Proof.
    unfold places. enough (X : forall n, NoDup (map fst (concat (map (fun sl : nat * list itemS => map (fun jf => ((fst sl, Z.of_nat (fst jf)), snd jf)) (combine (seq 0 (length (snd sl))) (snd sl))) (combine (seq n (length E)) E))))) by apply X.
    induction E as [|l E IH]; intros n; [constructor|]. cbn [length seq combine map concat]. rewrite map_app. apply NoDup_app_intro.
    - cbn [fst snd]. rewrite map_map. cbn [fst]. rewrite <- (map_map fst (fun i => (n, Z.of_nat i))). rewrite indexed_fst. apply FinFun.Injective_map_NoDup; [intros a b H; injection H; lia|apply seq_NoDup].
    - apply IH.
    - intros (s, j) H1 H2. cbn [fst snd] in H1. rewrite map_map in H1. apply in_map_iff in H1 as ((i, f) & H1 & _). cbn in H1. injection H1 as <- _.
      apply in_map_iff in H2 as (((s', j'), f') & H2 & H3). cbn in H2. injection H2 as -> ->. apply in_concat in H3 as (x & Hx & Hi). apply in_map_iff in Hx as ((s', l') & <- & Hs).
      apply in_indexed in Hs as (Hs & _). cbn [fst snd] in Hi. apply in_map_iff in Hi as (? & H & _). injection H as -> _ _. lia.
  Qed.

  Definition tag_of (x : (nat * Z) * itemS * vec Z) : nat * Z * vec Z := (fst (fst x), snd x).
  Lemma flat_filter {A B} (g : A -> list B) (h : A -> bool) l : (forall a, In a l -> h a = false -> g a = []) -> flat_map g (filter h l) = flat_map g l.
  Proof.
    induction l as [|a l IH]; intros H; [reflexivity|]. cbn [filter flat_map]. destruct (h a) eqn:E; cbn [flat_map]; rewrite IH by (intros b Hb; apply H; right; exact Hb); [reflexivity|].
    rewrite (H a (or_introl eq_refl) E). reflexivity.
  Qed.

  (** the sources near a target, as a list that does not depend on the ranks *)
  Lemma canonical E t rt tags ys K : NoDup tags -> Forall2 (fun tag y => exists rs, source_image PS pa root E tag y rs /\ near t rt y rs = true) tags ys ->
    (forall tag y rs, source_image PS pa root E tag y rs -> near t rt y rs = true -> In tag tags) -> NoDup K -> (forall tag, In tag tags -> In (snd tag) K) -> (forall k, In k K -> lattice pa k) ->
    Permutation ys (flat_map (good t rt) (list_prod (concat E) K)).
  Proof.
    intros ND HF HC NK HK HKL.
    set (h := fun x : (nat * Z) * itemS * vec Z => match good t rt (snd (fst x), snd x) with [] => false | _ => true end).
    set (X := filter h (list_prod (places E) K)).
    assert (HP : Permutation tags (map tag_of X)).
    { apply NoDup_Permutation; [exact ND| |].
      - assert (NP : NoDup (map tag_of (list_prod (places E) K))).
        { pose proof (places_once E) as N1. revert N1. generalize (places E). intros pl. induction pl as [|p pl IH]; intros N1; [constructor|]. cbn [list_prod]. cbn [map] in N1. inversion N1 as [|? ? Hni N2]; subst. rewrite map_app. apply NoDup_app_intro.
          - rewrite map_map. apply FinFun.Injective_map_NoDup; [intros a b H; unfold tag_of in H; cbn in H; injection H; auto|exact NK].
          - apply IH. exact N2.
          - intros tag H1 H2. apply in_map_iff in H1 as (x & <- & H1). apply in_map_iff in H1 as (kk & <- & H1). apply in_map_iff in H2 as ((p', k') & H2 & H3). apply in_prod_iff in H3 as (H3 & _).
            apply Hni. apply in_map_iff. exists p'. split; [|exact H3]. unfold tag_of in H2. cbn in H2. congruence. }
        clear - NP. unfold X. revert NP. generalize (list_prod (places E) K). intros l. induction l as [|a l IH]; intros N1; [constructor|]. cbn [map] in N1. inversion N1 as [|? ? Hni N2]; subst. cbn [filter]. destruct (h a); [|apply IH; exact N2].
        cbn [map]. constructor; [|apply IH; exact N2]. intros H. apply Hni. apply in_map_iff in H as (b & <- & Hb). apply filter_In in Hb as (Hb & _). apply in_map. exact Hb.
      - intros ((s, j), kk). split.
        + intros Hin. pose proof (HK _ Hin) as Hkk. cbn [snd] in Hkk. apply In_nth_error in Hin as (n & Hn). destruct (Forall2_nth' _ _ _ HF n _ Hn) as (y & _ & rs & (Hl & l & f & p & H1 & H2 & H3 & H4 & H5) & H6).
          apply in_map_iff. exists (((s, j), f), kk). split; [reflexivity|]. apply filter_In. split; [apply in_prod_iff; split; [apply in_places; eauto|exact Hkk]|].
          unfold h, good, value. cbn [fst snd]. rewrite H3, <- H4, <- H5, H6. reflexivity.
        + intros Hin. apply in_map_iff in Hin as ((((s', j'), f), k') & E0 & Hin). unfold tag_of in E0. cbn in E0. injection E0 as -> -> ->. apply filter_In in Hin as (Hin & Hh). apply in_prod_iff in Hin as (Hp & Hkk).
          apply in_places in Hp as (l & H1 & H2). unfold h, good, value in Hh. cbn [fst snd] in Hh. destruct (i_pay f) as [?|p] eqn:Ep; [discriminate|].
          destruct (near t rt (setPos PS p (away root kk (s_pos (i_site f)))) (s_rad (i_site f))) eqn:En; [|discriminate].
          refine (HC _ _ _ _ En). split; [exact (HKL kk Hkk)|]. exists l, f, p. auto. }
    assert (HY : forall tags' ys', Forall2 (fun tag y => exists rs, source_image PS pa root E tag y rs /\ near t rt y rs = true) tags' ys' -> forall X', incl X' X -> tags' = map tag_of X' -> ys' = flat_map (fun x => good t rt (snd (fst x), snd x)) X').
    { induction 1 as [|tag y tags' ys' (rs & Hs & Hn) HF' IH]; intros [|x X'] HX Et; try discriminate; [reflexivity|]. cbn [map] in Et. injection Et as Et1 Et2. cbn [flat_map].
      rewrite (IH X' (fun a Ha => HX a (or_intror Ha)) Et2). assert (Hx := HX x (or_introl eq_refl)). destruct x as (((s, j), f), kk). unfold X in Hx. apply filter_In in Hx as (Hx & _). apply in_prod_iff in Hx as (Hx & _). apply in_places in Hx as (l & H1 & H2).
      subst tag. unfold tag_of in Hs. cbn [fst snd] in Hs. destruct Hs as (_ & l1 & f1 & p & H3 & H4 & H5 & H6 & H7). assert (l1 = l) as -> by congruence. destruct H2 as (_ & H2). destruct H4 as (_ & H4). assert (f1 = f) as -> by congruence.
      unfold good, value. cbn [fst snd]. rewrite H5, <- H6, <- H7, Hn. reflexivity. }
    destruct (Permutation_Forall2 HP HF) as (ys' & P1 & F1). rewrite P1. rewrite (HY _ _ F1 X (incl_refl X) eq_refl). unfold X. rewrite flat_filter by (intros a _ Ha; unfold h in Ha; destruct (good t rt (snd (fst a), snd a)); [reflexivity|discriminate]).
    rewrite <- places_items. clear. generalize (places E). intros pl. induction pl as [|a pl IH]; [reflexivity|]. cbn [list_prod map]. rewrite !flat_map_app. apply Permutation_app; [|exact IH]. clear IH.
    induction K as [|kk K IHK]; [reflexivity|]. cbn [map flat_map]. apply Permutation_app; [reflexivity|exact IHK].
  Qed.

  Lemma fold_perm t l l' : commutes add -> Permutation l l' -> forall f, fold_left (fun f y => add t y f) l f = fold_left (fun f y => add t y f) l' f.
  Proof. intros HC. induction 1; intros f0; cbn; [reflexivity|auto|rewrite HC; reflexivity|congruence]. Qed.

  Lemma same_force E E' own own' n n' forces forces' i i' e : commutes add -> Permutation (concat E) (concat E') ->
    forces_ok PS near zero add pa root E own n forces -> forces_ok PS near zero add pa root E' own' n' forces' -> (i < n)%nat -> (i' < n')%nat -> nth_error own i = Some e -> nth_error own' i' = Some e ->
    nth_error forces i = nth_error forces' i'.
  Proof.
    intros HC HP (_ & H) (_ & H') Hi Hi' He He'. destruct (H i Hi) as (e1 & t & tags & ys & A1 & A2 & A3 & A4 & A5 & A6). destruct (H' i' Hi') as (e2 & t' & tags' & ys' & B1 & B2 & B3 & B4 & B5 & B6).
    assert (e1 = e) as -> by congruence. assert (e2 = e) as -> by congruence. assert (t' = t) as -> by congruence. rewrite A6, B6. f_equal. apply fold_perm; [exact HC|].
    set (K := nodup vecZ_dec (map snd tags ++ map snd tags')).
    assert (HK : forall k, In k K -> lattice pa k).
    { intros k Hk. apply nodup_In in Hk. apply in_app_or in Hk as [Hk|Hk]; apply in_map_iff in Hk as (((s, j), k') & <- & Hk); apply In_nth_error in Hk as (m & Hm);
        [destruct (Forall2_nth' _ _ _ A4 m _ Hm) as (y & _ & rs & (Hl & _) & _)|destruct (Forall2_nth' _ _ _ B4 m _ Hm) as (y & _ & rs & (Hl & _) & _)]; exact Hl. }
    rewrite (canonical E t _ tags ys K A3 A4 A5 (NoDup_nodup _ _)) by (exact HK || (intros tag Ht; apply nodup_In, in_or_app; left; apply in_map; exact Ht)).
    rewrite (canonical E' t _ tags' ys' K B3 B4 B5 (NoDup_nodup _ _)) by (exact HK || (intros tag Ht; apply nodup_In, in_or_app; right; apply in_map; exact Ht)).
    apply Permutation_flat_map. clear - HP. induction HP; cbn [list_prod]; [constructor|apply Permutation_app_head; assumption|rewrite !app_assoc; apply Permutation_app_tail, Permutation_app_comm|etransitivity; eassumption].
  Qed.
End Ranks.

Theorem mix_same {EPT EPS FPT FPS Force : Type} (PT : particle (vec R) R EPT) (PS : particle (vec R) R EPS) (copyT : FPT -> EPT) (copyS : FPS -> EPS) near (zero : Force) add pa root
  (k k' : nat -> stage R_arith EPT EPS Force) q q' doms doms' limit limit' grpLimit grpLimit' data data' E E' :
  lawful PT -> lawful PS -> short PT PS near -> commutes add -> prepared PT PS copyT copyS pa root doms limit grpLimit k q data E -> prepared PT PS copyT copyS pa root doms' limit' grpLimit' k' q' data' E' ->
  Permutation (concat E) (concat E') ->
  exists F, forall fuel, (F <= fuel)%nat -> exists res res',
    mixForces (N := R_arith) PT PS copyT copyS (nearKernel near zero add) (fun _ => zero) k q Ztrunc fuel pa root doms limit grpLimit data = Done res /\
    mixForces (N := R_arith) PT PS copyT copyS (nearKernel near zero add) (fun _ => zero) k' q' Ztrunc fuel pa root doms' limit' grpLimit' data' = Done res' /\
    forall r r' d d' own own' forces forces' i i' e, nth_error data r = Some d -> nth_error data' r' = Some d' -> nth_error E r = Some own -> nth_error E' r' = Some own' ->
      nth_error res r = Some forces -> nth_error res' r' = Some forces' -> (i < length (fst d))%nat -> (i' < length (fst d'))%nat -> nth_error own i = Some e -> nth_error own' i' = Some e ->
      nth_error forces i = nth_error forces' i'.
Proof.
  intros LT LS Hs HC H H' HP. destruct (mix_ranks PT PS copyT copyS near zero add k q pa root doms limit grpLimit data E LT LS Hs H) as (F & HF). destruct (mix_ranks PT PS copyT copyS near zero add k' q' pa root doms' limit' grpLimit' data' E' LT LS Hs H') as (F' & HF').
  exists (F + F')%nat. intros fuel Hf. destruct (HF fuel ltac:(lia)) as (res & R1 & R2 & R3). destruct (HF' fuel ltac:(lia)) as (res' & R1' & R2' & R3'). exists res, res'. split; [exact R1|]. split; [exact R1'|].
  intros r r' d d' own own' forces forces' i i' e Hd Hd' Ho Ho' Hr Hr' Hi Hi' He He'. exact (same_force PS near zero add pa root E E' own own' _ _ forces forces' i i' e HC HP (R3 r d own forces Hd Ho Hr) (R3' r' d' own' forces' Hd' Ho' Hr') Hi Hi' He He').
Qed.
