(** Proofs about link collection. *)
From Coq Require Import List Arith ZArith Bool Reals Lra Lia Permutation.
From Flocq Require Import Core.
From Verif Require Import Outcome ListUtil Arith ParticleModel VecModel VecSpec VecProofs ConModel ConProofs IndexModel IndexProofs IndexSpec GeoModel GeoSpec GeoProofs
  SylModel SylProofs BoundaryModel QueueProofs SegModel SegProofs NearModel NearSpec NearProofs LinkModel LinkSpec.
Import ListNotations.
Local Open Scope R_scope.

(** ** One link *)
Lemma axisImage_R : forall (pbc : bool) (low high trg x : R), (pbc = true -> low < high) -> (pbc = true -> low <= trg < high) ->
  exists n, forall fuel, (n <= fuel)%nat -> exists y, axisImage (N := R_arith) fuel pbc low high trg x = Done (Some y) /\
    (pbc = true -> nearest_image (high - low) x trg y) /\ (pbc = false -> y = x).
Proof.
  intros pbc low high trg x HL HT. unfold axisImage. destruct pbc.
  - specialize (HL eq_refl). specialize (HT eq_refl). destruct (findPBCImageTrg_R low high x trg HL) as [n Hn]. exists n. intros fuel Hf.
    destruct (Hn fuel Hf) as (y & t & E & _ & _ & Ht & Hy & Hd). rewrite E. cbn [obind]. rewrite (Ht HT) in *. rewrite half_R. rarith.
    exists y. split; [|split; [intros _; exact Hy|discriminate]]. rewrite Rlt_bool_false; [reflexivity|]. rewrite Rabs_minus_sym. lra.
  - exists 0%nat. intros fuel _. exists x. split; [reflexivity|]. split; [discriminate|reflexivity].
Qed.

Lemma linkCenter_R : forall (c : lconfig) (t x : vec R_arith), box_ok c -> in_box c t ->
  exists n, forall fuel, (n <= fuel)%nat -> exists y, linkCenter (N := R_arith) fuel c t x = Done (Some y) /\ nearest_copy c x t y.
Proof.
  intros c t x HB HT.
  destruct (axisImage_R (vx (lk_pbc c)) (vx (lk_low c)) (vx (lk_high c)) (vx t) (vx x) (HB 0%nat ltac:(lia)) (HT 0%nat ltac:(lia))) as [n1 H1].
  destruct (axisImage_R (vy (lk_pbc c)) (vy (lk_low c)) (vy (lk_high c)) (vy t) (vy x) (HB 1%nat ltac:(lia)) (HT 1%nat ltac:(lia))) as [n2 H2].
  destruct (axisImage_R (vz (lk_pbc c)) (vz (lk_low c)) (vz (lk_high c)) (vz t) (vz x) (HB 2%nat ltac:(lia)) (HT 2%nat ltac:(lia))) as [n3 H3].
  exists (n1 + n2 + n3)%nat. intros fuel Hf.
  destruct (H1 fuel ltac:(lia)) as (y1 & E1 & A1 & B1). destruct (H2 fuel ltac:(lia)) as (y2 & E2 & A2 & B2). destruct (H3 fuel ltac:(lia)) as (y3 & E3 & A3 & B3).
  exists (Vec y1 y2 y3). split.
  - unfold linkCenter. rewrite E1. cbn [obind]. rewrite E2. cbn [obind]. rewrite E3. reflexivity.
  - intros d Hd. destruct d as [|[|[|d]]]; try lia; cbn [vget vx vy vz]; auto.
Qed.

Lemma linkBlock_R : forall (c : lconfig) (a b : sylinder R_arith), box_ok c -> in_box c (spos a) ->
  exists n, forall fuel, (n <= fuel)%nat -> exists k, linkBlock (N := R_arith) fuel PI c a (copyFromFP (N := R_arith) b) = Done (Some k) /\ link_block c a b k.
Proof.
  intros c a b HB HT. destruct (linkCenter_R c (spos a) (spos b) HB HT) as [n Hn]. exists n. intros fuel Hf. destruct (Hn fuel Hf) as (cb & E & HC).
  unfold linkBlock. cbn [copyFromFP e_pos e_dir e_length e_radius e_gid e_index]. rewrite E. cbn [obind]. rewrite half_R. rarith. vecR.
  replace (scale3 (/ 2 * slength a) (axis (N := R_arith) a)) with (scale3 (slength a / 2) (axis (N := R_arith) a)) by (apply f_equal2; [rring || field|reflexivity]).
  replace (scale3 (/ 2 * slength b) (axis (N := R_arith) b)) with (scale3 (slength b / 2) (axis (N := R_arith) b)) by (apply f_equal2; [rring || field|reflexivity]).
  set (P := add3 (spos a) (scale3 (slength a / 2) (axis (N := R_arith) a))).
  set (Q := sub3 cb (scale3 (slength b / 2) (axis (N := R_arith) b))).
  change (norm3 (sub3 Q P)) with (dist3 Q P). rewrite (dist3_sym Q P).
  match goal with |- context [setStressMat ?B ?m] => destruct (set_get_stress B m) as (k & E1 & E2 & _ & E3); [reflexivity|]; rewrite E1 end.
  exists k. split; [reflexivity|]. exists cb. split; [exact HC|]. cbv zeta. fold P Q. rewrite E3. destruct (normal_ok P Q) as [N1 N2].
  cbn [withGammaStress delta0 gamma gammaLB kappa oneSide bilateral gidI gidJ globalIndexI globalIndexJ posI posJ labI labJ normI normJ mkBlock].
  rewrite gamma_R. do 15 (split; [reflexivity|]). split; [exact N1|].
  intro H. destruct (N2 H) as [N3 N4]. split; [exact N4|]. split; [exact N3|].
  eexists. split; [rewrite E3 in E2; exact E2|]. intros i Hi. apply collideStress_R; assumption.
Qed.

Lemma finite_bound : forall {A} (P : A -> nat -> Prop) (l : list A), (forall a, In a l -> exists n, forall fuel, (n <= fuel)%nat -> P a fuel) ->
  exists n, forall fuel, (n <= fuel)%nat -> forall a, In a l -> P a fuel.
Proof.
  intros A P. induction l as [|x l IH]; intro H; [exists 0%nat; intros fuel _ a []|].
  destruct IH as [n1 H1]; [intros; apply H; right; assumption|]. destruct (H x (or_introl eq_refl)) as [n2 H2].
  exists (n1 + n2)%nat. intros fuel Hf a [<-|Ha]; [apply H2; lia|apply H1; [lia|assumption]].
Qed.

(** ** Lists *)
Lemma read_run : forall {A B} (f : A -> outcome B) (pre mid post : list A),
  omap (fun j => do x <- mread (pre ++ mid ++ post) j; f x) (seq (length pre) (length mid)) = omap f mid.
Proof.
  intros A B f pre mid. revert pre. induction mid as [|x mid IH]; intros pre post; [reflexivity|].
  cbn [length seq omap].
  assert (E : mread (pre ++ (x :: mid) ++ post) (length pre) = Done x).
  { unfold mread. rewrite nth_error_app2 by lia. rewrite Nat.sub_diag. reflexivity. }
  rewrite E. cbn [obind]. specialize (IH (pre ++ [x]) post). rewrite app_length in IH. cbn [length] in IH.
  replace (S (length pre)) with (length pre + 1)%nat by lia. rewrite <- app_assoc in IH. cbn [app] in IH. cbn [app]. rewrite IH. reflexivity.
Qed.

Lemma allSome_map : forall {A} (l : list A), allSome (map Some l) = Some l.
Proof. induction l as [|a l IH]; [reflexivity|]. cbn. rewrite IH. reflexivity. Qed.

Lemma omap_ext_in : forall {A B} (f g : A -> outcome B) l, (forall a, In a l -> f a = g a) -> omap f l = omap g l.
Proof. intros A B f g l H. induction l as [|a l IH]; [reflexivity|]. cbn. rewrite (H a (or_introl eq_refl)), IH; [reflexivity|]. intros; apply H; right; assumption. Qed.

Lemma wrap_some : forall {A S} (ss : list S) (f : S -> A) (who : nat -> nat) (order : list nat) work,
  omap (fun i => do s <- mread ss i; Done (who i, f s)) order = Done work ->
  omap (fun i => do s <- mread ss i; Done (who i, Some (f s))) order = Done (map (fun w => (fst w, Some (snd w))) work).
Proof.
  intros A S ss f who. induction order as [|i order IH]; intros work H.
  - cbn in H. injection H as <-. reflexivity.
  - cbn [omap] in *. destruct (mread ss i) as [s| |]; cbn [obind] in *; try discriminate.
    destruct (omap _ order) as [w| |] eqn:E; cbn [obind] in *; try discriminate. injection H as <-. rewrite (IH w eq_refl). reflexivity.
Qed.

Lemma combine_map_some : forall {A} (work : list (nat * A)),
  combine (map fst (map (fun w => (fst w, Some (snd w))) work)) (map snd work) = work.
Proof. intros A work. rewrite map_map. induction work as [|[a b] w IH]; [reflexivity|]. cbn. f_equal. exact IH. Qed.

(** ** One rank *)
Section Rank.
  Variable c : lconfig.
  Variables (fresh : nearEP R_arith) (junk : Z -> nearEP R_arith) (dir0 : list (Z * nearEP R_arith)).
  Variable sys : list (list (sylinder R_arith)).
  Hypothesis HB : box_ok c.
  Hypothesis HN : NoDup (map s_gid (concat sys)).
  Hypothesis HI : Forall (fun s => in_box c (spos s)) (concat sys).

  Let all := concat sys.
  Let dir := buildIndex dir0 (map (publishNear (N := R_arith)) sys).

  Lemma published : concat (map (publishNear (N := R_arith)) sys) = map (fun s => (s_gid s, copyFromFP (N := R_arith) s)) all.
  Proof. unfold all. clear. induction sys as [|x s IH]; [reflexivity|]. cbn. rewrite map_app, IH. reflexivity. Qed.

  Lemma lookup_known : forall b, In b all -> ddLookup dir (s_gid b) = Some (copyFromFP (N := R_arith) b).
  Proof.
    intros b Hb. unfold dir, buildIndex, ddUpdate. rewrite published.
    assert (X : ddLookup (List.rev (map (fun s => (s_gid s, copyFromFP (N := R_arith) s)) all)) (s_gid b) = Some (copyFromFP (N := R_arith) b)).
    { apply ddLookup_in.
      - rewrite map_rev, map_map. cbn [fst]. apply NoDup_rev. exact HN.
      - apply -> in_rev. apply in_map_iff. exists b. auto. }
    rewrite ddLookup_app, X. reflexivity.
  Qed.

  Definition lookup (id : Z) : nearEP R_arith := match ddLookup dir id with Some d => d | None => junk id end.
  Definition made (fuel : nat) (lm : list (Z * Z)) (s : sylinder R_arith) : list (block R_arith) :=
    match omap (linkBlock (N := R_arith) fuel PI c s) (map lookup (nexts lm (s_gid s))) with
    | Done l => match allSome l with Some ks => ks | None => [] end | _ => [] end.

  Variable lm : list (Z * Z).
  Hypothesis HL : forall l, In l lm -> In (fst l) (map s_gid all) -> In (snd l) (map s_gid all).

  Definition pair_good (fuel : nat) (ab : sylinder R_arith * sylinder R_arith) : Prop :=
    exists k, linkBlock (N := R_arith) fuel PI c (fst ab) (copyFromFP (N := R_arith) (snd ab)) = Done (Some k) /\ link_block c (fst ab) (snd ab) k.

  Lemma fuel_bound : exists n, forall fuel, (n <= fuel)%nat -> forall ab, In ab (list_prod all all) -> pair_good fuel ab.
  Proof.
    apply (finite_bound (fun ab fuel => pair_good fuel ab)). intros [a b] Hab. apply in_prod_iff in Hab. destruct Hab as [Ha _].
    apply linkBlock_R; [exact HB|]. rewrite Forall_forall in HI. apply HI, Ha.
  Qed.

  Lemma made_ok : forall fuel, (forall ab, In ab (list_prod all all) -> pair_good fuel ab) -> forall s, In s all ->
    omap (linkBlock (N := R_arith) fuel PI c s) (map lookup (nexts lm (s_gid s))) = Done (map Some (made fuel lm s)) /\
    Forall2 (link_made c all) (filter (fun l => Z.eqb (fst l) (s_gid s)) lm) (made fuel lm s).
  Proof.
    intros fuel HF s Hs. unfold made, nexts.
    assert (Hk : forall l, In l (filter (fun l => Z.eqb (fst l) (s_gid s)) lm) -> fst l = s_gid s /\ In (snd l) (map s_gid all)).
    { intros l Hl. apply filter_In in Hl. destruct Hl as [Hl E]. apply Z.eqb_eq in E. split; [exact E|]. apply HL; [exact Hl|]. rewrite E. apply in_map, Hs. }
    induction (filter (fun l => Z.eqb (fst l) (s_gid s)) lm) as [|l ls IH]; [split; [reflexivity|constructor]|].
    destruct IH as [IH1 IH2]; [intros; apply Hk; right; assumption|].
    destruct (Hk l (or_introl eq_refl)) as [E1 E2]. apply in_map_iff in E2. destruct E2 as (b & Eb & Hb).
    cbn [map omap].
    assert (EL : lookup (snd l) = copyFromFP (N := R_arith) b) by (unfold lookup; rewrite <- Eb, lookup_known by exact Hb; reflexivity).
    rewrite EL. destruct (HF (s, b)) as (k & Ek & Hk'); [apply in_prod; assumption|]. cbn [fst snd] in *. rewrite Ek. cbn [obind].
    rewrite IH1 in *. cbn [obind]. cbn [allSome]. rewrite allSome_map in *. split; [reflexivity|].
    constructor; [|exact IH2]. exists s, b. split; [exact Hs|]. split; [exact Hb|]. split; [symmetry; exact E1|]. split; [exact Eb|exact Hk'].
  Qed.

  Lemma iteration_ok : forall fuel data0, (forall ab, In ab (list_prod all all) -> pair_good fuel ab) ->
    forall ss, (forall s, In s ss -> In s all) -> forall i s, nth_error ss i = Some s ->
    linkIteration (N := R_arith) fuel PI c ss (psum (map (fun s => length (nexts lm (s_gid s))) ss))
      (fst (zddFind fresh junk dir (flat_map (fun s => nexts lm (s_gid s)) ss) data0)) i = Done (Some (made fuel lm s)).
  Proof.
    intros fuel data0 HF ss Hss i s Hi. pose proof Hi as Hi'. apply nth_error_split in Hi'. destruct Hi' as (s1 & s2 & Es & Li).
    unfold linkIteration, mread. rewrite Hi. cbn [obind].
    assert (Hlen : (S i <= length (map (fun s => length (nexts lm (s_gid s))) ss))%nat) by (rewrite map_length, Es, app_length; cbn; lia).
    rewrite !psum_nth by lia. cbn [obind].
    assert (ES : forall l : list (sylinder R_arith), sum_list (map (fun s => length (nexts lm (s_gid s))) l) = length (flat_map (fun s => nexts lm (s_gid s)) l)).
    { intro l. induction l as [|x l IHl]; [reflexivity|]. cbn [map flat_map]. rewrite sum_list_cons, app_length, IHl. reflexivity. }
    assert (F1 : firstn i (map (fun s => length (nexts lm (s_gid s))) ss) = map (fun s => length (nexts lm (s_gid s))) s1).
    { rewrite Es, map_app, firstn_app, map_length, Li, Nat.sub_diag, firstn_O, app_nil_r. apply firstn_all2. rewrite map_length. lia. }
    rewrite (sum_firstn_S _ _ (length (nexts lm (s_gid s)))) by (rewrite nth_error_map, Hi; reflexivity). rewrite F1, ES.
    replace (length (flat_map (fun s0 => nexts lm (s_gid s0)) s1) + length (nexts lm (s_gid s)) - length (flat_map (fun s0 => nexts lm (s_gid s0)) s1))%nat
      with (length (nexts lm (s_gid s))) by lia.
    unfold zddFind. cbn [fst]. change (fun id => match ddLookup dir id with Some d => d | None => junk id end) with lookup.
    match goal with |- context [map lookup _ ++ ?r] => set (rest := r) end.
    rewrite Es, flat_map_app. cbn [flat_map]. rewrite !map_app, <- !app_assoc.
    pose proof (read_run (linkBlock (N := R_arith) fuel PI c s) (map lookup (flat_map (fun s => nexts lm (s_gid s)) s1)) (map lookup (nexts lm (s_gid s)))
      (map lookup (flat_map (fun s => nexts lm (s_gid s)) s2) ++ rest)) as RR. rewrite !map_length in RR.
    match type of RR with ?L = _ => match goal with |- context [omap ?F ?S] => change (omap F S) with L end end. rewrite RR.
    destruct (made_ok fuel HF s) as [M1 _]; [apply Hss, (nth_error_In _ _ Hi)|]. rewrite M1. cbn [obind]. rewrite allSome_map. reflexivity.
  Qed.

  Lemma rank_ok : forall fuel data0, (forall ab, In ab (list_prod all all) -> pair_good fuel ab) ->
    forall ss order who p, (forall s, In s ss -> In s all) -> Permutation order (seq 0 (length ss)) -> (forall i, (i < length ss)%nat -> (who i < length p)%nat) ->
    exists p' ks, collectLinkBilateral (N := R_arith) fuel PI c fresh junk dir data0 lm ss order who p = Done (Some p') /\ length p' = length p /\
      Permutation (concat p') (concat p ++ ks) /\
      Forall2 (link_made c all) (flat_map (fun s => filter (fun l => Z.eqb (fst l) (s_gid s)) lm) ss) ks.
  Proof.
    intros fuel data0 HF ss order who p Hss HP Hw. unfold collectLinkBilateral.
    destruct (loop_work ss (made fuel lm) who order HP) as (work & E1 & P1 & W1).
    assert (Hin : forall i, In i order -> (i < length ss)%nat) by (intros i Hi; apply (Permutation_in _ HP) in Hi; apply in_seq in Hi; lia).
    rewrite (omap_ext_in _ (fun i => do s <- mread ss i; Done (who i, Some (made fuel lm s)))).
    - rewrite (wrap_some _ _ _ _ _ E1). cbn [obind].
      replace (map snd (map (fun w => (fst w, Some (snd w))) work)) with (map Some (map snd work)) by (rewrite !map_map; reflexivity).
      rewrite allSome_map, combine_map_some.
      destruct (pushAll_perm work p) as (p' & E2 & L2 & P2); [apply W1, Hw|]. rewrite E2. cbn [obind].
      exists p', (flat_map (made fuel lm) ss). split; [reflexivity|]. split; [exact L2|]. split.
      + rewrite P2. apply Permutation_app_head. exact P1.
      + clear -HF Hss HL HN. induction ss as [|s ss IH]; [constructor|]. cbn [flat_map]. apply Forall2_app.
        * apply (made_ok fuel HF). apply Hss. left. reflexivity.
        * apply IH. intros; apply Hss; right; assumption.
    - intros i Hi. specialize (Hin i Hi). destruct (nth_error ss i) as [s|] eqn:E; [|apply nth_error_None in E; lia].
      rewrite (iteration_ok fuel data0 HF ss Hss i s E). unfold mread. rewrite E. reflexivity.
  Qed.
End Rank.

(** ** All ranks *)
Lemma filter_or : forall {A} (p q : A -> bool) l, (forall a, In a l -> p a = true -> q a = false) ->
  Permutation (filter (fun a => p a || q a) l) (filter p l ++ filter q l).
Proof.
  intros A p q. induction l as [|a l IH]; intro H; [constructor|]. cbn [filter].
  assert (IH' := IH (fun a Ha => H a (or_intror Ha))). specialize (H a (or_introl eq_refl)).
  destruct (p a) eqn:Ep; cbn [orb].
  - rewrite (H eq_refl). cbn [app]. apply perm_skip, IH'.
  - destruct (q a); [|exact IH']. rewrite IH'. apply Permutation_middle.
Qed.

Lemma links_of_app : forall s1 s2 ls, NoDup (map s_gid (s1 ++ s2)) -> Permutation (links_of (s1 ++ s2) ls) (links_of s1 ls ++ links_of s2 ls).
Proof.
  intros s1 s2 ls HN. unfold links_of. rewrite <- filter_or.
  - erewrite filter_ext; [reflexivity|]. intro l. cbv beta. rewrite existsb_app. reflexivity.
  - intros l _ H1. apply not_true_is_false. intro H2. apply existsb_exists in H1, H2. destruct H1 as (a & Ha & Ea). destruct H2 as (b & Hb & Eb).
    apply Z.eqb_eq in Ea, Eb. rewrite map_app in HN. apply (in_map s_gid) in Ha, Hb. rewrite <- Ea in Ha. rewrite <- Eb in Hb.
    apply in_split in Ha. destruct Ha as (x & y & E). rewrite E, <- app_assoc in HN. cbn [app] in HN.
    apply NoDup_remove_2 in HN. apply HN. rewrite !in_app_iff. auto.
Qed.

Lemma links_of_each : forall ss ls, NoDup (map s_gid ss) ->
  Permutation (flat_map (fun s : sylinder R_arith => filter (fun l => Z.eqb (fst l) (s_gid s)) ls) ss) (links_of ss ls).
Proof.
  induction ss as [|s ss IH]; intros ls HN.
  - cbn [flat_map]. unfold links_of. cbn [existsb]. induction ls; [constructor|assumption].
  - change (s :: ss) with ([s] ++ ss) in *. rewrite links_of_app by exact HN. cbn [app flat_map]. apply Permutation_app.
    + unfold links_of. cbn [existsb]. erewrite filter_ext; [reflexivity|]. intro l. cbv beta. rewrite orb_false_r. reflexivity.
    + apply IH. cbn in HN. inversion HN; assumption.
Qed.

Lemma links_once : forall sys ls, NoDup (map s_gid (concat sys)) -> Permutation (flat_map (fun ss => links_of ss ls) sys) (links_of (concat sys) ls).
Proof.
  induction sys as [|ss sys IH]; intros ls HN.
  - unfold links_of. cbn. induction ls; [constructor|assumption].
  - cbn [flat_map concat]. rewrite links_of_app by exact HN. apply Permutation_app_head, IH. cbn in HN. rewrite map_app in HN.
    clear -HN. induction (map s_gid ss) as [|x l IHl]; [exact HN|]. cbn in HN. inversion HN; auto.
Qed.

Lemma links_ok : forall (c : lconfig) fresh junk dir0 (sys : list (list (sylinder R_arith))) (ls : list (Z * Z)),
  box_ok c -> NoDup (map s_gid (concat sys)) -> Forall (fun s => in_box c (spos s)) (concat sys) ->
  (forall l, In l ls -> In (fst l) (map s_gid (concat sys)) -> In (snd l) (map s_gid (concat sys))) ->
  exists n, forall fuel, (n <= fuel)%nat -> forall ss lm data0 order who p, In ss sys -> Permutation lm ls ->
    Permutation order (seq 0 (length ss)) -> (forall i, (i < length ss)%nat -> (who i < length p)%nat) ->
    exists p' js ks, collectLinkBilateral (N := R_arith) fuel PI c fresh junk (buildIndex dir0 (map (publishNear (N := R_arith)) sys)) data0 lm ss order who p = Done (Some p') /\
      length p' = length p /\ Permutation (concat p') (concat p ++ ks) /\
      Permutation js (links_of ss ls) /\ Forall2 (link_made c (concat sys)) js ks.
Proof.
  intros c fresh junk dir0 sys ls HB HN HI HL.
  destruct (fuel_bound c sys HB HI) as [n Hn]. exists n. intros fuel Hf ss lm data0 order who p Hss HP Ho Hw.
  destruct (rank_ok c fresh junk dir0 sys HN lm) with (fuel := fuel) (data0 := data0) (ss := ss) (order := order) (who := who) (p := p) as (p' & ks & E & L & P & F).
  - intros l Hl. apply HL. exact (Permutation_in _ HP Hl).
  - exact (Hn fuel Hf).
  - intros s Hs. apply in_concat. eauto.
  - exact Ho.
  - exact Hw.
  - eexists p', _, ks. split; [exact E|]. split; [exact L|]. split; [exact P|]. split; [|exact F].
    rewrite links_of_each.
    + unfold links_of. apply filter_perm. exact HP.
    + apply in_split in Hss. destruct Hss as (x & y & ->). rewrite concat_app in HN. cbn [concat] in HN. rewrite !map_app in HN.
      clear -HN. induction (map s_gid (concat x)) as [|a l IH]; [|cbn in HN; inversion HN; auto]. cbn [app] in HN.
      induction (map s_gid ss) as [|a l IH]; [constructor|]. cbn in HN. inversion HN as [|? ? N1 N2]; subst. constructor; [|auto]. intro; apply N1, in_app_iff; auto.
Qed.
