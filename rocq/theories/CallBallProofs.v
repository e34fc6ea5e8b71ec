(** Proofs about CallBallSpec: the calls of the neighbour search make the blocks of all spheres that touch. *)
From Coq Require Import List Arith ZArith Lia Bool Permutation Reals Lra.
From Flocq Require Import Core BinarySingleNaN.
From Verif Require Import Outcome ListUtil F64 Arith ParticleModel VecSpec VecModel ConModel SegModel NearModel NearSpec NearProofs TreeModel TreeSpec TreeProofs MortonModel LetModel LetSpec LetProofs LetImages LetSearch CallModel CallSpec CallRoot CallSort CallForce CallProofs CallContact CallOpenSpec CallOpenRoot CallOpenProofs CallBallSpec CallBallReal.
Import ListNotations.

(** ** One pair *)
Lemma contact_ids {N : arith} rev (a b : nearEP N) sep P Q m : exists k, contactBlock rev a b sep P Q m = Done k /\ delta0 k = sep /\ gidI k = (if rev then e_gid b else e_gid a) /\ gidJ k = (if rev then e_gid a else e_gid b).
Proof.
  destruct (contact_done rev a b sep P Q m) as (k & E). exists k. split; [exact E|]. revert E. unfold contactBlock, setStressMat. intros E.
  match type of E with obind ?o _ = _ => destruct o as [s| |]; try discriminate E end. cbn [obind] in E. injection E as <-. destruct rev; repeat split; reflexivity.
Qed.

Lemma pair_ids (Pi : F_arith) (a b : fep) l : nearPair Pi a b = Done l -> l = [] \/ exists k, l = [k] /\ ids k = (e_gid a, e_gid b) /\ (e_gid a < e_gid b)%Z.
Proof.
  unfold nearPair. destruct (Z.leb_spec (e_gid b) (e_gid a)) as [H|H]; [intros E; injection E as <-; now left|].
  assert (G : forall (c : bool) (o : outcome (block F_arith)) l, (exists k, o = Done k /\ gidI k = e_gid a /\ gidJ k = e_gid b) -> (if c then (do b <- o; Done [b]) else Done []) = Done l -> l = [] \/ exists k, l = [k] /\ ids k = (e_gid a, e_gid b) /\ (e_gid a < e_gid b)%Z).
  { intros c o l' (k & -> & K1 & K2) E. destruct c; cbn [obind] in E; injection E as <-; [right; exists k; unfold ids; rewrite K1, K2; auto|now left]. }
  destruct (nearIsSphere a), (nearIsSphere b).
  - unfold sp_sp. apply G. destruct (contact_ids false a b (a_sub (vnorm (vsub (e_pos b) (e_pos a))) (a_add (sphereRadius a) (sphereRadius b))) (e_pos a) (e_pos b)
      (collideStress Pi ez ez (e_pos a) (e_pos b) (a_Z 0) (a_Z 0) (sphereRadius a) (sphereRadius b) (a_Z 1) (e_pos a) (e_pos b))) as (k & K & _ & K1 & K2). exists k. auto.
  - unfold sp_sy. destruct (distPointSeg _ _ _) as (dm & Q). apply G. match goal with |- exists k, contactBlock ?r ?i ?j ?s ?p ?q ?m = _ /\ _ => destruct (contact_ids r i j s p q m) as (k & K & _ & K1 & K2) end. exists k. auto.
  - unfold sp_sy. destruct (distPointSeg _ _ _) as (dm & Q). apply G. match goal with |- exists k, contactBlock ?r ?i ?j ?s ?p ?q ?m = _ /\ _ => destruct (contact_ids r i j s p q m) as (k & K & _ & K1 & K2) end. exists k. auto.
  - unfold sy_sy. apply G. match goal with |- exists k, contactBlock ?r ?i ?j ?s ?p ?q ?m = _ /\ _ => destruct (contact_ids r i j s p q m) as (k & K & _ & K1 & K2) end. exists k. auto.
Qed.

Definition near_here (e : fep) : Prop := forall c, In c coords -> finite (c (e_pos e)) /\ (Rabs (real (c (e_pos e))) <= 2 ^ 100)%R.
Lemma pair_ball (Pi : F_arith) (a b : fep) l : nearPair Pi a b = Done l -> (e_gid a < e_gid b)%Z -> ball_like a -> ball_like b -> near_here a -> near_here b -> (gap a b <= 0)%R ->
  exists k, l = [k] /\ ids k = (e_gid a, e_gid b) /\ finite (delta0 k) /\ (Rabs (real (delta0 k) - gap a b) <= / 2 ^ 49 * (size a + size b))%R.
Proof.
  intros E Hg Ha Hb Na Nb H. unfold nearPair in E. destruct (Z.leb_spec (e_gid b) (e_gid a)) as [X|_]; [lia|]. rewrite (is_sphere a Ha), (is_sphere b Hb) in E.
  destruct (sep_ok a b Ha Hb) as (S1 & S2 & S3); [intros c Hc; destruct (Na c Hc), (Nb c Hc); auto|exact H|]. unfold sp_sp in E. rewrite S3 in E || (change (@a_lt F_arith) with flt in E; change (@a_add F_arith) with fadd in E; change (@a_sub F_arith) with fsub in E; change (@a_mul F_arith) with fmul in E; rewrite S3 in E).
  match type of E with obind (contactBlock ?r ?i ?j ?s ?p ?q ?m) _ = _ => destruct (contact_ids r i j s p q m) as (k & K & K0 & K1 & K2) end. rewrite K in E. cbn [obind] in E. injection E as <-. exists k. split; [reflexivity|]. split; [unfold ids; rewrite K1, K2; reflexivity|]. rewrite K0. split; [exact S1|].
  eapply Rle_trans; [exact S2|]. pose proof (size_range a Ha). pose proof (size_range b Hb). assert (0 < / 2 ^ 100)%R by (apply Rinv_0_lt_compat, pow_lt; lra). rewrite <- Rmult_assoc. apply Rmult_le_compat_r; [lra|]. unfold u. lra.
Qed.

(** ** All pairs *)
Lemma nodup_rel {A B C} (Q : A -> B -> Prop) (h : B -> C) l m : Forall2 Q l m -> NoDup l -> (forall a a' b b', Q a b -> Q a' b' -> h b = h b' -> a = a') -> NoDup (map h m).
Proof.
  intros F ND Inj. induction F as [|a b l m H F IH]; cbn; [constructor|]. inversion ND as [|? ? Hn ND']; subst. constructor; [|exact (IH ND')]. intros X. apply in_map_iff in X. destruct X as (b' & Eb & Hb').
  assert (Y : exists a', In a' l /\ Q a' b'). { clear - F Hb'. induction F as [|x y l m H F IH]; [destruct Hb'|]. destruct Hb' as [->|Hb']; [exists x; split; [now left|exact H]|]. destruct (IH Hb') as (a' & ? & ?). exists a'. split; [now right|assumption]. }
  destruct Y as (a' & Ha' & Q'). apply Hn. rewrite (Inj a a' b b' H Q' (eq_sym Eb)). exact Ha'.
Qed.
Lemma one_place {A} (g : A -> Z) (E : list (list A)) : NoDup (map g (concat E)) -> forall s s' l l' i i' e e', nth_error E s = Some l -> nth_error l i = Some e -> nth_error E s' = Some l' -> nth_error l' i' = Some e' -> g e = g e' -> s = s' /\ i = i'.
Proof.
  induction E as [|x E IH]; intros ND s s' l l' i i' e e' H1 H2 H3 H4 Hg; [destruct s; discriminate|]. cbn [concat] in ND. rewrite map_app in ND.
  assert (In' : forall s l i e, nth_error E s = Some l -> nth_error l i = Some e -> In (g e) (map g (concat E))) by (intros ? k ? ? X Y; apply in_map, in_concat; exists k; split; eauto using nth_error_In).
  assert (Dis : forall z, In z (map g x) -> In z (map g (concat E)) -> False). { clear - ND. intros z Hx Hy. induction (map g x) as [|y m IH]; [destruct Hx|]. cbn in ND. inversion ND; subst. destruct Hx as [->|Hx]; [apply H1; apply in_or_app; now right|auto]. }
  destruct s as [|s], s' as [|s']; cbn [nth_error] in H1, H3.
  - injection H1 as <-. injection H3 as <-. split; [reflexivity|]. assert (NDx : NoDup (map g x)) by (clear - ND; induction (map g x) as [|y m IH]; [constructor|]; cbn in ND; inversion ND; subst; constructor; [intros Y; apply H1; apply in_or_app; now left|auto]).
    rewrite NoDup_nth_error in NDx. apply NDx; [rewrite map_length; apply nth_error_Some; congruence|]. rewrite !nth_error_map, H2, H4. cbn. congruence.
  - exfalso. injection H1 as <-. apply (Dis (g e)); [apply in_map; eauto using nth_error_In|rewrite Hg; eauto].
  - exfalso. injection H3 as <-. apply (Dis (g e')); [apply in_map; eauto using nth_error_In|rewrite <- Hg; eauto].
  - assert (ND' : NoDup (map g (concat E))) by (clear - ND; induction (map g x) as [|y m IH]; [exact ND|]; cbn in ND; inversion ND; subst; auto). destruct (IH ND' s s' l l' i i' e e' H1 H2 H3 H4 Hg) as (-> & ->). auto.
Qed.

Section Balls.
  Context (E : list (list (item F_arith fep))) (Hsite : forall e, In e (concat E) -> i_site e = siteOf (i_pay e)) (Hpos : forall e, In e (concat E) -> near_here (i_pay e)) (Hgid : NoDup (map (fun e => e_gid (i_pay e)) (concat E))).

  Lemma calls_balls {Fo} (func : list (item F_arith fep) -> list (item F_arith fep) -> list Fo -> list Fo) clear threads Pi r own x p : nth_error E r = Some own -> served real loose open (fun _ f => f) E func clear threads own x -> length p = threads ->
    exists p' blocks, nearCalls Pi (objects (fst x)) p = Done p' /\ Permutation (concat p') (concat p ++ blocks) /\ found E own blocks.
  Proof using Hsite Hpos Hgid.
    intros Hr (_ & Hth & its & F & HP) Lp.
    destruct (NearProofs.calls_ok (N := F_arith) Pi (objects (fst x)) p) as (p' & ls & E1 & _ & E2 & E3).
    { apply Forall_forall. intros c Hc. unfold objects in Hc. apply in_map_iff in Hc. destruct Hc as (c0 & <- & Hc). cbn [fst]. rewrite Lp. apply Hth. apply in_map. exact Hc. }
    exists p', (concat ls). split; [exact E1|]. split; [exact E3|].
    set (all := flat_map (fun it : list Z * list (nat * Z * vec Z) => list_prod (fst it) (snd it)) its).
    set (pairOk := fun (t : Z * (nat * Z * vec Z)) (ab : fep * fep) => exists e f', at_ own (fst t) e /\ names open (fun _ f => f) E (snd t) f' /\ ab = (i_pay e, i_pay f')).
    assert (FA : Forall2 pairOk all (delivered (objects (fst x)))).
    { unfold delivered, objects. rewrite flat_map_concat_map, map_map. rewrite <- (flat_map_concat_map (fun c : nat * (list (item F_arith fep) * list (item F_arith fep)) => list_prod (map i_pay (fst (snd c))) (map i_pay (snd (snd c))))).
      apply Forall2_flat. revert F. apply Forall2_imp. intros (is & tags) (t & (epi & epj)) _ _ (A1 & _ & A3 & _). cbn [fst snd].
      assert (G : Forall2 (fun x y => (exists e, at_ own (fst x) e /\ fst y = i_pay e) /\ (exists f', names open (fun _ f => f) E (snd x) f' /\ snd y = i_pay f')) (list_prod is tags) (list_prod (map i_pay epi) (map i_pay epj))).
      { apply (Forall2_prod (fun i a => exists e, at_ own i e /\ a = i_pay e) (fun t b => exists f', names open (fun _ f => f) E t f' /\ b = i_pay f')); apply Forall2_map_r; [revert A1|revert A3]; apply Forall2_imp; eauto. }
      revert G. apply Forall2_imp. intros (i & tg) (a & b) _ _ ((e & B1 & B2) & (f' & B3 & B4)). cbn [fst snd] in *. exists e, f'. cbn [fst snd]. subst. auto. }
    assert (ND : NoDup all).
    { unfold all. assert (NDi : NoDup (concat (map fst its))) by (apply (Permutation_NoDup (Permutation_sym HP)); apply nodup_map; [apply seq_NoDup|intros; lia]).
      assert (NDt : forall it, In it its -> NoDup (snd it)) by (intros (is & tags) Hit; destruct (Forall2_at' _ _ _ _ F Hit) as ((t & (epi & epj)) & _ & _ & X & _); exact X).
      clear - NDi NDt. induction its as [|it its IH]; cbn in *; [constructor|]. apply nodup_app.
      - apply nodup_prod; [clear - NDi; induction (fst it) as [|a l IH]; cbn in *; [constructor|]; inversion NDi; subst; constructor; [intros H; apply H1; apply in_or_app; now left|auto]|apply NDt; now left].
      - apply IH; [|intros it' Hit; apply NDt; now right]. clear - NDi. induction (fst it) as [|a l IH']; cbn in *; [exact NDi|]. inversion NDi; subst. auto.
      - intros (i & t) H1 H2. apply in_prod_iff in H1. apply in_flat_map in H2. destruct H2 as (it' & Hit' & H2). apply in_prod_iff in H2. clear - NDi H1 H2 Hit'. destruct H1 as (H1 & _), H2 as (H2 & _).
        assert (X : In i (concat (map fst its))) by (apply in_concat; exists (fst it'); split; [apply in_map; exact Hit'|exact H2]). induction (fst it) as [|a l IH]; [destruct H1|]. cbn in NDi. inversion NDi; subst. destruct H1 as [->|H1]; [|auto]. apply H3. apply in_or_app. now right. }
    set (hit := fun (t : Z * (nat * Z * vec Z)) (b : block F_arith) => exists e l f, at_ own (fst t) e /\ nth_error E (fst (fst (snd t))) = Some l /\ at_ l (snd (fst (snd t))) f /\ snd (snd t) = origin /\ ids b = (e_gid (i_pay e), e_gid (i_pay f)) /\ (e_gid (i_pay e) < e_gid (i_pay f))%Z).
    assert (Keep : forall all ds ls, NoDup all -> Forall2 pairOk all ds -> Forall2 (fun ij l => nearPair Pi (fst ij) (snd ij) = Done l) ds ls ->
      (exists ts, NoDup ts /\ (forall t, In t ts -> In t all) /\ Forall2 hit ts (concat ls)) /\ forall t ab, In t all -> pairOk t ab -> exists l, nearPair Pi (fst ab) (snd ab) = Done l /\ incl l (concat ls)).
    { clear. intros all ds ls ND FA. revert ls ND. induction FA as [|t ab all ds Ht FA IH]; intros ls ND FL; [inversion FL; subst; split; [exists []; split; [constructor|]; split; [intros t []|constructor]|intros t ab []]|].
      inversion FL as [|? l ? ls' El FL']; subst. inversion ND as [|? ? Hn ND']; subst. destruct (IH ls' ND' FL') as ((ts & T1 & T2 & T3) & T4). cbn [concat]. split.
      - destruct Ht as (e & f' & He & Hf & ->). cbn [fst snd] in El. destruct t as (i & ((s & j) & k)). cbn [fst snd] in He, Hf. destruct Hf as (Hk & l0 & f & Hs & Hj & ->).
        destruct (pair_ids _ _ _ _ El) as [->|(b & -> & B1 & B2)]; cbn [app].
        + exists ts. split; [exact T1|]. split; [intros t X; right; auto|exact T3].
        + exists ((i, (s, j, k)) :: ts). split; [constructor; [intros X; apply Hn, T2, X|exact T1]|]. split; [intros t [<-|X]; [now left|right; auto]|]. constructor; [|exact T3]. exists e, l0, f. cbn [fst snd]. split; [exact He|]. split; [exact Hs|]. split; [exact Hj|]. split; [apply open_origin; exact Hk|]. auto.
      - intros t' ab' [<-|X] Hp.
        + assert (ab' = ab) as ->. { destruct Ht as (e & f & He & Hf & ->), Hp as (e2 & f2 & He2 & Hf2 & ->). destruct t as (i & ((s & j) & k)). cbn [fst snd] in *. destruct Hf as (_ & l1 & g & X1 & (_ & X2) & ->), Hf2 as (_ & l2 & g2 & Y1 & (_ & Y2) & ->), He as (_ & He), He2 as (_ & He2). assert (l2 = l1) as -> by congruence. congruence. }
          exists l. split; [exact El|apply incl_appl, incl_refl].
        + destruct (T4 t' ab' X Hp) as (l' & L1 & L2). exists l'. split; [exact L1|apply incl_appr; exact L2]. }
    destruct (Keep all _ ls ND FA E2) as ((ts & T1 & T2 & T3) & T4). clear Keep. split; [|split].
    - apply (nodup_rel hit ids ts _ T3 T1). intros (i & ((s & j) & k)) (i' & ((s' & j') & k')) b b' (e & l & f & A1 & A2 & A3 & A4 & A5 & _) (e' & l' & f' & B1 & B2 & B3 & B4 & B5 & _) Eq. cbn [fst snd] in *. rewrite A5, B5 in Eq. injection Eq as Q1 Q2. destruct A1 as (I1 & A1), B1 as (I2 & B1), A3 as (J1 & A3), B3 as (J2 & B3).
      destruct (one_place (fun e : item F_arith fep => e_gid (i_pay e)) E Hgid r r own own _ _ e e' Hr A1 Hr B1 Q1) as (_ & Qi). destruct (one_place (fun e : item F_arith fep => e_gid (i_pay e)) E Hgid s s' l l' _ _ f f' A2 A3 B2 B3 Q2) as (-> & Qj).
      apply Z2Nat.inj in Qi; [|exact I1|exact I2]. apply Z2Nat.inj in Qj; [|exact J1|exact J2]. subst. reflexivity.
    - intros b Hb. assert (Y : exists t, hit t b). { clear - T3 Hb. induction T3 as [|t y l m H T3 IH]; [destruct Hb|]. destruct Hb as [->|Hb]; [exists t; exact H|auto]. }
      destruct Y as (t & e & l & f & A1 & A2 & A3 & _ & A5 & A6). exists e, f. destruct A1 as (_ & A1), A3 as (_ & A3). split; [eauto using nth_error_In|]. split; [apply in_concat; exists l; split; eauto using nth_error_In|]. split; [exact A5|]. unfold ids in A5. injection A5 as -> ->. exact A6.
    - intros e f He Hf Hg Be Bf Hgap. assert (He' : In e (concat E)) by (apply in_concat; exists own; split; [eauto using nth_error_In|exact He]).
      apply In_nth_error in He. destruct He as (i & He). assert (Hf' := Hf). apply in_concat in Hf. destruct Hf as (l & Hl & Hf). apply In_nth_error in Hl, Hf. destruct Hl as (s & Hl), Hf as (j & Hf).
      assert (Ai : at_ own (Z.of_nat i) e) by (split; [lia|rewrite Nat2Z.id; exact He]). assert (Aj : at_ l (Z.of_nat j) f) by (split; [lia|rewrite Nat2Z.id; exact Hf]). assert (Hk : lattice open origin) by (repeat split).
      assert (Hall : In (Z.of_nat i, (s, Z.of_nat j, origin)) all).
      { assert (Hi : In (Z.of_nat i) (concat (map fst its))). { apply (Permutation_in _ (Permutation_sym HP)). apply in_map. apply in_seq. split; [lia|]. cbn. apply nth_error_Some. congruence. }
        apply in_concat in Hi. destruct Hi as (is & His & Hi). apply in_map_iff in His. destruct His as ((is' & tags) & Es & Hit). cbn in Es. subst is'. unfold all. apply in_flat_map. exists (is, tags). split; [exact Hit|]. apply in_prod; [exact Hi|].
        destruct (Forall2_at' _ _ _ _ F Hit) as ((t & (epi & epj)) & _ & _ & _ & _ & X & _). apply (X _ e s l _ f origin Hi Ai Hl Aj Hk). rewrite (Hsite e He'), (Hsite f Hf'). apply balls_see; assumption. }
      destruct (T4 _ (i_pay e, i_pay f) Hall) as (l' & L1 & L2); [exists e, f; cbn [fst snd]; split; [exact Ai|]; split; [split; [exact Hk|]; exists l, f; auto|reflexivity]|]. cbn [fst snd] in L1.
      destruct (pair_ball Pi _ _ l' L1 Hg Be Bf (Hpos e He') (Hpos f Hf') Hgap) as (k & -> & K1 & K2 & K3). exists k. split; [apply L2; now left|]. auto.
  Qed.
End Balls.

Lemma call_balls {Fo} (func : list (item F_arith fep) -> list (item F_arith fep) -> list Fo -> list Fo) clear q threads root doms limit grpLimit (E : list (list (item F_arith fep))) :
  arena_open root doms E -> (forall r, any_cast (length doms) threads limit (length (nth r E [])) (q r)) -> (1 <= limit <= grpLimit)%Z -> (forall epi epj fs, length fs = length epi -> length (func epi epj fs) = length fs) ->
  (forall e, In e (concat E) -> i_site e = siteOf (i_pay e)) -> NoDup (map (fun e => e_gid (i_pay e)) (concat E)) ->
  forall fuel, exists res, calcForceAll func clear q f_cast fuel open root doms limit grpLimit E = Done res /\ length res = length E /\
    forall Pi r own x p, nth_error E r = Some own -> nth_error res r = Some x -> length p = threads ->
      exists p' blocks, nearCalls Pi (objects (fst x)) p = Done p' /\ Permutation (concat p') (concat p ++ blocks) /\ found E own blocks.
Proof.
  intros HA Hq Hl Hf Hs Hg fuel. destruct (call_open q threads root doms limit grpLimit E func clear HA Hq Hl Hf fuel) as (res & E1 & E2 & E3). exists res. split; [exact E1|]. split; [exact E2|].
  intros Pi r own x p Hr Hx Lp. apply (calls_balls E Hs) with (func := func) (clear := clear) (threads := threads) (r := r); [|exact Hg|exact Hr|apply E3 with (r := r); assumption|exact Lp].
  intros e He c Hc. destruct (w_pos _ _ _ HA e c He Hc) as (A & B). rewrite (Hs e He) in A, B. exact (conj A B).
Qed.

Lemma all_ranks E blocks : NoDup (map (fun e : item F_arith fep => e_gid (i_pay e)) (concat E)) -> Forall2 (found E) E blocks ->
  NoDup (map ids (concat blocks)) /\
  forall e f, In e (concat E) -> In f (concat E) -> (e_gid (i_pay e) < e_gid (i_pay f))%Z -> ball_like (i_pay e) -> ball_like (i_pay f) -> (gap (i_pay e) (i_pay f) <= 0)%R ->
    exists b, In b (concat blocks) /\ ids b = (e_gid (i_pay e), e_gid (i_pay f)).
Proof.
  intros ND F. split.
  - assert (G : forall L bs, NoDup (map (fun e : item F_arith fep => e_gid (i_pay e)) (concat L)) -> Forall2 (found E) L bs -> NoDup (map ids (concat bs)) /\ forall b, In b (concat bs) -> exists e, In e (concat L) /\ gidI b = e_gid (i_pay e)).
    { clear. intros L bs ND F. induction F as [|own b L bs (H1 & H2 & _) F IH]; [split; [constructor|intros b []]|]. cbn [concat] in *. rewrite map_app in ND.
      assert (ND' : NoDup (map (fun e : item F_arith fep => e_gid (i_pay e)) (concat L))) by (clear - ND; induction (map _ own) as [|y m IH]; [exact ND|]; cbn in ND; inversion ND; subst; auto). destruct (IH ND') as (I1 & I2). split.
      - rewrite map_app. apply nodup_app; [exact H1|exact I1|]. intros z Z1 Z2. apply in_map_iff in Z1, Z2. destruct Z1 as (b1 & <- & B1), Z2 as (b2 & Eb & B2). destruct (H2 b1 B1) as (e1 & f1 & X1 & _ & X2 & _). destruct (I2 b2 B2) as (e2 & Y1 & Y2). unfold ids in Eb, X2. injection Eb as Eb _. injection X2 as X2 _.
        assert (Dis : forall z, In z (map (fun e : item F_arith fep => e_gid (i_pay e)) own) -> In z (map (fun e : item F_arith fep => e_gid (i_pay e)) (concat L)) -> False). { clear - ND. intros z Hx Hy. induction (map _ own) as [|y m IH]; [destruct Hx|]. cbn in ND. inversion ND; subst. destruct Hx as [->|Hx]; [apply H1; apply in_or_app; now right|auto]. }
        apply (Dis (gidI b1)); [rewrite X2; apply in_map_iff; exists e1; auto|rewrite <- Eb, Y2; apply in_map_iff; exists e2; auto].
      - intros x Hx. apply in_app_or in Hx. destruct Hx as [Hx|Hx]; [destruct (H2 x Hx) as (e1 & f1 & X1 & _ & X2 & _); exists e1; unfold ids in X2; injection X2 as X2 _; split; [apply in_or_app; now left|exact X2]|]. destruct (I2 x Hx) as (e & A & B). exists e. split; [apply in_or_app; now right|exact B]. }
    apply (G E blocks ND F).
  - intros e f He Hf Hg Be Bf Hgap. apply in_concat in He. destruct He as (own & Ho & He). destruct (Forall2_at' _ _ _ _ F Ho) as (b & Hb & _ & _ & H). destruct (H e f He Hf Hg Be Bf Hgap) as (k & K1 & K2 & _). exists k. split; [apply in_concat; exists b; auto|exact K2].
Qed.
