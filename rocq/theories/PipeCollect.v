(** Collecting the contacts of settled objects. *)
From Coq Require Import List Arith ZArith Lia Bool Permutation Reals Lra.
From Flocq Require Import Core.
From Verif Require Import Outcome ListUtil Arith VecModel VecSpec SylModel ParticleModel ParticleSpec ParticleProofs ExchangeProofs DomainSpec SortModel SortProofs PointsModel BoxModel BoxSpec BoxProofs StepModel ConModel NearModel NearSpec NearProofs TreeModel TreeSpec LetModel LetSpec CallModel CallSpec CallRoot CallSort CallProofs CallContact PipeModel PipeSpec PipeProofs.
Import ListNotations.
Local Open Scope R_scope.

Lemma three_axes {B} (bs : vec B) (c : vec R -> R) : In c coords -> exists b, In (b, c) [(vx bs, vx); (vy bs, vy); (vz bs, vz)].
Proof. intros [<-|[<-|[<-|[]]]]; eexists; cbn; eauto. Qed.

Lemma rising (F : nat -> R) n : (forall i, (i < n)%nat -> Rle_bool (F i) (F (S i)) = true) -> forall i j, (i <= j <= n)%nat -> F i <= F j.
Proof.
  intros H i j (H1 & H2). induction H1 as [|j H1 IH]; [lra|]. specialize (H j ltac:(lia)). revert H. case Rle_bool_spec; [|discriminate]. intros. specialize (IH ltac:(lia)). lra.
Qed.
Lemma grid_domain_in pa root nx ny nz doms d : grid_of Rle_bool root nx ny nz doms -> In d doms -> domain_in pa root d.
Proof.
  intros (L & X & Y & Z0 & (X1 & X2 & X3) & HY & HZ & HD) Hd. apply In_nth_error in Hd. destruct Hd as (r & Hr). assert (r < length doms)%nat by (apply nth_error_Some; congruence). rewrite L in H.
  destruct (grid_decode nx ny nz r H) as (i & j & k & Hi & Hj & Hk & ->). rewrite (HD i j k Hi Hj Hk) in Hr. injection Hr as <-. destruct (HY i Hi) as (Y1 & Y2 & Y3). destruct (HZ i j Hi Hj) as (Z1 & Z2 & Z3).
  pose proof (rising _ _ X3). pose proof (rising _ _ Y3). pose proof (rising _ _ Z3). unfold domain_in, LetSpec.along. cbn [olow ohigh vx vy vz]. rewrite <- X1, <- X2, <- Y1, <- Y2, <- Z1, <- Z2. split; [|split]; intros _; repeat split; auto with arith.
  all: match goal with HH : forall i j, (i <= j <= ?n)%nat -> ?F i <= ?F j |- ?F _ <= ?F _ => apply HH; lia end.
Qed.

Section Collect.
  Context (pa : vec bool) (m : nat) (b : domains R_arith) (ranks : list ranked).
  Hypothesis Hbox : fit_box pa (b_root b).
  Hypothesis Hset : settled b ranks.
  Hypothesis Hfit : forall s, In s (objects ranks) -> fit_ready pa (b_root b) m s.
  Hypothesis Hm : (Z.of_nat m <= 9000)%Z.
  Hypothesis Hroom : treeable (length (objects ranks) * S (copies pa m)).

  Lemma search_radius (s : syl) : getRSearch (N := R_arith) (copyFromFP s) = reach (radius s) (slength s) (lengthCol s) (colBuf s).
  Proof using. unfold getRSearch, copyFromFP, reach. cbn [e_length e_radius e_lengthCol e_colBuf]. unfold QPModel.stdmax, SegModel.stdmax. rarith. unfold Rmax. rcase; destruct (Rle_dec _ _); try lra; f_equal; lra. Qed.

  Lemma tree_item own e : In own (tree_items ranks) -> In e own -> exists r p s, nth_error ranks r = Some p /\ In s (pr_ptcl p) /\ e = treeItem (N := R_arith) s /\ In s (objects ranks).
  Proof using.
    intros Ho He. apply in_map_iff in Ho. destruct Ho as (p & <- & Hp). apply in_map_iff in He. destruct He as (s & <- & Hs). assert (Hp' := Hp). apply In_nth_error in Hp. destruct Hp as (r & Hr). exists r, p, s. repeat (split; [assumption || reflexivity|]). apply in_concat. exists (pr_ptcl p). split; [apply in_map; exact Hp'|exact Hs].
  Qed.
  Lemma items_length : length (concat (tree_items ranks)) = length (objects ranks).
  Proof using. unfold tree_items, objects. rewrite !concat_length, !map_map. f_equal. apply map_ext. intros p. apply map_length. Qed.
  Lemma own_length own : In own (tree_items ranks) -> (length own <= length (objects ranks))%nat.
  Proof using. clear. intros H. rewrite <- items_length. apply in_split in H. destruct H as (a & c & ->). rewrite concat_app, !app_length. cbn [concat]. rewrite app_length. lia. Qed.

  Lemma collect_arena doms : b_doms b = Some doms -> arena pa (b_root b) doms (tree_items ranks).
  Proof using Hbox Hset Hfit Hm Hroom.
    intros Hd. destruct Hset as (nx & ny & nz & ds & S1 & S2 & S3 & S4 & S5). rewrite Hd in S2. injection S2 as <-.
    assert (At : forall r p s, nth_error ranks r = Some p -> In s (pr_ptcl p) -> LetSpec.inside (b_root b) (spos s)).
    { intros r p s Hr Hs. assert (exists d, nth_error doms r = Some d) as (d & Ed) by (destruct (nth_error doms r) eqn:Y; [eauto|apply nth_error_None in Y; assert (r < length ranks)%nat by (apply nth_error_Some; congruence); lia]). exact (proj1 (proj2 (S5 r p d s Hr Ed Hs))). }
    assert (HM9 : INR m <= 9000) by (rewrite INR_IZR_INZ; apply IZR_le; exact Hm).
    constructor.
    - apply along_c. intros bb c Hc Hb. destruct (Hbox bb c Hc) as (_ & H). rewrite Hb in H. exact H.
    - intros own e c Ho He Hc. destruct (tree_item own e Ho He) as (r & p & s & Hr & Hs & -> & Hin). cbn [treeItem i_site siteOf s_pos copyFromFP e_pos]. destruct (three_axes pa c Hc) as (bb & Hbc). destruct bb.
      + destruct (Hbox _ c Hbc) as (_ & (H1 & H2)). pose proof (At r p s Hr Hs c Hc) as I. apply Rabs_le_inv in H1, H2. apply Rabs_le. lra.
      + exact (proj1 (Hfit s Hin) _ c Hbc eq_refl).
    - apply along_c. intros bb c Hc Hb. destruct (Hbox bb c Hc) as (H & _). unfold edge. lra.
    - intros d Hd'. exact (grid_domain_in pa _ _ _ _ _ _ S3 Hd').
    - unfold tree_items. rewrite map_length. exact S4.
    - intros r own d e Hr Hdd He. apply nth_error_map_some in Hr. destruct Hr as (p & Hp & E1). subst own. apply in_map_iff in He. destruct He as (s & <- & Hs). cbn [treeItem i_site siteOf s_pos copyFromFP e_pos]. destruct (S5 r p d s Hp Hdd Hs) as (H1 & H2 & _). split; assumption.
    - intros own Ho. eapply treeable_less; [|exact Hroom]. pose proof (own_length own Ho). nia.
    - intros own e Ho He. destruct (tree_item own e Ho He) as (r & p & s & Hr & Hs & -> & Hin). cbn [treeItem i_site siteOf s_rad]. rewrite search_radius. destruct (Hfit s Hin) as (_ & F1 & F2 & F3 & F4 & F5 & _ & F7 & F8 & F9 & _). split; [|split].
      + split; [|exact F7]. unfold reach. apply Rmult_le_pos; [|lra]. apply (Rle_trans _ (slength s + 2 * radius s)); [lra|apply Rmax_l].
      + apply along_c. intros bb c Hc Hb. pose proof (proj1 (along_c pa _) F8 bb c Hc Hb) as H. cbv beta in H. destruct (Hbox bb c Hc) as (H' & _). assert (0 < edge (b_root b) c) by (unfold edge; lra). nra.
      + exact F9.
  Qed.

  Lemma collect_rods l f : In l (tree_items ranks) -> In f l -> proper_rod f.
  Proof using Hfit.
    intros Ho He. destruct (tree_item l f Ho He) as (r & p & s & Hr & Hs & -> & Hin). destruct (Hfit s Hin) as (_ & F1 & F2 & F3 & F4 & F5 & F6 & _ & _ & _ & F10). split; [reflexivity|]. split.
    - unfold NearSpec.sized, placed, treeItem, copyFromFP. cbn [i_pay i_site siteOf s_pos e_radius e_length e_radiusCol e_lengthCol e_colBuf e_dir]. repeat (split; [assumption|]). exact (copy_sized s F6).
    - exact F10.
  Qed.

  Lemma collect_ok {Fo} (func : list (item R_arith ep) -> list (item R_arith ep) -> list Fo -> list Fo) clear (q : nat -> cast R_arith ep Fo) threads lim grpLimit :
    (forall r, any_cast (length ranks) threads lim (nth r (sizes ranks) 0%nat) (q r)) -> (1 <= lim <= grpLimit)%Z -> (forall epi epj fs, length fs = length epi -> length (func epi epj fs) = length fs) ->
    exists n, forall fuel, (n <= fuel)%nat -> exists pools, collectPairCollision (N := R_arith) func clear q Ztrunc PI threads fuel pa lim grpLimit b ranks = Done pools /\ length pools = length ranks /\
      forall r own pool, nth_error (tree_items ranks) r = Some own -> nth_error pools r = Some pool -> exists blocks, Permutation (concat pool) blocks /\ contacts pa (b_root b) (tree_items ranks) own blocks.
  Proof using Hbox Hset Hfit Hm Hroom.
    intros Hq Hl Hf. assert (exists doms, b_doms b = Some doms /\ length ranks = length doms) as (doms & Hd & HL) by (destruct Hset as (nx & ny & nz & ds & S1 & S2 & S3 & S4 & S5); eauto). pose proof (collect_arena doms Hd) as HA.
    assert (HR : roomy pa (b_root b) doms (tree_items ranks)).
    { apply (room pa (b_root b) doms (tree_items ranks) m HA).
      - intros own e Ho He. destruct (tree_item own e Ho He) as (r & p & s & Hr & Hs & -> & Hin). cbn [treeItem i_site siteOf s_rad]. rewrite search_radius. exact (proj1 (proj2 (proj2 (proj2 (proj2 (proj2 (proj2 (proj2 (proj2 (Hfit s Hin)))))))))).
      - intros own Ho. eapply treeable_less; [|exact Hroom]. rewrite items_length. pose proof (own_length own Ho). nia. }
    destruct (call_contacts func clear q threads pa (b_root b) doms lim grpLimit (tree_items ranks) HA) as (F & HF); [|exact Hl|exact Hf|exact HR|exact collect_rods|].
    { intros r. replace (length (nth r (tree_items ranks) [])) with (nth r (sizes ranks) 0%nat); [pose proof (Hq r) as X; rewrite HL in X; exact X|]. unfold sizes, tree_items. change 0%nat with (length (@nil (item R_arith ep))).
      rewrite <- (map_nth (@length (item R_arith ep))), map_map. f_equal. apply map_ext. intros p. symmetry. apply map_length. }
    exists F. intros fuel Hfu. destruct (HF fuel Hfu) as (res & E1 & L1 & C1). unfold collectPairCollision. rewrite Hd. change (map (fun p : ranked => map (treeItem (N := R_arith)) (pr_ptcl p)) ranks) with (tree_items ranks). match goal with |- context [obind ?X _] => replace X with (Done res) by (symmetry; exact E1) end. cbn [obind].
    destruct (omap_some (fun x : list (nat * (list (item R_arith ep) * list (item R_arith ep))) * list Fo => nearCalls (N := R_arith) PI (map (fun c => (fst c, (map (itemRod (N := R_arith)) (fst (snd c)), map (itemRod (N := R_arith)) (snd (snd c))))) (fst x)) (repeat [] threads))
      (fun x pool => nearCalls (N := R_arith) PI (rods (fst x)) (repeat [] threads) = Done pool) res) as (pools & E2 & F2).
    { intros x Hx. apply In_nth_error in Hx. destruct Hx as (r & Hx). assert (exists own, nth_error (tree_items ranks) r = Some own) as (own & Ho) by (destruct (nth_error (tree_items ranks) r) eqn:Y; [eauto|apply nth_error_None in Y; assert (r < length res)%nat by (apply nth_error_Some; congruence); lia]).
      destruct (C1 r own x (repeat [] threads) Ho Hx (repeat_length _ _)) as (p' & bl & N1 & _). exists p'. split; exact N1. }
    exists pools. split; [exact E2|]. pose proof (Forall2_len _ _ _ F2) as L2. split; [rewrite <- L2, L1; apply map_length|]. intros r own pool Ho Hp.
    assert (exists x, nth_error res r = Some x) as (x & Hx) by (destruct (nth_error res r) eqn:Y; [eauto|apply nth_error_None in Y; assert (r < length pools)%nat by (apply nth_error_Some; congruence); lia]).
    destruct (C1 r own x (repeat [] threads) Ho Hx (repeat_length _ _)) as (p' & bl & N1 & N2 & N3). pose proof (Forall2_nth_error _ _ _ _ _ _ F2 Hx Hp) as N4. cbv beta in N4. rewrite N1 in N4. injection N4 as ->. exists bl. split; [|exact N3].
    replace (concat (repeat [] threads)) with (@nil (block R_arith)) in N2 by (clear; induction threads; [reflexivity|assumption]). exact N2.
  Qed.
End Collect.

(** ** A step *)

Lemma ready_fit pa root m c (s t : syl) : c_monolayer c = false -> fit_box pa root -> fit_object pa root m c s -> ready_object root c s t -> fit_ready pa root m t.
Proof.
  intros Hmono HB (F0 & F1) (_ & _ & _ & R1 & R2 & R3 & R4 & R5 & p & Hp & H). rewrite Hmono in H. destruct H as (H1 & H2). unfold fit_ready, fit. rewrite H1, H2, R1, R2, R3, R4, R5. split; [|exact F1].
  intros b x Hb E. specialize (F0 b x Hb E). destruct (HB b x Hb) as (_ & B). rewrite E in B. destruct (Hp x (pair_c pa b x Hb)) as (_ & _ & Hx). rewrite Hx; [exact F0|]. apply Rabs_le_inv in F0. lra.
Qed.

Lemma step_ok (k : luck R_arith) c pa m b nx ny nz dmax stepCount (ranks : list ranked) : any_luck k -> c_monolayer c = false -> fit_box pa (b_root b) -> tidy b nx ny nz ranks ->
  (Z.rem stepCount 50 = 0%Z -> sampled k ranks) -> (b_doms b = None -> Z.rem stepCount 50 = 0%Z) -> (6 * Z.of_nat (length (objects ranks)) <= INT_MAX)%Z ->
  (forall s, In s (objects ranks) -> fit_object pa (b_root b) m c s) -> (Z.of_nat m <= 9000)%Z -> treeable (length (objects ranks) * S (copies pa m)) ->
  exists n, forall fuel, (n <= fuel)%nat -> exists b' out before, prepareStep k fuel dmax c stepCount b ranks = Done (Some (b', out)) /\ length out = length ranks /\
    Permutation before (objects ranks) /\ Forall2 (ready_object (b_root b) c) before (objects out) /\
    forall Fo (func : list (item R_arith ep) -> list (item R_arith ep) -> list Fo -> list Fo) clear (q : nat -> cast R_arith ep Fo) threads lim grpLimit,
      (forall r, any_cast (length out) threads lim (nth r (sizes out) 0%nat) (q r)) -> (1 <= lim <= grpLimit)%Z -> (forall epi epj fs, length fs = length epi -> length (func epi epj fs) = length fs) ->
      exists n', forall fuel', (n' <= fuel')%nat -> exists pools, collectPairCollision (N := R_arith) func clear q Ztrunc PI threads fuel' pa lim grpLimit b' out = Done pools /\ length pools = length out /\
        forall r own pool, nth_error (tree_items out) r = Some own -> nth_error pools r = Some pool -> exists blocks, Permutation (concat pool) blocks /\ contacts pa (b_root b) (tree_items out) own blocks.
Proof.
  intros HK Hmono HB HT HS HD HM Hf Hm Hr. destruct (prepare_ok k HK c b nx ny nz) with (dmax := dmax) (stepCount := stepCount) (ranks := ranks) as (n & Hn); try assumption.
  { intros x Hx. destruct (three_axes pa x Hx) as (bb & Hb). exact (proj1 (HB bb x Hb)). }
  { rewrite Hmono. discriminate. }
  exists n. intros fuel Hfu. destruct (Hn fuel Hfu) as (b' & out & E & B1 & B2 & B3 & B4 & Se & Lo & (before & P & F) & _). exists b', out, before. split; [exact E|]. split; [exact Lo|]. split; [exact P|]. split; [exact F|].
  intros Fo func clear q threads lim grpLimit Hq Hl Hfun. rewrite <- B1. apply (collect_ok pa m b' out); try assumption.
  - rewrite B1. exact HB.
  - rewrite B1. intros t Ht. apply In_nth_error in Ht. destruct Ht as (i & Ht). destruct (CallSort.Forall2_nth _ _ _ F _ _ Ht) as (s & Hs & R). apply (ready_fit pa (b_root b) m c s t Hmono HB); [|exact R]. apply Hf. apply (Permutation_in _ P). eapply nth_error_In; exact Hs.
  - rewrite <- (Forall2_len _ _ _ F), (Permutation_length P). exact Hr.
Qed.

(** ** The box *)

Lemma box_fit (pbc : vec bool) (low high : vec R) d :
  (forall b c, In (b, c) [(vx pbc, vx); (vy pbc, vy); (vz pbc, vz)] -> c low < c high /\ Rabs (c low) <= 2 ^ 100 /\ Rabs (c high) <= 2 ^ 100) ->
  setDomainInfo (N := R_arith) pbc low high newDomainInfo = Some d -> d_axis d = pbc /\ fit_box pbc (Ort (d_low d) (d_high d)).
Proof.
  intros H E. assert (L : @LARGE_FLOAT R_arith = 16777215 * 2 ^ 100 :> R) by (change (@LARGE_FLOAT R_arith) with (16777215 * bpow radix2 100); rewrite bpow_powerRZ; reflexivity). assert (P : 0 < 2 ^ 100) by (apply pow_lt; lra).
  assert (HV : forall k, (k < 3)%nat -> vget low k < vget high k /\ Rabs (vget low k) <= 2 ^ 100 /\ Rabs (vget high k) <= 2 ^ 100) by (intros [|[|[|k]]] Hk; [apply (H (vx pbc))|apply (H (vy pbc))|apply (H (vz pbc))|lia]; cbn; auto).
  destruct (setDomainInfo_ok (N := R_arith) pbc low high) as (d' & E' & K); [intros k Hk; destruct (HV k Hk) as (V & _); apply Rlt_bool_false; apply Rlt_le; exact V|]. rewrite E in E'. injection E' as <-.
  assert (G : forall k, (k < 3)%nat -> vget (d_axis d) k = vget pbc k /\ (vget (d_low d) k : R) < vget (d_high d) k /\
    if vget pbc k then Rabs (vget (d_low d) k) <= 2 ^ 100 /\ Rabs (vget (d_high d) k) <= 2 ^ 100 else (vget (d_low d) k : R) <= - 2 ^ 100 /\ 2 ^ 100 < vget (d_high d) k).
  { intros k Hk. destruct (HV k Hk) as (V1 & V2 & V3). destruct (K k Hk) as (K1 & _ & K2 & K3). split; [exact K1|]. destruct (vget pbc k).
    - destruct (K2 eq_refl) as (-> & ->); [apply Rlt_bool_true; exact V1|]. auto.
    - destruct (K3 (or_introl eq_refl)) as (-> & ->). change (@a_neg R_arith (@LARGE_FLOAT R_arith)) with (- (@LARGE_FLOAT R_arith : R)). rewrite L. lra. }
  destruct (G 0%nat) as (X0 & X1 & X2); [lia|]. destruct (G 1%nat) as (Y0 & Y1 & Y2); [lia|]. destruct (G 2%nat) as (Z0 & Z1 & Z2); [lia|]. cbn [vget] in *.
  split; [destruct (d_axis d), pbc; cbn in *; congruence|]. intros b c [Q|[Q|[Q|[]]]]; injection Q as <- <-; cbn [olow ohigh]; split; assumption.
Qed.

(** an insertion sort over the reals meets the contract of std::sort *)
Lemma R_sorts : sorts Rle_bool (fun k : vec R -> R => stable_sort (fun a b => Rlt_bool (k a) (k b))).
Proof.
  intros key l. split; [symmetry; apply stable_sort_perm|]. induction l as [|x r IH]; cbn [stable_sort]; [constructor|]. remember (stable_sort _ r) as s. clear Heqs.
  induction s as [|y s IHs]; cbn [insert]; [repeat constructor|]. inversion IH as [|? ? S F]; subst. destruct (Rlt_bool_spec (key y) (key x)) as [H|H].
  - constructor; [apply IHs, S|]. apply (@Permutation_Forall _ _ (x :: s)); [|constructor; [apply Rle_bool_true; lra|exact F]]. apply insert_perm.
  - constructor; [constructor; assumption|]. constructor; [apply Rle_bool_true; lra|]. eapply Forall_impl; [|exact F]. intros z Hz. cbv beta in Hz |- *. destruct (Rle_bool_spec (key y) (key z)) as [G|G]; [|discriminate Hz]. apply Rle_bool_true. lra.
Qed.
