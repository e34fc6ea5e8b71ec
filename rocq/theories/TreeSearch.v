From Coq Require Import List Arith ZArith Lia Bool Permutation Reals Lra Psatz Sorted.
From Flocq Require Import Core BinarySingleNaN.
From Verif Require Import Outcome ListUtil F64 Arith ParticleModel PointsModel MortonModel DomainModel MixProofs TreeModel TreeSpec TreeProofs TreeLink TreeLevels TreeOct TreeMoment TreeLists.
Import ListNotations.
Local Open Scope R_scope.

Lemma two97 : bpow radix2 97 = 2 ^ 97. Proof. rewrite <- IZR_Zpower by lia. change (Zpower radix2 97) with (2 ^ 97)%Z. rewrite (pow_IZR 2 97). reflexivity. Qed.

Lemma reals_ordered : ordered R_arith all_ok (fun x => x).
Proof.
  split.
  - intros a b _ _. cbn [a_lt R_arith]. case Rlt_bool_spec; intros H; split; intros; try assumption; try reflexivity; try discriminate; lra.
  - intros a b _ _. cbn [a_le R_arith]. case Rle_bool_spec; intros H; split; intros; try assumption; try reflexivity; try discriminate; lra.
  - split; [exact I|]. split; [exact I|]. unfold boxInit. cbn [a_lit a_neg R_arith]. rewrite two97. change (2 ^ 24 - 1)%Z with 16777215%Z. split; lra.
Qed.
Lemma doubles_init : B2R (f_lit (2 ^ 24 - 1) 97) = 16777215 * 2 ^ 97 /\ is_finite (f_lit (2 ^ 24 - 1) 97) = true.
Proof.
  assert (E : B2SF (f_lit (2 ^ 24 - 1) 97) = SpecFloat.S754_finite false (16777215 * 2 ^ 29) 68) by (vm_compute; reflexivity). split.
  - rewrite <- SF2R_B2SF, E. unfold SF2R, F2R. cbn [Defs.Fnum Defs.Fexp cond_Zopp]. rewrite <- two97. change 97%Z with (29 + 68)%Z. rewrite bpow_plus. rewrite Pos2Z.inj_mul, mult_IZR.
    replace (IZR (Z.pos (2 ^ 29))) with (bpow radix2 29) by reflexivity. ring.
  - rewrite <- is_finite_SF_B2SF, E. reflexivity.
Qed.
Lemma doubles_ordered : ordered F_arith finite real.
Proof.
  split.
  - intros a b Ha Hb. apply flt_R; assumption.
  - intros a b Ha Hb. apply fle_R; assumption.
  - destruct doubles_init as (I1 & I2). unfold boxInit, finite, real. cbn [a_lit a_neg F_arith]. unfold fopp. rewrite is_finite_Bopp, B2R_Bopp, I1. auto.
Qed.

Section Search.
  Context {N : arith} (ok : N -> Prop) (val : N -> R) (HO : ordered N ok val).

  Lemma not_lt (a b : N) : ok a -> ok b -> val b <= val a -> (a <? b)%A = false.
  Proof using HO. intros Ha Hb H. destruct (a <? b)%A eqn:E; [|reflexivity]. apply (o_lt _ _ _ HO) in E; try assumption. lra. Qed.
  Definition okB (b : ort N) : Prop := forall c, In c coords -> ok (c (olow b)) /\ ok (c (ohigh b)).
  Lemma overlapsPos_ok o q : okB o -> okB (Ort q q) -> box_in val (Ort q q) o -> overlapsPos o q = true.
  Proof using HO.
    intros Ho Hq H. unfold overlapsPos.
    destruct (Ho vx ltac:(cbn; auto)), (Ho vy ltac:(cbn; auto)), (Ho vz ltac:(cbn; auto)). destruct (Hq vx ltac:(cbn; auto)), (Hq vy ltac:(cbn; auto)), (Hq vz ltac:(cbn; auto)). destruct (H vx ltac:(cbn; auto)), (H vy ltac:(cbn; auto)), (H vz ltac:(cbn; auto)). cbn [olow ohigh] in *.
    rewrite !not_lt by assumption. reflexivity.
  Qed.
  Lemma overlapsBox_ok o b : okB o -> okB b -> (forall c, In c coords -> val (c (olow o)) <= val (c (ohigh b)) /\ val (c (olow b)) <= val (c (ohigh o))) -> overlapsBox o b = true.
  Proof using HO.
    intros Ho Hq H. unfold overlapsBox.
    destruct (Ho vx ltac:(cbn; auto)), (Ho vy ltac:(cbn; auto)), (Ho vz ltac:(cbn; auto)). destruct (Hq vx ltac:(cbn; auto)), (Hq vy ltac:(cbn; auto)), (Hq vz ltac:(cbn; auto)). destruct (H vx ltac:(cbn; auto)), (H vy ltac:(cbn; auto)), (H vz ltac:(cbn; auto)).
    rewrite !not_lt by assumption. reflexivity.
  Qed.

  (** the position of e is in the box around the search sphere of f *)
  Lemma gather tin tout fs f e : In f fs -> hull ok val (map ball fs) tout -> okB (point e) -> box_in val (point e) (ball f) ->
    isInEpList tin tout e = true /\ forall m, okB (v_in m) -> box_in val (point e) (v_in m) -> openBit tin tout m = true.
  Proof using HO.
    intros Hf (T1 & T2 & _) He Hb. assert (Hin : box_in val (point e) tout). { intros c Hc. destruct (T2 (ball f) (in_map _ _ _ Hf) c Hc). destruct (Hb c Hc). split; lra. }
    split; [unfold isInEpList; rewrite (overlapsPos_ok tout (s_pos e)); try assumption; apply orb_true_r|].
    intros m Hm Hv. unfold openBit. rewrite (overlapsBox_ok tout (v_in m)); [apply orb_true_r|assumption|assumption|]. intros c Hc. destruct (Hin c Hc), (Hv c Hc). cbn [point olow ohigh] in *. split; lra.
  Qed.

  Variable slack : R -> R.
  (** what the rounding of the differences has to satisfy *)
  Hypothesis G : forall e f, usable ok val [e; f] -> apart val e f <= val (s_rad e) ^ 2 -> box_in val (point f) (ball e).
  Hypothesis S : forall tin tout fs e f, In e fs -> hull ok val (map point fs) tin -> usable ok val [e; f] -> slack (apart val e f) <= val (s_rad f) ^ 2 ->
    isInEpList tin tout f = true /\ forall m, okB (v_out m) -> box_in val (ball f) (v_out m) -> openBit tin tout m = true.
  Local Open Scope Z_scope.

  Lemma usable_two eps e f : usable ok val eps -> In e eps -> In f eps -> usable ok val [e; f].
  Proof using. intros H He Hf g [<-|[<-|[]]]; apply H; assumption. Qed.

  Lemma buildTree_ok junk jm sched sched' keys eps limit tc part : (forall l n, Permutation (sched l n) (seq 0 n)) -> (forall l n, Permutation (sched' l n) (seq 0 n)) -> sorted_keys keys -> length eps = length keys -> length part = 23%nat ->
    2 * Z.of_nat (length keys) <= 2 ^ 31 -> 1 <= limit -> 8 + 168 * (Z.of_nat (length keys) / (limit + 1)) < 2 ^ 31 -> usable ok val eps ->
    exists t, buildTree junk jm sched sched' keys eps limit tc part = Done t /\ builds ok val limit keys eps t.
  Proof using HO.
    intros Hs Hs' Hk Hlen Hpart HN Hlim HQ Hu. unfold buildTree. destruct (linkCell_ok keys limit Hk HN Hlim HQ junk sched tc part Hs Hpart) as (tc' & part' & lev_max & -> & Hroot & Hlay). cbn [obind].
    destruct (calcMoment_ok ok val HO keys limit tc' eps HN Hlen) with (sched := sched') (part := part') (lev_max := lev_max) (moms := map jm (seq 0 (length tc'))) as (moms & -> & L & M); try assumption.
    { intros e He. destruct (Hu e He) as (U1 & U2 & _). split; intros c Hc; [destruct (U1 c Hc) as (? & ? & _)|destruct (U2 c Hc) as (? & ? & _)]; auto. }
    { rewrite map_length, seq_length. reflexivity. }
    cbn [obind]. exists (tc', moms). split; [reflexivity|]. split; [assumption|]. exists part', lev_max. split; [assumption|]. intros l h t i a n Hl Hh Ht Hi Ho. destruct (M l h t i a n Hl Hh Ht Hi Ho) as (m & M1 & M2 & M3). exists m. split; [assumption|]. split; [assumption|]. intros Hp. destruct (M3 Hp) as (M4 & M5).
    apply octree_cell in Ho. destruct Ho as (c & _ & _ & _ & _ & Hr). destruct (Hr Hp) as (_ & Ha & Hb).
    assert (Hne : forall T (g : site N -> T), map g (range eps a n) <> []). { intros T g E. destruct (at_ex eps a) as (e & He); [lia|]. assert (Hin : In e (range eps a n)) by (apply range_in; [assumption|]; exists a; split; [lia|assumption]). apply (in_map g) in Hin. rewrite E in Hin. exact Hin. }
    assert (Hsub : forall e, In e (range eps a n) -> In e eps). { intros e He. apply range_in in He; [|assumption]. destruct He as (k & _ & _ & He). apply nth_error_In in He. assumption. }
    split; apply (hullF_hull ok val HO); try assumption; try apply Hne; intros b Hb'; apply in_map_iff in Hb'; destruct Hb' as (e & <- & He); apply Hu, Hsub; assumption.
  Qed.

  Lemma builds_walk limit keys eps tc moms : builds ok val limit keys eps (tc, moms) -> exists (p : Z -> Z) lev_max, 0 <= lev_max <= 21 /\ p 0 = 0 /\ p 1 = 8 /\
    (forall l i, 0 <= l <= lev_max -> p l <= i < p (l + 1) ->
      exists c a, at_ tc i c /\ octree tc keys limit i l a (n_ptcl c) /\ (limit < n_ptcl c -> l < 21 -> l < lev_max /\ p (l + 1) <= adr_tc c /\ adr_tc c + 8 <= p (l + 2))) /\
    (forall l i a n, 0 <= l <= lev_max -> p l <= i < p (l + 1) -> octree tc keys limit i l a n -> measured ok val eps moms i a n).
  Proof using.
    intros (Hroot & part & lev_max & (Hlm & p & P1 & P1' & P2 & P3 & P4 & P5) & M). exists p, lev_max. split; [assumption|]. split; [assumption|]. split; [assumption|]. split; [assumption|].
    intros l i a n Hl Hi Ho. apply (M l (p l) (p (l + 1)) i a n); try assumption; apply P2; lia.
  Qed.

  Lemma makeGroups_ok limit keys eps tc moms grpLimit : builds ok val limit keys eps (tc, moms) -> sorted_keys keys -> length eps = length keys -> 2 * Z.of_nat (length keys) <= 2 ^ 31 -> limit <= grpLimit ->
    exists gs, makeIPGroup 22 tc moms grpLimit [] 0 = Done gs /\ tiled g_n g_adr 0 gs (Z.of_nat (length keys)) /\ forall g, In g gs -> grouped ok val keys eps grpLimit g.
  Proof using.
    intros HB Hk Hlen HN Hg. destruct (builds_walk _ _ _ _ _ HB) as (p & lev_max & Hlm & P0 & P1 & P5 & Q).
    destruct (groups_ok ok val keys limit tc eps moms p lev_max P5 Q HN Hlen grpLimit Hg 22 0 0 0 (Z.of_nat (length keys)) []) as (gs & E & T & H); try lia; [change (0 + 1) with 1; lia|destruct HB as (HB & _); exact HB| |].
    { intros k Hk'. rewrite !Z.div_small; [reflexivity| |]; assert (HH := Hk 0 k ltac:(lia) ltac:(lia) ltac:(lia)); change (8 ^ (21 - 0)) with (8 ^ 21); lia. }
    exists gs. auto.
  Qed.

  (** members of a group *)
  Lemma grouped_ball (eps : list (site N)) a n i e : 0 <= a -> a <= i < a + n -> at_ eps i e -> In e (range eps a n).
  Proof using. intros Ha Hi He. apply range_in; [assumption|]. exists i. auto. Qed.

  Lemma list_search limit keys eps tc moms g fs : builds ok val limit keys eps (tc, moms) -> length eps = length keys -> 2 * Z.of_nat (length keys) <= 2 ^ 31 ->
    usable ok val eps -> usable ok val fs -> hull ok val (map point fs) (g_in g) -> hull ok val (map ball fs) (g_out g) ->
    exists l, interactionList tc moms eps limit g = Done l /\ StronglySorted Z.lt l /\ (forall k, In k l -> 0 <= k < Z.of_nat (length eps)) /\
      forall j e f, In e fs -> at_ eps j f -> sees val slack e f -> In j l.
  Proof using HO G S.
    intros HB Hlen HN Hu Hfs H1 H2. destruct (builds_walk _ _ _ _ _ HB) as (p & lev_max & Hlm & P0 & P1 & P5 & Q).
    destruct (list_ok ok val keys limit tc eps moms p lev_max P5 Q HN Hlen (g_in g) (g_out g) (fun f => exists e, In e fs /\ sees val slack e f)) with (fuel := 22%nat) (l := 0) (i := 0) (a := 0) (n := Z.of_nat (length keys)) (acc := @nil Z) as (l & E & L1 & L2 & L3); try lia; [| |change (0 + 1) with 1; lia|destruct HB as (HB & _); exact HB|].
    - intros f Hf (e & He & [Hs|Hs]); assert (Hef : usable ok val [e; f]) by (intros g' [<-|[<-|[]]]; auto).
      + apply (gather (g_in g) (g_out g) fs e); try assumption; [intros c Hc; destruct (Hu f Hf) as (Up & _); destruct (Up c Hc) as (? & ? & _); auto|apply G; assumption].
      + apply (S (g_in g) (g_out g) fs e); assumption.
    - intros f m Hf (e & He & [Hs|Hs]) Hok B1 B2; assert (Hef : usable ok val [e; f]) by (intros g' [<-|[<-|[]]]; auto).
      + apply (gather (g_in g) (g_out g) fs e f); try assumption; [intros c Hc; destruct (Hu f Hf) as (Up & _); destruct (Up c Hc) as (? & ? & _); auto|apply G; assumption|intros c Hc; apply Hok; assumption].
      + apply (S (g_in g) (g_out g) fs e f); try assumption. intros c Hc; apply Hok; assumption.
    - exists l. split; [exact E|]. split; [assumption|]. split; [intros k Hk'; destruct (L2 k Hk'); lia|]. intros j e f He Hf Hs. apply (L3 j f); [|assumption|exists e; auto]. apply at_lt in Hf. lia.
  Qed.

  Lemma tiled_start {T} (size start : T -> Z) a gs b : tiled size start a gs b -> forall g, In g gs -> a <= start g.
  Proof using. intros H. induction H as [|g0 gs last Hp H IH]; intros g Hg; [destruct Hg|]. destruct Hg as [Hg|Hg]; [subst; lia|]. specialize (IH g Hg). lia. Qed.

  Lemma searchLists_ok bl bg keysI epi keysJ epj limit grpLimit :
    (exists t, bl keysI epi = Done t /\ builds ok val limit keysI epi t) -> (exists t, bg keysJ epj = Done t /\ builds ok val limit keysJ epj t) ->
    sorted_keys keysI -> length epi = length keysI -> length epj = length keysJ -> 2 * Z.of_nat (length keysI) <= 2 ^ 31 -> 2 * Z.of_nat (length keysJ) <= 2 ^ 31 -> limit <= grpLimit -> usable ok val epi -> usable ok val epj ->
    exists res, searchLists bl bg keysI epi keysJ epj limit grpLimit = Done res /\ searched ok val slack keysI epi epj grpLimit res.
  Proof using HO G S.
    intros ((tl, ml) & El & Bl) ((tg, mg) & Eg & Bg) Hk Hli Hlj HNi HNj Hg Hui Huj. unfold searchLists. rewrite El, Eg. cbn [obind fst snd].
    destruct (makeGroups_ok limit keysI epi tl ml grpLimit Bl Hk Hli HNi Hg) as (gs & -> & T & Hgs). cbn [obind]. assert (Hst := tiled_start _ _ _ _ _ T).
    assert (HM : forall gs, (forall g, In g gs -> grouped ok val keysI epi grpLimit g) -> (forall g, In g gs -> 0 <= g_adr g) -> exists res, omap (fun g => do l <- interactionList tg mg epj limit g; Done (g, l)) gs = Done res /\ map fst res = gs /\ forall g l, In (g, l) res ->
      StronglySorted Z.lt l /\ (forall k, In k l -> 0 <= k < Z.of_nat (length epj)) /\ forall i j e f, g_adr g <= i < g_adr g + g_n g -> at_ epi i e -> at_ epj j f -> sees val slack e f -> In j l).
    { clear gs T Hgs Hst. induction gs as [|g gs IH]; intros Hgr Ha; [exists []; split; [reflexivity|]; split; [reflexivity|intros g l []]|]. destruct IH as (res & E & Ef & R); [intros; apply Hgr; right; assumption|intros; apply Ha; right; assumption|].
      destruct (Hgr g (or_introl eq_refl)) as (_ & H1 & H2). assert (Ha0 := Ha g (or_introl eq_refl)). destruct (list_search limit keysJ epj tg mg g (range epi (g_adr g) (g_n g))) as (l & El' & L1 & L2 & L3); try assumption.
      { intros e He. apply Hui. apply range_in in He; [|assumption]. destruct He as (k & _ & _ & He). apply nth_error_In in He. assumption. }
      cbn [omap]. rewrite El'. cbn [obind]. rewrite E. cbn [obind]. exists ((g, l) :: res). split; [reflexivity|]. split; [cbn; rewrite Ef; reflexivity|]. intros g' l' [Hin|Hin]; [|apply R; assumption]. injection Hin as <- <-. split; [assumption|]. split; [assumption|].
      intros i j e f Hi He. apply L3. apply (grouped_ball epi _ _ i); assumption. }
    destruct (HM gs Hgs) as (res & E & Ef & R); [intros g Hg'; apply Hst in Hg'; lia|]. rewrite E. exists res. split; [reflexivity|]. split; [rewrite Ef, Hli; assumption|].
    intros g l Hin. split; [apply Hgs; rewrite <- Ef; apply (in_map fst) in Hin; exact Hin|]. apply R. assumption.
  Qed.
End Search.
