(** The walks of LetModel over a tree: what they return, particle by particle. *)
From Coq Require Import List Arith ZArith Lia Bool Permutation Reals Lra.
From Verif Require Import Outcome ListUtil Arith ParticleModel VecModel DomainModel TreeModel TreeSpec TreeProofs TreeLink TreeOct TreeMoment TreeLists TreeSearch LetModel.
Import ListNotations.
Local Open Scope Z_scope.

Lemma overlapsBox_sym {N : arith} (o b : ort N) : overlapsBox o b = overlapsBox b o.
Proof. unfold overlapsBox. f_equal. repeat match goal with |- context [(?a <? ?b)%A] => destruct (a <? b)%A end; reflexivity. Qed.

Lemma fold_children (F : list Z -> Z -> outcome (list Z)) (sel : Z -> bool) cut acc :
  (forall j, 0 <= j < 8 -> cut j <= cut (j + 1)) ->
  (forall j acc, 0 <= j < 8 -> F acc j = Done (acc ++ filter sel (zrange (cut j) (cut (j + 1))))) ->
  ofold F (zrange 0 nChildren) acc = Done (acc ++ filter sel (zrange (cut 0) (cut 8))).
Proof.
  intros Hm HF.
  assert (H : forall m, (m <= 8)%nat -> cut 0 <= cut (Z.of_nat m) /\ ofold F (zrange 0 (Z.of_nat m)) acc = Done (acc ++ filter sel (zrange (cut 0) (cut (Z.of_nat m))))).
  { induction m as [|m IH]; intros Hm'; [split; [change (Z.of_nat 0) with 0; lia|]; change (Z.of_nat 0) with 0; rewrite !zrange_nil by lia; cbn; rewrite app_nil_r; reflexivity|].
    destruct IH as (L & E); [lia|]. replace (Z.of_nat (S m)) with (Z.of_nat m + 1) by lia. specialize (Hm (Z.of_nat m) ltac:(lia)). split; [lia|].
    rewrite zrange_snoc by lia. rewrite ofold_app, E. cbn [obind ofold]. rewrite HF by lia. cbn [obind]. rewrite <- app_assoc, <- filter_app, <- zrange_app by lia. reflexivity. }
  exact (proj2 (H 8%nat (le_n 8))).
Qed.
Lemma fold_exists (F : bool -> Z -> outcome bool) (sel : Z -> bool) cut :
  (forall j, 0 <= j < 8 -> cut j <= cut (j + 1)) ->
  (forall j b, 0 <= j < 8 -> F b j = Done (b || existsb sel (zrange (cut j) (cut (j + 1))))) ->
  ofold F (zrange 0 nChildren) false = Done (existsb sel (zrange (cut 0) (cut 8))).
Proof.
  intros Hm HF.
  assert (H : forall m, (m <= 8)%nat -> cut 0 <= cut (Z.of_nat m) /\ ofold F (zrange 0 (Z.of_nat m)) false = Done (existsb sel (zrange (cut 0) (cut (Z.of_nat m))))).
  { induction m as [|m IH]; intros Hm'; [split; [change (Z.of_nat 0) with 0; lia|]; change (Z.of_nat 0) with 0; rewrite !zrange_nil by lia; reflexivity|].
    destruct IH as (L & E); [lia|]. replace (Z.of_nat (S m)) with (Z.of_nat m + 1) by lia. specialize (Hm (Z.of_nat m) ltac:(lia)). split; [lia|].
    rewrite zrange_snoc by lia. rewrite ofold_app, E. cbn [obind ofold]. rewrite HF by lia. cbn [obind]. rewrite <- existsb_app, <- zrange_app by lia. reflexivity. }
  exact (proj2 (H 8%nat (le_n 8))).
Qed.
Lemma cut_find cut k : (forall j, 0 <= j < 8 -> cut j <= cut (j + 1)) -> cut 0 <= k < cut 8 -> exists j, 0 <= j < 8 /\ cut j <= k < cut (j + 1).
Proof.
  intros Hm Hk. assert (H : forall m, (m <= 8)%nat -> k < cut (Z.of_nat m) -> exists j, 0 <= j < 8 /\ cut j <= k < cut (j + 1)).
  { induction m as [|m IH]; intros Hm' Hc; [change (Z.of_nat 0) with 0 in Hc; lia|]. destruct (Z.lt_ge_cases k (cut (Z.of_nat m))); [apply IH; lia|]. exists (Z.of_nat m). replace (Z.of_nat m + 1) with (Z.of_nat (S m)) by lia. lia. }
  exact (H 8%nat (le_n 8) (proj2 Hk)).
Qed.
Lemma omap_children {A} (f : Z -> outcome A) (h : Z -> A) : (forall j, 0 <= j < 8 -> f j = Done (h j)) -> omap f (zrange 0 nChildren) = Done (map h (zrange 0 nChildren)).
Proof. intros H. apply omap_pure. intros j Hj. apply H. apply zrange_in in Hj. exact Hj. Qed.
Lemma zread_children {A} (h : Z -> A) j : 0 <= j < 8 -> zread (map h (zrange 0 nChildren)) j = Done (h j).
Proof.
  intros Hj. apply zread_at. split; [lia|]. unfold zrange. rewrite map_map, nth_error_map, nth_error_seq by (unfold nChildren; lia). cbn [option_map]. do 2 f_equal. lia.
Qed.

(** the root of a tree that buildTree returned *)
Lemma buildTree_root {N : arith} (junk : nat -> cell) (jm : nat -> moment N) sched sched' keys eps limit tc part t : any_order sched -> fits limit keys -> length part = 23%nat -> 1 <= limit ->
  buildTree junk jm sched sched' keys eps limit tc part = Done t -> at_ (fst t) 0 (Cell (Z.of_nat (length keys)) nChildren 0 0).
Proof.
  intros H1 (H2 & H3 & H4) H5 H6. unfold buildTree. destruct (linkCell_full keys limit H2 H3 H6 H4 junk sched tc part H1 H5) as (tc' & part' & lev_max & -> & _ & _ & R). cbn [obind].
  destruct (calcMoment sched' tc' part' lev_max eps limit _) as [moms| |]; cbn [obind]; intros E; try discriminate. injection E as <-. exact R.
Qed.

Section Walk.
  Context {N : arith} (ok : N -> Prop) (val : N -> R) (HO : ordered N ok val).
  Notation okB := (okB ok).

  Lemma not_lt_le (a b : N) : ok a -> ok b -> ((a <? b)%A = false <-> (val b <= val a)%R).
  Proof using HO. intros Ha Hb. destruct (o_lt _ _ _ HO a b Ha Hb) as [H1 H2]. destruct (a <? b)%A; split; intros H; try discriminate; try reflexivity; [specialize (H1 eq_refl); lra|]. apply Rnot_lt_le. intros L. specialize (H2 L). discriminate. Qed.
  Lemma overlapsBox_iff o b : okB o -> okB b -> (overlapsBox o b = true <-> forall c, In c coords -> (val (c (olow o)) <= val (c (ohigh b)) /\ val (c (olow b)) <= val (c (ohigh o)))%R).
  Proof using HO.
    intros Ho Hb. split; [|apply (overlapsBox_ok ok val HO); assumption]. unfold overlapsBox. intros H.
    assert (L : forall c, In c coords -> ok (c (olow o)) /\ ok (c (ohigh o)) /\ ok (c (olow b)) /\ ok (c (ohigh b))) by (intros c Hc; destruct (Ho c Hc), (Hb c Hc); auto).
    assert (Lx := L vx ltac:(cbn; auto)). assert (Ly := L vy ltac:(cbn; auto)). assert (Lz := L vz ltac:(cbn; auto)).
    apply negb_true_iff in H. repeat (apply orb_false_iff in H; let X := fresh "X" in destruct H as [H X]; apply not_lt_le in X; [|tauto|tauto]). apply not_lt_le in H; [|tauto|tauto].
    intros c Hc. destruct Hc as [<-|[<-|[<-|[]]]]; split; assumption.
  Qed.
  Lemma box_in_trans (a b c : ort N) : box_in val a b -> box_in val b c -> box_in val a c.
  Proof using. intros H1 H2 x Hx. destruct (H1 x Hx), (H2 x Hx). split; lra. Qed.
  Lemma overlapsBox_mono o b b' : okB o -> okB b -> okB b' -> box_in val b b' -> overlapsBox o b = true -> overlapsBox o b' = true.
  Proof using HO. intros H1 H2 H3 H4 H. apply overlapsBox_iff; try assumption. intros c Hc. destruct (proj1 (overlapsBox_iff o b H1 H2) H c Hc). destruct (H4 c Hc). split; lra. Qed.

  Definition okM (m : moment N) : Prop := okB (v_out m) /\ okB (v_in m).
  Definition sub (m m' : moment N) : Prop := box_in val (v_out m) (v_out m') /\ box_in val (v_in m) (v_in m').
  Lemma sub_refl m : sub m m. Proof using. split; intros c Hc; split; lra. Qed.
  Lemma sub_trans a b c : sub a b -> sub b c -> sub a c.
  Proof using. intros [H1 H2] [H3 H4]. split; eapply box_in_trans; eassumption. Qed.
  Lemma okM_init : okM initMoment.
  Proof using HO. destruct (o_init _ _ _ HO) as (I1 & I2 & _). split; intros c Hc; destruct Hc as [<-|[<-|[<-|[]]]]; split; assumption. Qed.

  Section Tree.
    Variables (limit : Z) (tc : list cell) (moms : list (moment N)).
    Definition mo (i : Z) : moment N := nth (Z.to_nat i) moms initMoment.
    Lemma mo_at i m : at_ moms i m -> mo i = m.
    Proof using. intros [H1 H2]. unfold mo. apply nth_error_nth. exact H2. Qed.

    (** cell i of level l has the particles a, ..., a+n-1, and g gives for each of them the moments of its leaf *)
    Inductive skel (g : Z -> moment N) : Z -> Z -> Z -> Z -> Prop :=
    | sk_leaf : forall l i a n c, at_ tc i c -> at_ moms i (mo i) -> okM (mo i) -> isLeaf limit c = true -> n_ptcl c = n -> 0 <= n -> (0 < n -> toS32 (adr_ptcl c) = a) ->
        (forall k, a <= k < a + n -> g k = mo i) -> skel g l i a n
    | sk_node : forall l i a n c b cut, at_ tc i c -> at_ moms i (mo i) -> okM (mo i) -> isLeaf limit c = false -> n_ptcl c = n -> 0 < n -> l < 21 -> toS32 (adr_tc c) = b ->
        cut 0 = a -> cut 8 = a + n -> (forall j, 0 <= j < 8 -> cut j <= cut (j + 1)) -> (forall j, 0 <= j < 8 -> 0 < cut (j + 1) - cut j -> sub (mo (b + j)) (mo i)) ->
        (forall j, 0 <= j < 8 -> skel g (l + 1) (b + j) (cut j) (cut (j + 1) - cut j)) -> skel g l i a n.

    Lemma skel_cell g l i a n : skel g l i a n -> exists c, at_ tc i c /\ at_ moms i (mo i) /\ okM (mo i) /\ n_ptcl c = n /\ 0 <= n.
    Proof using. intros H. inversion H; subst; exists c; repeat (split; [assumption|]); try reflexivity; split; try reflexivity; lia. Qed.
    Lemma skel_ext g g' l i a n : skel g l i a n -> (forall k, a <= k < a + n -> g' k = g k) -> skel g' l i a n.
    Proof using.
      intros H. induction H as [l i a n c C1 C2 C3 C4 C5 C6 C7 C8|l i a n c b cut C1 C2 C3 C4 C5 C6 C7 C8 C9 C10 C11 C12 C13 IH]; intros Hg.
      - eapply sk_leaf; try eassumption. intros k Hk. rewrite Hg by assumption. apply C8. assumption.
      - eapply sk_node; try eassumption. intros j Hj. apply IH; [assumption|]. intros k Hk. apply Hg.
        assert (M : forall x m, 0 <= x -> x + Z.of_nat m <= 8 -> cut x <= cut (x + Z.of_nat m)). { intros x m Hx. induction m as [|m IHm]; intros Hm; [rewrite Z.add_0_r; lia|]. specialize (IHm ltac:(lia)). specialize (C11 (x + Z.of_nat m) ltac:(lia)). replace (x + Z.of_nat (S m)) with (x + Z.of_nat m + 1) by lia. lia. }
        pose proof (M 0 (Z.to_nat j)) as M1. replace (0 + Z.of_nat (Z.to_nat j)) with j in M1 by lia. pose proof (M (j + 1) (Z.to_nat (7 - j))) as M2. replace (j + 1 + Z.of_nat (Z.to_nat (7 - j))) with 8 in M2 by lia. lia.
    Qed.
    Lemma skel_sub g l i a n : skel g l i a n -> forall k, a <= k < a + n -> sub (g k) (mo i) /\ okM (g k).
    Proof using.
      intros H. induction H as [l i a n c C1 C2 C3 C4 C5 C6 C7 C8|l i a n c b cut C1 C2 C3 C4 C5 C6 C7 C8 C9 C10 C11 C12 C13 IH]; intros k Hk.
      - rewrite C8 by assumption. split; [apply sub_refl|assumption].
      - destruct (cut_find cut k C11 ltac:(lia)) as (j & Hj & Hkj). destruct (IH j Hj k ltac:(lia)) as (S1 & S2). split; [|assumption]. eapply sub_trans; [exact S1|]. apply C12; [assumption|lia].
    Qed.

    Lemma filter_none (f : Z -> bool) a b : (forall k, a <= k < b -> f k = false) -> filter f (zrange a b) = [].
    Proof using. intros H. rewrite (filter_ext_in f (fun _ => false)); [induction (zrange a b); [reflexivity|assumption]|]. intros k Hk. apply zrange_in in Hk. apply H. lia. Qed.
    Lemma filter_every (f : Z -> bool) a b : (forall k, a <= k < b -> f k = true) -> filter f (zrange a b) = zrange a b.
    Proof using. intros H. rewrite (filter_ext_in f (fun _ => true)); [induction (zrange a b) as [|x l IH]; [reflexivity|cbn; f_equal; assumption]|]. intros k Hk. apply zrange_in in Hk. apply H. lia. Qed.
    Lemma leaf_range g l i a n c : skel g l i a n -> at_ tc i c -> isLeaf limit c = true -> zrange (toS32 (adr_ptcl c)) (toS32 (adr_ptcl c) + n_ptcl c) = zrange a (a + n) /\ forall k, a <= k < a + n -> g k = mo i.
    Proof using.
      intros H Hc Hl. inversion H as [? ? ? ? d C1 C2 C3 C4 C5 C6 C7 C8|? ? ? ? d b cut C1 C2 C3 C4]; subst; assert (d = c) by (apply (at_fun tc i); assumption); subst d; [|congruence].
      split; [|assumption]. destruct (Z.eq_dec (n_ptcl c) 0) as [E|E]; [rewrite E, !zrange_nil by lia; reflexivity|]. rewrite C7 by lia. reflexivity.
    Qed.

    (** ** First step *)
    Lemma scatter_skel g l i a n : skel g l i a n -> forall fuel box acc, okB box -> (Z.to_nat (21 - l) < fuel)%nat -> overlapsBox box (v_out (mo i)) = true ->
      scatterWalk fuel tc moms limit box acc i = Done (acc ++ filter (fun k => overlapsBox box (v_out (g k))) (zrange a (a + n))).
    Proof using HO.
      intros H. induction H as [l i a n c C1 C2 C3 C4 C5 C6 C7 C8|l i a n c b cut C1 C2 C3 C4 C5 C6 C7 C8 C9 C10 C11 C12 C13 IH]; intros fuel box acc Hbox Hf Ho; (destruct fuel as [|fuel]; [lia|]); cbn [scatterWalk]; rewrite (zread_at _ _ _ C1); cbn [obind]; rewrite C4.
      - rewrite filter_every by (intros k Hk; rewrite C8 by assumption; exact Ho). do 2 f_equal. destruct (Z.eq_dec n 0) as [E|E]; [rewrite C5, E, !zrange_nil by lia; reflexivity|]. rewrite C7 by lia. rewrite C5. reflexivity.
      - rewrite <- C9 at 1. rewrite <- C10. apply fold_children; [assumption|]. intros j acc' Hj. rewrite C8. specialize (C13 j Hj). destruct (skel_cell _ _ _ _ _ C13) as (d & D1 & D2 & D3 & D4 & D5).
        rewrite (zread_at _ _ _ D1). cbn [obind]. rewrite (zread_at _ _ _ D2). cbn [obind]. rewrite D4. replace (cut j + (cut (j + 1) - cut j)) with (cut (j + 1)) in * by lia.
        destruct (Z.gtb_spec (cut (j + 1) - cut j) 0) as [Hp|Hp]; [|rewrite zrange_nil by lia; cbn; rewrite app_nil_r; reflexivity].
        destruct (overlapsBox box (v_out (mo (b + j)))) eqn:Eo.
        + rewrite (IH j Hj fuel box acc' Hbox ltac:(lia) Eo). replace (cut j + (cut (j + 1) - cut j)) with (cut (j + 1)) by lia. reflexivity.
        + rewrite filter_none; [rewrite app_nil_r; reflexivity|]. intros k Hk. destruct (skel_sub _ _ _ _ _ C13 k ltac:(lia)) as ((S1 & _) & (S3 & _)).
          destruct (overlapsBox box (v_out (g k))) eqn:E; [|reflexivity]. rewrite (overlapsBox_mono box _ _ Hbox S3 (proj1 D3) S1 E) in Eo. discriminate.
    Qed.

    (** ** Second step *)
    Section Double.
      Variables (A : list cell * list (moment N)) (isOv : ort N -> bool) (dom : ort N).
      Hypotheses (Hdom : okB dom) (HA : forall b, okB b -> isOverlappedTop A 1 b = Done (isOv b)) (HM : forall b b', okB b -> okB b' -> box_in val b b' -> isOv b = true -> isOv b' = true).

      Lemma double_skel g l i a n : skel g l i a n -> forall c fuel acc, at_ tc i c -> isLeaf limit c = false -> (Z.to_nat (21 - l) < fuel)%nat ->
        doubleWalk fuel A (tc, moms) limit dom acc (toS32 (adr_tc c)) = Done (acc ++ filter (fun k => negb (overlapsBox dom (v_out (g k))) && isOv (v_in (g k))) (zrange a (a + n))).
      Proof using HO Hdom HA HM.
        intros H. induction H as [l i a n c C1 C2 C3 C4 C5 C6 C7 C8|l i a n c b cut C1 C2 C3 C4 C5 C6 C7 C8 C9 C10 C11 C12 C13 IH]; intros c' fuel acc Hc' Hl Hf; assert (c' = c) by (apply (at_fun tc i); assumption); subst c'; [congruence|].
        destruct fuel as [|fuel]; [lia|]. cbn [doubleWalk fst snd]. rewrite C8.
        set (bit := fun j => (overlapsBox dom (v_out (mo (b + j))) || isOv (v_in (mo (b + j))), cut (j + 1) - cut j >? 0)).
        rewrite (omap_children _ bit).
        2:{ intros j Hj. destruct (skel_cell _ _ _ _ _ (C13 j Hj)) as (d & D1 & D2 & D3 & D4 & D5). rewrite (zread_at _ _ _ D2), (zread_at _ _ _ D1). cbn [obind]. rewrite D4, overlapsBox_sym. unfold bit.
            destruct (overlapsBox dom (v_out (mo (b + j)))); cbn [obind orb]; [reflexivity|]. rewrite HA by (apply D3). reflexivity. }
        cbn [obind]. rewrite <- C9 at 1. rewrite <- C10. apply fold_children; [assumption|]. intros j acc' Hj. rewrite zread_children by assumption. cbn [obind].
        specialize (C13 j Hj). destruct (skel_cell _ _ _ _ _ C13) as (d & D1 & D2 & D3 & D4 & D5). assert (Sub := skel_sub _ _ _ _ _ C13).
        replace (cut j + (cut (j + 1) - cut j)) with (cut (j + 1)) in * by lia.
        unfold bit at 1 2. cbn [fst snd]. destruct (Z.gtb_spec (cut (j + 1) - cut j) 0) as [Hp|Hp]; cbn [negb]; [|rewrite zrange_nil by lia; cbn; rewrite app_nil_r; reflexivity].
        destruct (overlapsBox dom (v_out (mo (b + j))) || isOv (v_in (mo (b + j)))) eqn:Eb.
        - rewrite (zread_at _ _ _ D1). cbn [obind]. destruct (isLeaf limit d) eqn:El.
          + rewrite (zread_at _ _ _ D2). cbn [obind]. destruct (leaf_range _ _ _ _ _ _ C13 D1 El) as (R1 & R2). replace (cut j + (cut (j + 1) - cut j)) with (cut (j + 1)) in * by lia.
            destruct (overlapsBox dom (v_out (mo (b + j)))) eqn:Eo.
            * rewrite filter_none; [rewrite app_nil_r; reflexivity|]. intros k Hk. rewrite R2 by assumption. rewrite Eo. reflexivity.
            * cbn [orb] in Eb. rewrite filter_every by (intros k Hk; rewrite R2 by assumption; rewrite Eo, Eb; reflexivity). rewrite R1. reflexivity.
          + rewrite (IH j Hj d fuel acc' D1 El ltac:(lia)). replace (cut j + (cut (j + 1) - cut j)) with (cut (j + 1)) by lia. reflexivity.
        - apply orb_false_iff in Eb. destruct Eb as (_ & Eb). rewrite filter_none; [rewrite app_nil_r; reflexivity|]. intros k Hk. destruct (Sub k ltac:(lia)) as ((_ & S2) & (_ & S4)).
          destruct (isOv (v_in (g k))) eqn:E; [|apply andb_false_r]. rewrite (HM _ _ S4 (proj2 D3) S2 E) in Eb. discriminate.
      Qed.
    End Double.

    Lemma isOverlapped_skel g l i a n : skel g l i a n -> forall c fuel box, okB box -> at_ tc i c -> isLeaf limit c = false -> 0 <= limit -> (Z.to_nat (21 - l) < fuel)%nat ->
      isOverlapped fuel tc moms limit box (toS32 (adr_tc c)) = Done (existsb (fun k => overlapsBox (v_out (g k)) box) (zrange a (a + n))).
    Proof using HO.
      intros H. induction H as [l i a n c C1 C2 C3 C4 C5 C6 C7 C8|l i a n c b cut C1 C2 C3 C4 C5 C6 C7 C8 C9 C10 C11 C12 C13 IH]; intros c' fuel box Hbox Hc' Hl H0 Hf; assert (c' = c) by (apply (at_fun tc i); assumption); subst c'; [congruence|].
      destruct fuel as [|fuel]; [lia|]. cbn [isOverlapped]. rewrite C8.
      rewrite (omap_children _ (fun j => overlapsBox (v_out (mo (b + j))) box)).
      2:{ intros j Hj. destruct (skel_cell _ _ _ _ _ (C13 j Hj)) as (d & D1 & D2 & D3 & D4 & D5). rewrite (zread_at _ _ _ D2). reflexivity. }
      cbn [obind]. rewrite <- C9 at 1. rewrite <- C10. apply fold_exists; [assumption|]. intros j found Hj. destruct found; [reflexivity|]. cbn [orb].
      specialize (C13 j Hj). destruct (skel_cell _ _ _ _ _ C13) as (d & D1 & D2 & D3 & D4 & D5). assert (Sub := skel_sub _ _ _ _ _ C13). rewrite (zread_at _ _ _ D1). cbn [obind]. rewrite D4.
      replace (cut j + (cut (j + 1) - cut j)) with (cut (j + 1)) in * by lia.
      destruct (Z.eqb_spec (cut (j + 1) - cut j) 0) as [Hp|Hp]; [rewrite zrange_nil by lia; reflexivity|]. rewrite zread_children by assumption. cbn [obind].
      destruct (overlapsBox (v_out (mo (b + j))) box) eqn:Eo.
      - destruct (isLeaf limit d) eqn:El.
        + f_equal. symmetry. apply existsb_exists. exists (cut j). split; [apply zrange_in; lia|]. rewrite (proj2 (leaf_range _ _ _ _ _ _ C13 D1 El)) by lia. exact Eo.
        + rewrite (IH j Hj d fuel box Hbox D1 El H0 ltac:(lia)). replace (cut j + (cut (j + 1) - cut j)) with (cut (j + 1)) by lia. reflexivity.
      - f_equal. symmetry. apply not_true_iff_false. intros E. apply existsb_exists in E. destruct E as (k & Hk & E). apply zrange_in in Hk. destruct (Sub k ltac:(lia)) as ((S1 & _) & (S3 & _)).
        rewrite overlapsBox_sym in E. rewrite overlapsBox_sym in Eo. rewrite (overlapsBox_mono box _ _ Hbox S3 (proj1 D3) S1 E) in Eo. discriminate.
    Qed.
  End Tree.

  (** ** The trees of TreeSpec *)
  Section Built.
    Variables (keys : list Z) (limit : Z) (tc : list cell) (eps : list (site N)) (moms : list (moment N)) (p : Z -> Z) (lev_max : Z).
    Hypothesis P5 : forall l i, 0 <= l <= lev_max -> p l <= i < p (l + 1) ->
      exists c a, at_ tc i c /\ octree tc keys limit i l a (n_ptcl c) /\ (limit < n_ptcl c -> l < 21 -> l < lev_max /\ p (l + 1) <= adr_tc c /\ adr_tc c + 8 <= p (l + 2)).
    Hypothesis Q : forall l i a n, 0 <= l <= lev_max -> p l <= i < p (l + 1) -> octree tc keys limit i l a n -> measured ok val eps moms i a n.
    Hypotheses (HN : 2 * Z.of_nat (length keys) <= 2 ^ 31) (Hlen : length eps = length keys) (Hlim : 0 <= limit).
    Notation mo := (mo moms).

    Definition holds (g : Z -> moment N) a n : Prop := forall k e, a <= k < a + n -> at_ eps k e -> box_in val (ball e) (v_out (g k)) /\ box_in val (point e) (v_in (g k)).

    Lemma measured_mo i a n : measured ok val eps moms i a n -> 0 <= n -> 0 <= a \/ n = 0 -> at_ moms i (mo i) /\ okM (mo i) /\ holds (fun _ => mo i) a n.
    Proof using HO.
      clear P5 Q HN Hlim Hlen. intros (m & M1 & M2 & M3) Hn Ha. rewrite (mo_at moms i m M1). split; [assumption|]. destruct (Z.eq_dec n 0) as [E|E].
      - rewrite (M2 E). split; [apply okM_init|]. intros k e Hk. lia.
      - destruct (M3 ltac:(lia)) as ((I1 & I2 & _) & (O1 & O2 & _)). split; [split; assumption|]. intros k e Hk He. assert (Hin : In e (range eps a n)) by (apply range_in; [lia|]; exists k; auto). split; [apply O2|apply I2]; apply in_map; assumption.
    Qed.
    Lemma hull_sub bs bs' (o o' : ort N) : hull ok val bs o -> hull ok val bs' o' -> (forall b, In b bs -> In b bs') -> box_in val o o'.
    Proof using.
      clear P5 Q HN Hlim Hlen. intros (_ & _ & H) (_ & H' & _) Hs c Hc. destruct (H c Hc) as ((b1 & B1 & E1) & (b2 & B2 & E2)). rewrite E1, E2. split; [apply (H' b1 (Hs _ B1) c Hc)|apply (H' b2 (Hs _ B2) c Hc)].
    Qed.
    Lemma measured_sub i a n j b m : measured ok val eps moms i a n -> measured ok val eps moms j b m -> 0 < m -> 0 <= a -> a <= b -> b + m <= a + n -> sub (mo j) (mo i).
    Proof using.
      clear P5 Q HN Hlim Hlen. intros (x & X1 & _ & X3) (y & Y1 & _ & Y3) Hm Ha H1 H2. rewrite (mo_at moms i x X1), (mo_at moms j y Y1). destruct (X3 ltac:(lia)) as (X4 & X5). destruct (Y3 ltac:(lia)) as (Y4 & Y5).
      assert (Hs : forall T (f : site N -> T) z, In z (map f (range eps b m)) -> In z (map f (range eps a n))).
      { intros T f z Hz. apply in_map_iff in Hz. destruct Hz as (e & <- & He). apply in_map. apply range_in in He; [|lia]. destruct He as (k & Hk & He). apply range_in; [lia|]. exists k. split; [lia|assumption]. }
      split; eapply hull_sub; try eassumption; apply Hs.
    Qed.

    Lemma octree_skel : forall m l i a n, (Z.to_nat (21 - l) < m)%nat -> 0 <= l <= lev_max -> l <= 21 -> p l <= i < p (l + 1) -> octree tc keys limit i l a n ->
      exists g, skel limit tc moms g l i a n /\ holds g a n.
    Proof using HO P5 Q HN Hlen Hlim.
      induction m as [|m IH]; intros l i a n Hm Hl Hl21 Hi Ho; [lia|]. destruct (octree_cell _ _ _ _ _ _ _ Ho) as (c & C1 & C2 & C3 & C4 & C5).
      assert (Hms := Q l i a n Hl Hi Ho). destruct (measured_mo i a n Hms C4 ltac:(destruct (Z.eq_dec n 0); [right; assumption|left; lia])) as (M1 & M2 & M3).
      inversion Ho as [? ? ? ? c' L1 L2 L3 L4 L5 L6|? ? ? ? c' cut L1 L2 L3 L4 L5 L6 L7 L8 L9 L10 L11 L12 L13 L14]; assert (c' = c) by (apply (at_fun tc i); assumption); subst c'.
      - exists (fun _ => mo i). split; [|assumption]. apply (sk_leaf limit tc moms _ l i a n c); try assumption; [|intros Hp; destruct (C5 Hp) as (-> & ? & ?); apply toS32_id; lia|reflexivity].
        unfold isLeaf. rewrite C3, C2. apply orb_true_iff. destruct L6; [left; apply Z.leb_le; assumption|right; apply Z.eqb_eq; assumption].
      - destruct (P5 l i Hl Hi) as (c' & a' & D1 & _ & D3). assert (c' = c) by (apply (at_fun tc i); assumption). subst c'. destruct D3 as (D3 & D4 & D5); [lia|lia|].
        assert (Hj : forall j, 0 <= j < 8 -> exists g, skel limit tc moms g (l + 1) (adr_tc c + j) (cut j) (cut (j + 1) - cut j) /\ holds g (cut j) (cut (j + 1) - cut j)).
        { intros j Hj. apply IH; try lia; [replace (l + 1 + 1) with (l + 2) by lia; lia|apply L14; assumption]. }
        assert (Mono : forall j, 0 <= j <= 8 -> a <= cut j <= a + n).
        { assert (X : forall x m, 0 <= x -> x + Z.of_nat m <= 8 -> cut x <= cut (x + Z.of_nat m)). { intros x m' Hx. induction m' as [|m' IHm]; intros Hm'; [rewrite Z.add_0_r; lia|]. specialize (IHm ltac:(lia)). specialize (L11 (x + Z.of_nat m') ltac:(lia)). replace (x + Z.of_nat (S m')) with (x + Z.of_nat m' + 1) by lia. lia. }
          intros j Hj'. pose proof (X 0 (Z.to_nat j)) as M1'. replace (0 + Z.of_nat (Z.to_nat j)) with j in M1' by lia. pose proof (X j (Z.to_nat (8 - j))) as M2'. replace (j + Z.of_nat (Z.to_nat (8 - j))) with 8 in M2' by lia. lia. }
        assert (G : forall q, (q <= 8)%nat -> exists g, forall j, 0 <= j < Z.of_nat q -> skel limit tc moms g (l + 1) (adr_tc c + j) (cut j) (cut (j + 1) - cut j) /\ holds g (cut j) (cut (j + 1) - cut j)).
        { induction q as [|q IHq]; intros Hq; [exists (fun _ => mo i); intros; lia|]. destruct IHq as (g & Hg); [lia|]. destruct (Hj (Z.of_nat q) ltac:(lia)) as (h & Hh1 & Hh2).
          exists (fun k => if k <? cut (Z.of_nat q) then g k else h k). intros j Hjq. destruct (Z.eq_dec j (Z.of_nat q)) as [->|Hne].
          - split; [apply (skel_ext limit tc moms h); [assumption|]; intros k Hk; destruct (Z.ltb_spec k (cut (Z.of_nat q))); [lia|reflexivity]|].
            intros k e Hk He. destruct (Z.ltb_spec k (cut (Z.of_nat q))); [lia|]. apply Hh2; assumption.
          - destruct (Hg j ltac:(lia)) as (G1 & G2). assert (Hle : cut (j + 1) <= cut (Z.of_nat q)).
            { assert (X : forall x m, 0 <= x -> x + Z.of_nat m <= 8 -> cut x <= cut (x + Z.of_nat m)). { intros x m' Hx. induction m' as [|m' IHm]; intros Hm'; [rewrite Z.add_0_r; lia|]. specialize (IHm ltac:(lia)). specialize (L11 (x + Z.of_nat m') ltac:(lia)). replace (x + Z.of_nat (S m')) with (x + Z.of_nat m' + 1) by lia. lia. }
              pose proof (X (j + 1) (Z.to_nat (Z.of_nat q - (j + 1)))) as M2'. replace (j + 1 + Z.of_nat (Z.to_nat (Z.of_nat q - (j + 1)))) with (Z.of_nat q) in M2' by lia. lia. }
            split; [apply (skel_ext limit tc moms g); [assumption|]; intros k Hk; destruct (Z.ltb_spec k (cut (Z.of_nat q))); [reflexivity|lia]|].
            intros k e Hk He. destruct (Z.ltb_spec k (cut (Z.of_nat q))); [|lia]. apply G2; assumption. }
        destruct (G 8%nat (le_n 8)) as (g & Hg). change (Z.of_nat 8) with 8 in Hg. exists g. split.
        + apply (sk_node limit tc moms g l i a n c (adr_tc c) cut); try assumption; try lia; [unfold isLeaf; rewrite C3, C2; apply orb_false_iff; split; [apply Z.leb_gt; assumption|apply Z.eqb_neq; unfold levelLimit; lia]|apply toS32_id; lia| |intros j Hj'; apply Hg; assumption].
          intros j Hj' Hp. assert (B1 := Mono j ltac:(lia)). assert (B2 := Mono (j + 1) ltac:(lia)). apply (measured_sub i a n (adr_tc c + j) (cut j) (cut (j + 1) - cut j)); try assumption; try lia.
          apply (Q (l + 1)); [lia|replace (l + 1 + 1) with (l + 2) by lia; lia|apply L14; assumption].
        + intros k e Hk He. destruct (cut_find cut k L11 ltac:(lia)) as (j & Hj' & Hkj). apply (proj2 (Hg j Hj') k e); [lia|assumption].
    Qed.
  End Built.

  (** what the walks need of a tree of n particles *)
  Definition walked (limit : Z) (t : list cell * list (moment N)) (eps : list (site N)) (g : Z -> moment N) : Prop :=
    let n := Z.of_nat (length eps) in
    skel limit (fst t) (snd t) g 0 0 0 n /\ holds eps g 0 n /\ at_ (fst t) 0 (Cell n nChildren 0 0) /\
    (n = 0 -> mo (snd t) 0 = initMoment) /\ (0 < n -> hull ok val (map ball eps) (v_out (mo (snd t) 0))).

  Lemma built_walked junk jm sched sched' keys eps limit tc part : any_order sched -> any_order sched' -> fits limit keys -> length eps = length keys -> length part = 23%nat -> 1 <= limit ->
    usable ok val eps -> exists t g, buildTree junk jm sched sched' keys eps limit tc part = Done t /\ walked limit t eps g.
  Proof using HO.
    intros H1 H2 H3 H4 H5 H6 H7. assert (H3' := H3). destruct H3' as (F1 & F2 & F3). destruct (buildTree_ok ok val HO junk jm sched sched' keys eps limit tc part H1 H2 F1 H4 H5 F2 H6 F3 H7) as (t & E & B).
    destruct t as [tc' moms]. assert (R := buildTree_root _ _ _ _ _ _ _ _ _ _ H1 H3 H5 H6 E). destruct (builds_walk ok val _ _ _ _ _ B) as (p & lev_max & Hlm & P0 & P1 & P5 & Q). destruct B as (B & _).
    destruct (octree_skel keys limit tc' eps moms p lev_max P5 Q F2 H4 ltac:(lia) 22 0 0 0 (Z.of_nat (length keys)) ltac:(lia) ltac:(lia) ltac:(lia)) as (g & G1 & G2); [rewrite P0; change (0 + 1) with 1; lia|assumption|].
    exists (tc', moms), g. split; [assumption|]. unfold walked. cbn [fst snd]. rewrite H4. split; [assumption|]. split; [assumption|]. split; [assumption|].
    destruct (Q 0 0 0 (Z.of_nat (length keys)) ltac:(lia) ltac:(rewrite P0; change (0 + 1) with 1; lia) B) as (m & M1 & M2 & M3). rewrite (mo_at moms 0 m M1). split; [assumption|]. intros Hp. destruct (M3 Hp) as (_ & M4).
    replace (range eps 0 (Z.of_nat (length keys))) with eps in M4; [assumption|]. unfold range. rewrite <- H4, Nat2Z.id. cbn [Z.to_nat skipn]. symmetry. apply firstn_all.
  Qed.

  Section Tops.
    Variables (limit : Z) (t : list cell * list (moment N)) (eps : list (site N)) (g : Z -> moment N).
    Hypotheses (Hlim : 0 <= limit) (W : walked limit t eps g).
    Notation n := (Z.of_nat (length eps)).

    Lemma root_leaf : isLeaf limit (Cell n nChildren 0 0) = (n <=? limit).
    Proof using. unfold isLeaf. cbn [n_ptcl level]. change (0 =? levelLimit) with false. apply orb_false_r. Qed.
    Lemma walked_sub k : 0 <= k < n -> sub (g k) (mo (snd t) 0) /\ okM (g k).
    Proof using W. destruct W as (S & _). intros Hk. apply (skel_sub _ _ _ _ _ _ _ _ S). lia. Qed.
    Lemma walked_root : at_ (snd t) 0 (mo (snd t) 0) /\ okM (mo (snd t) 0).
    Proof using W. destruct W as (S & _). destruct (skel_cell _ _ _ _ _ _ _ _ S) as (c & _ & M1 & M2 & _). auto. Qed.

    Lemma scatterTop_ok box acc : okB box -> scatterTop (fst t) (snd t) limit box acc = Done (acc ++ filter (fun k => overlapsBox box (v_out (g k))) (zrange 0 n)).
    Proof using HO W.
      clear Hlim. intros Hbox. unfold scatterTop. destruct W as (S & _ & R & _). destruct walked_root as (M1 & M2). rewrite (zread_at _ _ _ R), (zread_at _ _ _ M1). cbn [obind n_ptcl].
      destruct (overlapsBox box (v_out (mo (snd t) 0))) eqn:Eo; cbn [andb].
      - destruct (Z.gtb_spec n 0) as [Hp|Hp]; [apply (scatter_skel limit _ _ g 0 0 0 n S); try assumption; lia|]. rewrite zrange_nil by lia. cbn. rewrite app_nil_r. reflexivity.
      - rewrite filter_none; [rewrite app_nil_r; reflexivity|]. intros k Hk. destruct (walked_sub k Hk) as ((S1 & _) & (S3 & _)).
        destruct (overlapsBox box (v_out (g k))) eqn:E; [|reflexivity]. rewrite (overlapsBox_mono box _ _ Hbox S3 (proj1 M2) S1 E) in Eo. discriminate.
    Qed.

    Lemma isOverlappedTop_ok box : okB box -> 0 < n -> isOverlappedTop t limit box = Done (existsb (fun k => overlapsBox (v_out (g k)) box) (zrange 0 n)).
    Proof using HO W Hlim.
      intros Hbox Hn. unfold isOverlappedTop. destruct W as (S & _ & R & _). destruct walked_root as (M1 & M2). rewrite (zread_at _ _ _ R). cbn [obind]. rewrite root_leaf. destruct (n <=? limit) eqn:E.
      - rewrite (zread_at _ _ _ M1). cbn [obind]. f_equal. destruct (leaf_range _ _ _ _ _ _ _ _ _ S R) as (_ & R2); [rewrite root_leaf; assumption|].
        destruct (overlapsBox (v_out (mo (snd t) 0)) box) eqn:Eo; symmetry.
        + apply existsb_exists. exists 0. split; [apply zrange_in; lia|]. rewrite R2 by lia. exact Eo.
        + apply not_true_iff_false. intros X. apply existsb_exists in X. destruct X as (k & Hk & X). apply zrange_in in Hk. rewrite R2 in X by lia. congruence.
      - rewrite <- (toS32_id nChildren) by (unfold nChildren; lia). refine (isOverlapped_skel limit (fst t) (snd t) g 0 0 0 n S (Cell n nChildren 0 0) 22 box Hbox R _ Hlim _); [rewrite root_leaf; assumption|lia].
    Qed.

    Lemma doubleWalkTop_ok A isOv dom acc : okB dom -> (forall b, okB b -> isOverlappedTop A 1 b = Done (isOv b)) -> (forall b b', okB b -> okB b' -> box_in val b b' -> isOv b = true -> isOv b' = true) ->
      doubleWalkTop A t limit dom acc = Done (acc ++ filter (fun k => negb (overlapsBox dom (v_out (g k))) && ((n <=? limit) || isOv (v_in (g k)))) (zrange 0 n)).
    Proof using HO W.
      intros Hdom HA HM. unfold doubleWalkTop. destruct W as (S & _ & R & _). destruct walked_root as (M1 & M2). rewrite (zread_at _ _ _ R). cbn [obind]. rewrite root_leaf. destruct (n <=? limit) eqn:E.
      - rewrite (zread_at _ _ _ M1). cbn [obind]. destruct (leaf_range _ _ _ _ _ _ _ _ _ S R) as (R1 & R2); [rewrite root_leaf; assumption|]. cbn [orb]. rewrite overlapsBox_sym.
        destruct (overlapsBox dom (v_out (mo (snd t) 0))) eqn:Eo.
        + rewrite filter_none; [rewrite app_nil_r; reflexivity|]. intros k Hk. rewrite R2 by lia. rewrite Eo. reflexivity.
        + rewrite filter_every by (intros k Hk; rewrite R2 by lia; rewrite Eo; reflexivity). rewrite R1. reflexivity.
      - rewrite <- (toS32_id nChildren) by (unfold nChildren; lia). destruct t as [tc moms]. cbn [orb fst snd] in *.
        refine (double_skel limit tc moms A isOv dom Hdom HA HM g 0 0 0 n S (Cell n nChildren 0 0) 22 acc R _ _); [rewrite root_leaf; assumption|lia].
    Qed.
  End Tops.
End Walk.
