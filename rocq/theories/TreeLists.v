From Coq Require Import List Arith ZArith Lia Bool Permutation Reals Lra Sorted.
From Flocq Require Import Core BinarySingleNaN.
From Verif Require Import Outcome ListUtil F64 Arith ParticleModel PointsModel MortonModel DomainModel MixProofs TreeModel TreeSpec TreeProofs TreeLink TreeLevels TreeMoment.
Import ListNotations.
Local Open Scope Z_scope.

Lemma tiled_app {G} (size start : G -> Z) gs gs' a b c : tiled size start a gs b -> tiled size start b gs' c -> tiled size start a (gs ++ gs') c.
Proof. intros H. induction H; intros H'; [assumption|]. cbn. constructor; [assumption|]. apply IHtiled. assumption. Qed.

Definition sortedZ : list Z -> Prop := StronglySorted Z.lt.
Lemma sortedZ_app l l' b : sortedZ l -> sortedZ l' -> (forall x, In x l -> x < b) -> (forall x, In x l' -> b <= x) -> sortedZ (l ++ l').
Proof.
  intros H. induction H as [|x l H IH F]; intros H' B B'; [assumption|]. cbn. constructor; [apply IH; try assumption; intros y Hy; apply B; right; assumption|].
  apply Forall_app. split; [assumption|]. apply Forall_forall. intros y Hy. specialize (B x (or_introl eq_refl)). specialize (B' y Hy). lia.
Qed.

Section Walk.
  Context {N : arith} (ok : N -> Prop) (val : N -> R).
  Variables (keys : list Z) (limit : Z) (tc : list cell) (eps : list (site N)) (moms : list (moment N)) (p : Z -> Z) (lev_max : Z).
  Hypothesis P5 : forall l i, 0 <= l <= lev_max -> p l <= i < p (l + 1) ->
    exists c a, at_ tc i c /\ octree tc keys limit i l a (n_ptcl c) /\ (limit < n_ptcl c -> l < 21 -> l < lev_max /\ p (l + 1) <= adr_tc c /\ adr_tc c + 8 <= p (l + 2)).
  Hypothesis Q : forall l i a n, 0 <= l <= lev_max -> p l <= i < p (l + 1) -> octree tc keys limit i l a n -> measured ok val eps moms i a n.
  Hypotheses (HN : 2 * Z.of_nat (length keys) <= 2 ^ 31) (Hlen : length eps = length keys).

  Definition same_keys l a n : Prop := forall k, a <= k < a + n -> keyAt keys k / 8 ^ (21 - l) = keyAt keys a / 8 ^ (21 - l).
  Lemma same_child l a n cut j : 0 <= l < 21 -> cut 0 = a -> cut 8 = a + n -> (forall j, 0 <= j < 8 -> cut j <= cut (j + 1)) ->
    (forall j k, 0 <= j < 8 -> cut j <= k < cut (j + 1) -> digit keys (l + 1) k = j) -> same_keys l a n -> 0 <= j < 8 -> same_keys (l + 1) (cut j) (cut (j + 1) - cut j) /\ a <= cut j /\ cut (j + 1) <= a + n.
  Proof using.
    clear HN Hlen P5 Q. intros Hl C0 C8 Cm Cd Hs Hj.
    assert (Hmono : forall x m, 0 <= x -> x + Z.of_nat m <= 8 -> cut x <= cut (x + Z.of_nat m)). { intros x m Hx. induction m as [|m IH]; intros Hm; [rewrite Z.add_0_r; lia|]. specialize (IH ltac:(lia)). specialize (Cm (x + Z.of_nat m) ltac:(lia)). replace (x + Z.of_nat (S m)) with (x + Z.of_nat m + 1) by lia. lia. }
    assert (B1 : a <= cut j) by (specialize (Hmono 0 (Z.to_nat j)); replace (0 + Z.of_nat (Z.to_nat j)) with j in Hmono by lia; lia).
    assert (B2 : cut (j + 1) <= a + n) by (specialize (Hmono (j + 1) (Z.to_nat (8 - (j + 1)))); replace (j + 1 + Z.of_nat (Z.to_nat (8 - (j + 1)))) with 8 in Hmono by lia; lia).
    split; [|lia]. intros k Hk'. assert (E : forall x, cut j <= x < cut (j + 1) -> keyAt keys x / 8 ^ (21 - (l + 1)) = 8 * (keyAt keys a / 8 ^ (21 - l)) + j).
    { intros x Hx. rewrite <- (Hs x) by lia. specialize (Cd j x Hj Hx). unfold digit in Cd. replace (21 - l) with (21 - (l + 1) + 1) by lia. rewrite Z.pow_add_r by lia. change (8 ^ 1) with 8. rewrite <- Z.div_div by lia.
      rewrite (Z.div_mod (keyAt keys x / 8 ^ (21 - (l + 1))) 8) at 1 by lia. rewrite Cd. reflexivity. }
    rewrite !E by lia. reflexivity.
  Qed.

  Lemma groups_ok grpLimit : limit <= grpLimit -> forall fuel l i a n ipg, (Z.to_nat (21 - l) < fuel)%nat -> 0 <= l <= lev_max -> l <= 21 -> p l <= i < p (l + 1) -> octree tc keys limit i l a n -> same_keys l a n ->
    exists gs, makeIPGroup fuel tc moms grpLimit ipg i = Done (ipg ++ gs) /\ tiled g_n g_adr a gs (a + n) /\ forall g, In g gs -> grouped ok val keys eps grpLimit g.
  Proof using P5 Q HN Hlen.
    intros Hgl. induction fuel as [|fuel IH]; intros l i a n ipg Hf Hl Hl21 Hi Ho Hs; [lia|]. cbn [makeIPGroup]. destruct (octree_cell _ _ _ _ _ _ _ Ho) as (c & C1 & C2 & C3 & C4 & C5). rewrite (zread_at _ _ _ C1). cbn [obind].
    destruct (Z.eqb_spec (n_ptcl c) 0) as [Hz|Hz]. { exists []. rewrite app_nil_r. split; [reflexivity|]. replace (a + n) with a by lia. split; [constructor|intros g []]. }
    destruct C5 as (C5 & C6 & C7); [lia|].
    assert (Hleaf : (n <= grpLimit \/ l = 21) -> exists gs, (do m <- zread moms i; Done (ipg ++ [Group n (toS32 (adr_ptcl c)) (v_in m) (v_out m)])) = Done (ipg ++ gs) /\ tiled g_n g_adr a gs (a + n) /\ forall g, In g gs -> grouped ok val keys eps grpLimit g).
    { intros Hx. destruct (Q l i a n Hl Hi Ho) as (m & M1 & _ & M2). destruct (M2 ltac:(lia)) as (M3 & M4). rewrite (zread_at _ _ _ M1). cbn [obind]. rewrite C5, toS32_id by lia. eexists. split; [reflexivity|]. split.
      - apply (tiled_cons g_n g_adr (Group n a (v_in m) (v_out m))); cbn [g_n g_adr]; [lia|constructor].
      - intros g [<-|[]]. split; [|split; assumption]. cbn [g_n g_adr]. destruct Hx as [Hx|Hx]; [left; assumption|right]. intros k Hk'. specialize (Hs k Hk'). rewrite Hx in Hs. change (8 ^ (21 - 21)) with 1 in Hs. rewrite !Z.div_1_r in Hs. assumption. }
    unfold isLeaf. rewrite C3, C2. destruct ((n <=? grpLimit) || (l =? levelLimit)) eqn:El.
    - apply Hleaf. apply orb_true_iff in El. destruct El as [El|El]; [left; apply Z.leb_le; assumption|right; apply Z.eqb_eq; assumption].
    - apply orb_false_iff in El. destruct El as (El1 & El2). apply Z.leb_gt in El1. apply Z.eqb_neq in El2. unfold levelLimit in El2.
      inversion Ho as [? ? ? ? c' L1 L2 L3 L4 L5 L6|? ? ? ? c' cut L1 L2 L3 L4 L5 L6 L7 L8 L9 L10 L11 L12 L13 L14]; assert (c' = c) by (apply (at_fun tc i); assumption); subst c'; [lia|].
      rewrite toS32_id by lia. destruct (P5 l i Hl Hi) as (c' & a' & D1 & _ & D3). assert (c' = c) by (apply (at_fun tc i); assumption). subst c'. destruct D3 as (D3 & D4 & D5); [lia|lia|].
      assert (HH : forall m, (m <= 8)%nat -> exists gs, ofold (fun ipg i => makeIPGroup fuel tc moms grpLimit ipg (adr_tc c + i)) (zrange 0 (Z.of_nat m)) ipg = Done (ipg ++ gs) /\ tiled g_n g_adr a gs (cut (Z.of_nat m)) /\ forall g, In g gs -> grouped ok val keys eps grpLimit g).
      { induction m as [|m IHm]; intros Hm.
        - exists []. rewrite app_nil_r. split; [reflexivity|]. change (Z.of_nat 0) with 0. rewrite L9. split; [constructor|intros g []].
        - destruct IHm as (gs & E & T & Hg); [lia|]. replace (Z.of_nat (S m)) with (Z.of_nat m + 1) by lia. rewrite zrange_snoc by lia. rewrite ofold_app, E. cbn [obind ofold]. set (j := Z.of_nat m) in *. assert (Hj : 0 <= j < 8) by lia.
          destruct (same_child l a n cut j) as (S1 & S2 & S3); try assumption; [lia|].
          destruct (IH (l + 1) (adr_tc c + j) (cut j) (cut (j + 1) - cut j) (ipg ++ gs)) as (gs' & E' & T' & Hg'); [lia|lia|lia|replace (l + 1 + 1) with (l + 2) by lia; lia|apply L14; assumption|assumption|]. rewrite E'. cbn [obind].
          exists (gs ++ gs'). rewrite app_assoc. split; [reflexivity|]. replace (cut j + (cut (j + 1) - cut j)) with (cut (j + 1)) in T' by lia. split; [apply (tiled_app _ _ _ _ _ _ _ T T')|]. intros g Hgi. apply in_app_or in Hgi. destruct Hgi; auto. }
      destruct (HH 8%nat (le_n 8)) as (gs & E & T & Hg). exists gs. split; [exact E|]. change (Z.of_nat 8) with 8 in T. rewrite L10 in T. auto.
  Qed.

  Section List.
    Variables (tin tout : ort N) (strong : site N -> Prop).
    Hypothesis S1 : forall e, In e eps -> strong e -> isInEpList tin tout e = true.
    Hypothesis S2 : forall e m, In e eps -> strong e -> (forall c, In c coords -> (ok (c (olow (v_in m))) /\ ok (c (ohigh (v_in m)))) /\ ok (c (olow (v_out m))) /\ ok (c (ohigh (v_out m)))) -> box_in val (point e) (v_in m) -> box_in val (ball e) (v_out m) -> openBit tin tout m = true.
    Definition picks (a n : Z) (l : list Z) : Prop := sortedZ l /\ (forall k, In k l -> a <= k < a + n /\ exists e, at_ eps k e /\ isInEpList tin tout e = true) /\ forall k e, a <= k < a + n -> at_ eps k e -> strong e -> In k l.

    Lemma copy_ok a n acc : 0 <= a -> 0 <= n -> a + n <= Z.of_nat (length keys) -> exists l, copyInfoClose eps tin tout a n acc = Done (acc ++ l) /\ picks a n l.
    Proof using S1 Hlen.
      intros Ha Hn. revert n Hn. unfold copyInfoClose. refine (natlike_ind _ _ _).
      - intros _. exists []. rewrite Z.add_0_r, zrange_nil, app_nil_r by lia. split; [reflexivity|]. split; [constructor|]. split; [intros k []|intros; lia].
      - intros n Hn IH Hb. destruct IH as (l & E & L1 & L2 & L3); [lia|]. replace (a + Z.succ n) with (a + n + 1) by lia. rewrite zrange_snoc by lia. rewrite ofold_app, E. cbn [obind ofold].
        destruct (at_ex eps (a + n)) as (e & He); [lia|]. rewrite (zread_at _ _ _ He). cbn [obind]. destruct (isInEpList tin tout e) eqn:Ei.
        + exists (l ++ [a + n]). rewrite app_assoc. split; [reflexivity|]. split; [|split].
          * apply (sortedZ_app _ _ (a + n)); [assumption|repeat constructor|intros x Hx; apply L2 in Hx; lia|intros x [<-|[]]; lia].
          * intros k Hk'. apply in_app_or in Hk'. destruct Hk' as [Hk'|[<-|[]]]; [destruct (L2 k Hk') as (B & R); split; [lia|assumption]|]. split; [lia|]. exists e. auto.
          * intros k f Hk' Hf Hst. apply in_or_app. destruct (Z.eq_dec k (a + n)) as [->|Hne]; [right; left; reflexivity|left; apply (L3 k f); try assumption; lia].
        + exists l. split; [reflexivity|]. split; [assumption|]. split; [intros k Hk'; destruct (L2 k Hk') as (B & R); split; [lia|assumption]|].
          intros k f Hk' Hf Hst. destruct (Z.eq_dec k (a + n)) as [->|Hne]; [|apply (L3 k f); try assumption; lia]. exfalso. assert (f = e) by (apply (at_fun eps (a + n)); assumption). subst f. rewrite S1 in Ei; [discriminate| |assumption]. destruct He as (_ & He). apply nth_error_In in He. assumption.
    Qed.

    Lemma list_ok : forall fuel l i a n acc, (Z.to_nat (21 - l) < fuel)%nat -> 0 <= l <= lev_max -> l <= 21 -> p l <= i < p (l + 1) -> octree tc keys limit i l a n ->
      exists r, makeList fuel tc moms eps limit tin tout acc i = Done (acc ++ r) /\ picks a n r.
    Proof using P5 Q HN S1 S2 Hlen.
      induction fuel as [|fuel IH]; intros l i a n acc Hf Hl Hl21 Hi Ho; [lia|]. cbn [makeList]. destruct (octree_cell _ _ _ _ _ _ _ Ho) as (c & C1 & C2 & C3 & C4 & C5). rewrite (zread_at _ _ _ C1). cbn [obind].
      assert (Hempty : n = 0 -> picks a n []). { intros ->. split; [constructor|]. split; [intros k []|intros; lia]. }
      inversion Ho as [? ? ? ? c' L1 L2 L3 L4 L5 L6|? ? ? ? c' cut L1 L2 L3 L4 L5 L6 L7 L8 L9 L10 L11 L12 L13 L14]; assert (c' = c) by (apply (at_fun tc i); assumption); subst c'; unfold isLeaf; rewrite C3, C2.
      - replace ((n <=? limit) || (l =? levelLimit)) with true by (symmetry; apply orb_true_iff; destruct L6; [left; apply Z.leb_le; assumption|right; apply Z.eqb_eq; assumption]).
        destruct (Z.eq_dec n 0) as [Hz|Hz]; [exists []; rewrite app_nil_r; split; [unfold copyInfoClose; rewrite Hz, Z.add_0_r, zrange_nil by lia; reflexivity|auto]|]. destruct C5 as (C5 & C6 & C7); [lia|]. rewrite C5, toS32_id by lia. apply copy_ok; lia.
      - replace ((n <=? limit) || (l =? levelLimit)) with false by (symmetry; apply orb_false_iff; split; [apply Z.leb_gt; assumption|apply Z.eqb_neq; unfold levelLimit; lia]).
        rewrite toS32_id by lia. destruct (P5 l i Hl Hi) as (c' & a' & D1 & _ & D3). assert (c' = c) by (apply (at_fun tc i); assumption). subst c'. destruct D3 as (D3 & D4 & D5); [lia|lia|]. match goal with |- context [ofold ?F _ _] => set (G := F) end.
        assert (HH : forall m, (m <= 8)%nat -> exists r, ofold G (zrange 0 (Z.of_nat m)) acc = Done (acc ++ r) /\ picks a (cut (Z.of_nat m) - a) r /\ a <= cut (Z.of_nat m)).
        { induction m as [|m IHm]; intros Hm.
          - exists []. rewrite app_nil_r. split; [reflexivity|]. change (Z.of_nat 0) with 0. rewrite L9. split; [|lia]. split; [constructor|]. split; [intros k []|intros; lia].
          - destruct IHm as (r & E & (R1 & R2 & R3) & Hle); [lia|]. replace (Z.of_nat (S m)) with (Z.of_nat m + 1) by lia. rewrite zrange_snoc by lia. rewrite ofold_app, E. cbn [obind ofold]. set (j := Z.of_nat m) in *. assert (Hj : 0 <= j < 8) by lia.
            assert (Hchild : p (l + 1) <= adr_tc c + j < p (l + 1 + 1)) by (replace (l + 1 + 1) with (l + 2) by lia; lia). specialize (L11 j Hj).
            destruct (octree_cell _ _ _ _ _ _ _ (L14 j Hj)) as (d & E1 & E2 & E3 & E4 & E5). destruct (Q (l + 1) (adr_tc c + j) (cut j) (cut (j + 1) - cut j) ltac:(lia) Hchild (L14 j Hj)) as (md & Md & Mz & Mp).
            unfold G at 1. cbv zeta. rewrite (zread_at _ _ _ E1). cbn [obind]. rewrite (zread_at _ _ _ Md). cbn [obind].
            assert (Hkeep : (forall k e, cut j <= k < cut (j + 1) -> at_ eps k e -> strong e -> False) -> picks a (cut (j + 1) - a) r).
            { intros Hno. split; [assumption|]. split; [intros k Hk'; destruct (R2 k Hk') as (B & R); split; [lia|assumption]|]. intros k e Hk' He Hst. destruct (Z.lt_ge_cases k (cut j)); [apply (R3 k e); try assumption; lia|]. exfalso. apply (Hno k e); try assumption; lia. }
            destruct (Z.gtb_spec (n_ptcl d) 0) as [Hd|Hd]; [|exists r; split; [reflexivity|]; split; [apply Hkeep; intros; lia|lia]]. destruct (Mp ltac:(lia)) as ((U1 & U2 & _) & (U3 & U4 & _)). destruct (openBit tin tout md) eqn:Eo.
            + destruct (IH (l + 1) (adr_tc c + j) (cut j) (cut (j + 1) - cut j) (acc ++ r)) as (r' & E' & Q1 & Q2 & Q3); [lia|lia|lia|assumption|apply L14; assumption|]. rewrite E'. cbn [obind]. exists (r ++ r'). rewrite app_assoc. split; [reflexivity|]. split; [|lia]. split; [|split].
              * apply (sortedZ_app _ _ (cut j)); [assumption|assumption|intros x Hx; apply R2 in Hx; lia|intros x Hx; apply Q2 in Hx; lia].
              * intros k Hk'. apply in_app_or in Hk'. destruct Hk' as [Hk'|Hk']; [destruct (R2 k Hk') as (B & R)|destruct (Q2 k Hk') as (B & R)]; (split; [lia|assumption]).
              * intros k e Hk' He Hst. apply in_or_app. destruct (Z.lt_ge_cases k (cut j)); [left; apply (R3 k e)|right; apply (Q3 k e)]; try assumption; lia.
            + exists r. split; [reflexivity|]. split; [|lia]. apply Hkeep. intros k e Hk' He Hst. destruct E5 as (_ & E5 & _); [lia|].
              assert (Hin : In e (range eps (cut j) (cut (j + 1) - cut j))) by (apply range_in; [assumption|]; exists k; split; [lia|assumption]).
              rewrite (S2 e md) in Eo; [discriminate| |assumption|intros cc Hcc; split; [apply U1; assumption|apply U3; assumption]|apply U2, in_map; assumption|apply U4, in_map; assumption]. destruct He as (_ & He). apply nth_error_In in He. assumption. }
        destruct (HH 8%nat (le_n 8)) as (r & E & R & _). exists r. split; [exact E|]. change (Z.of_nat 8) with 8 in R. rewrite L10 in R. replace (a + n - a) with n in R by lia. assumption.
    Qed.
  End List.
End Walk.
