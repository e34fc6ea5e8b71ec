From Coq Require Import List Arith ZArith Lia Bool Permutation.
From Verif Require Import Outcome ListUtil Arith ParticleModel PointsModel MortonModel DomainModel MixProofs TreeModel TreeSpec TreeProofs TreeLink TreeLevels.
Import ListNotations.
Local Open Scope Z_scope.

Section Oct.
  Variables (keys : list Z) (limit : Z) (Hk : sorted_keys keys) (HN : 2 * Z.of_nat (length keys) <= 2 ^ 31) (Hlim : 1 <= limit) (HQ : 8 + 168 * (Z.of_nat (length keys) / (limit + 1)) < 2 ^ 31).
  Notation N := (Z.of_nat (length keys)).

  Lemma final_octree tc part p lev_max : Final keys limit tc part p lev_max -> forall m l i c a, 21 - l <= Z.of_nat m -> 0 <= l <= lev_max -> p l <= i < p (l + 1) -> at_ tc i c -> (0 < n_ptcl c -> a = adr_ptcl c) ->
    octree tc keys limit i l a (n_ptcl c).
  Proof using Hk Hlim.
    intros (Hlm & (T1 & T2 & T3 & T4) & Hpl & Hmax & Hcells). induction m as [|m IH]; intros l i c a Hm Hl Hi Hc Ha.
    all: destruct (Hcells l i Hl Hi) as (c' & Hc' & (G1 & G2 & G3) & Hin); assert (c' = c) by (apply (at_fun tc i); assumption); subst c'.
    - apply (leaf_cell _ _ _ _ _ _ _ c); try assumption; try reflexivity; [|lia]. intros Hp. rewrite (Ha Hp). destruct (G3 Hp) as (S1 & S2 & _). auto.
    - destruct (Z.le_gt_cases (n_ptcl c) limit) as [Hs|Hb].
      { apply (leaf_cell _ _ _ _ _ _ _ c); try assumption; try reflexivity; [|lia]. intros Hp. rewrite (Ha Hp). destruct (G3 Hp) as (S1 & S2 & _). auto. }
      destruct (Z.eq_dec l 21) as [->|Hl21].
      { apply (leaf_cell _ _ _ _ _ _ _ c); try assumption; try reflexivity; [|lia]. intros Hp. rewrite (Ha Hp). destruct (G3 Hp) as (S1 & S2 & _). auto. }
      destruct (Hin Hb ltac:(lia)) as (H1 & H2 & H3 & Hkd). assert (Hsh := G3 ltac:(lia)). rewrite (Ha ltac:(lia)). assert (Hsh' := Hsh). destruct Hsh' as (S1 & S2 & _).
      assert (Hp2 : p (l + 2) <= Z.of_nat (length tc)).
      { assert (Hmon : forall k, (l + 2 + Z.of_nat k <= lev_max + 1) -> p (l + 2) <= p (l + 2 + Z.of_nat k)).
        { induction k as [|k IHk]; intros Hk'; [rewrite Z.add_0_r; lia|]. specialize (IHk ltac:(lia)). replace (l + 2 + Z.of_nat (S k)) with (l + 2 + Z.of_nat k + 1) by lia. assert (p (l + 2 + Z.of_nat k) <= p (l + 2 + Z.of_nat k + 1)) by (apply T3; lia). lia. }
        specialize (Hmon (Z.to_nat (lev_max + 1 - (l + 2)))). replace (l + 2 + Z.of_nat (Z.to_nat (lev_max + 1 - (l + 2)))) with (lev_max + 1) in Hmon by lia. lia. }
      assert (Hp0 : 0 <= p (l + 1)). { assert (0 <= p l) by (apply (at_lt tc) in Hc; clear - T2 T3 Hl; replace l with (0 + Z.of_nat (Z.to_nat l)) by lia; assert (Z.of_nat (Z.to_nat l) <= lev_max) by lia; revert H; generalize (Z.to_nat l); intros m; induction m as [|m IHm]; intros Hm; [rewrite Z.add_0_r; lia|]; specialize (IHm ltac:(lia)); replace (0 + Z.of_nat (S m)) with (0 + Z.of_nat m + 1) by lia; assert (p (0 + Z.of_nat m) <= p (0 + Z.of_nat m + 1)) by (apply T3; lia); lia). assert (p l <= p (l + 1)) by (apply T3; lia). lia. }
      apply (inner_cell _ _ _ _ _ _ _ c (cut keys l (adr_ptcl c) (n_ptcl c))); try assumption; try reflexivity; try lia.
      + apply cut_0; try assumption; lia.
      + apply cut_8; try assumption; lia.
      + intros j Hj. apply cut_mono; try assumption; lia.
      + intros j k Hj Hk'. apply (cut_digit keys Hk l (adr_ptcl c) (n_ptcl c)); try assumption; lia.
      + intros j Hj. destruct (Hkd j Hj) as (d & D1 & D2 & D3 & D4). rewrite <- D3. apply IH; try assumption; try lia.
        * replace (l + 1 + 1) with (l + 2) by lia. lia.
  Qed.
  Lemma final_layered tc part p lev_max : Final keys limit tc part p lev_max -> p 1 = 8 -> layered tc keys limit part lev_max.
  Proof using Hk Hlim.
    intros HF Hp1. assert (HF' := HF). destruct HF' as (Hlm & (T1 & T2 & T3 & T4) & Hpl & Hmax & Hcells). split; [assumption|]. exists p. split; [assumption|]. split; [assumption|]. split; [assumption|]. split; [assumption|]. split; [assumption|].
    intros l i Hl Hi. destruct (Hcells l i Hl Hi) as (c & Hc & _ & Hin). exists c, (adr_ptcl c). split; [assumption|]. split.
    - apply (final_octree tc part p lev_max HF 22); try assumption; try lia.
    - intros Hb Hl'. destruct (Hin Hb Hl') as (H1 & H2 & H3 & _). auto.
  Qed.

  Lemma writes_ok tc : (16 <= length tc)%nat -> exists tc', ofold (fun tc k => zwrite tc k (Cell 0 onlyMSB onlyMSB 0)) (zrange 1 nChildren) tc = Done tc' /\ length tc' = length tc /\
    (forall k e, ~ 1 <= k < 8 -> at_ tc' k e <-> at_ tc k e) /\ forall k, 1 <= k < 8 -> at_ tc' k (Cell 0 onlyMSB onlyMSB 0).
  Proof using. clear Hk HN Hlim HQ.
    intros Hl. assert (H : forall m, (m <= 7)%nat -> exists tc', ofold (fun tc k => zwrite tc k (Cell 0 onlyMSB onlyMSB 0)) (zrange 1 (1 + Z.of_nat m)) tc = Done tc' /\ length tc' = length tc /\
      (forall k e, ~ 1 <= k < 1 + Z.of_nat m -> at_ tc' k e <-> at_ tc k e) /\ forall k, 1 <= k < 1 + Z.of_nat m -> at_ tc' k (Cell 0 onlyMSB onlyMSB 0)).
    { induction m as [|m IH]; intros Hm.
      - exists tc. rewrite zrange_nil by lia. split; [reflexivity|]. split; [reflexivity|]. split; [reflexivity|]. intros; lia.
      - destruct (IH ltac:(lia)) as (tc1 & E1 & L1 & K1 & C1). replace (1 + Z.of_nat (S m)) with (1 + Z.of_nat m + 1) by lia. rewrite zrange_snoc by lia. rewrite ofold_app, E1. cbn [obind ofold].
        destruct (zwrite_at tc1 (1 + Z.of_nat m) (Cell 0 onlyMSB onlyMSB 0)) as (tc2 & -> & W1 & W2 & W3); [lia|]. cbn [obind]. exists tc2. split; [reflexivity|]. split; [lia|]. split.
        + intros k e Hk'. rewrite W3 by lia. apply K1. lia.
        + intros k Hk'. destruct (Z.eq_dec k (1 + Z.of_nat m)) as [->|]; [assumption|]. apply W3; [assumption|]. apply C1. lia. }
    destruct (H 7%nat (le_n 7)) as (tc' & E). exists tc'. exact E.
  Qed.

  Lemma linkCell_full junk sched tc part : (forall l n, Permutation (sched l n) (seq 0 n)) -> length part = 23%nat ->
    exists tc' part' lev_max, linkCell junk sched keys limit tc part = Done (tc', part', lev_max) /\ octree tc' keys limit 0 0 0 N /\ layered tc' keys limit part' lev_max /\ at_ tc' 0 (Cell (Z.of_nat (length keys)) nChildren 0 0).
  Proof using Hk HN Hlim HQ.
    intros Hsch Hpart. unfold linkCell. set (tc0 := resize junk (nChildren * 2) tc).
    assert (L0 : length tc0 = 16%nat). { subst tc0. unfold resize. rewrite app_length, firstn_length, map_length, seq_length. change (Z.to_nat (nChildren * 2)) with 16%nat. lia. }
    destruct (zwrite_at tc0 0 (Cell N nChildren 0 0)) as (tc1 & -> & L1 & A1 & K1); [lia|]. cbn [obind].
    destruct (writes_ok tc1) as (tc2 & -> & L2 & K2 & A2); [lia|]. cbn [obind].
    destruct (zwrite_at part 0 0) as (part1 & -> & P1 & PA1 & PK1); [lia|]. cbn [obind].
    destruct (zwrite_at part1 1 nChildren) as (part2 & -> & P2 & PA2 & PK2); [lia|]. cbn [obind].
    assert (R : at_ tc2 0 (Cell N nChildren 0 0)) by (apply K2; [lia|assumption]).
    assert (Hsh : shared keys 0 0 N).
    { split; [lia|]. split; [lia|]. intros k Hk'. unfold pre. rewrite !Z.div_small; [reflexivity| |]; assert (HH := Hk 0 k ltac:(lia) ltac:(lia) ltac:(lia)); change (8 ^ (21 - 0)) with (8 ^ 21); lia. }
    set (p := fun l : Z => if l =? 0 then 0 else 8).
    assert (Htab : table part2 p 0).
    { split; [lia|]. split; [reflexivity|]. split; [intros l Hl; replace l with 0 by lia; cbn; lia|].
      intros l Hl. destruct (Z.eq_dec l 0) as [->|]; [apply PK2; [lia|assumption]|]. replace l with 1 by lia. assumption. }
    assert (Hcells : forall i, 0 <= i < 8 -> exists c, at_ tc2 i c /\ good keys 0 c /\ (i = 0 -> c = Cell N nChildren 0 0) /\ (i <> 0 -> n_ptcl c = 0)).
    { intros i Hi. destruct (Z.eq_dec i 0) as [->|Hne].
      - eexists. split; [exact R|]. split; [|split; [reflexivity|intros []; reflexivity]]. split; [reflexivity|]. split; [cbn; lia|]. intros _. assumption.
      - eexists. split; [apply A2; lia|]. split; [|split; [intros; contradiction|reflexivity]]. split; [reflexivity|]. split; [cbn; lia|]. cbn. lia. }
    assert (Hroot : forall tc' part' p' lev_max, Final keys limit tc' part' p' lev_max -> p' 0 = 0 -> p' 1 = 8 -> at_ tc' 0 (Cell N nChildren 0 0) -> octree tc' keys limit 0 0 0 N /\ layered tc' keys limit part' lev_max /\ at_ tc' 0 (Cell N nChildren 0 0)).
    { intros tc' part' p' lev_max HF E0 E1 Hr. split; [|split; [apply (final_layered tc' part' p'); assumption|assumption]].
      apply (final_octree tc' part' p' lev_max HF 21 0 0 (Cell N nChildren 0 0) 0); try assumption; try lia; try (destruct HF as (HF & _); lia); try (cbn; lia); try (change (0 + 1) with 1; rewrite E0, E1; lia). }
    destruct (Z.leb_spec N limit) as [Hle|Hgt].
    - exists tc2, part2, 0. split; [reflexivity|]. apply (Hroot tc2 part2 p 0); try reflexivity; try assumption. split; [lia|]. split; [assumption|]. change (p (0 + 1)) with 8. split; [lia|]. split; [lia|].
      intros l i Hl Hi. replace l with 0 in * by lia. change (p 0) with 0 in Hi. change (p (0 + 1)) with 8 in Hi. destruct (Hcells i Hi) as (c & C1 & C2 & C3 & C4). exists c. split; [assumption|]. split; [assumption|].
      intros Hb. exfalso. destruct (Z.eq_dec i 0) as [E|E]; [rewrite (C3 E) in Hb; cbn in Hb; lia|rewrite (C4 E) in Hb; lia].
    - assert (Hnn : forall i, 0 <= i < 8 -> nn tc2 i = if i =? 0 then N else 0).
      { intros i Hi. destruct (Hcells i Hi) as (c & C1 & _ & C3 & C4). rewrite (nn_at _ _ _ C1). destruct (Z.eqb_spec i 0) as [E|E]; [rewrite (C3 E); reflexivity|apply C4; assumption]. }
      assert (Hcnt : cnt limit tc2 0 8 = 1).
      { unfold cnt. rewrite (filter_ext_in (nl limit tc2) (fun i => i =? 0)).
        - reflexivity.
        - intros i Hi. apply zrange_in in Hi. unfold nl. rewrite (Hnn i Hi). destruct (Z.eqb_spec i 0); [apply Z.ltb_lt; lia|apply Z.ltb_ge; lia]. }
      destruct (linkLevels_ok keys limit Hk HN Hlim HQ junk sched Hsch 22 tc2 part2 p 0 0 8) as (tc' & part' & p' & lev_max & E & HF & Hp & Hold); [lia| |].
      { split; [lia|]. split; [lia|]. split; [reflexivity|]. split; [reflexivity|]. split; [assumption|]. split; [intros l i Hl; lia|]. split.
        - intros i Hi. destruct (Hcells i Hi) as (c & C1 & C2 & C3 & C4). exists c. split; [assumption|]. split; [assumption|]. intros Hb. destruct (Z.eq_dec i 0) as [E|E]; [|rewrite (C4 E) in Hb; lia].
          rewrite (C3 E), E. unfold cnt. rewrite zrange_nil by lia. reflexivity.
        - split; [rewrite Hcnt; lia|]. split; [|lia]. rewrite (sumZ_ext _ (fun i => if i =? 0 then N else 0)); [change (zrange 0 8) with [0; 1; 2; 3; 4; 5; 6; 7]; cbn; lia|].
          intros i Hi. apply zrange_in in Hi. apply Hnn. assumption. }
      exists tc', part', lev_max. split; [exact E|]. apply (Hroot tc' part' p'); try assumption; try (rewrite Hp by lia; reflexivity). apply Hold; [lia|assumption].
  Qed.
  Lemma linkCell_ok junk sched tc part : (forall l n, Permutation (sched l n) (seq 0 n)) -> length part = 23%nat ->
    exists tc' part' lev_max, linkCell junk sched keys limit tc part = Done (tc', part', lev_max) /\ octree tc' keys limit 0 0 0 N /\ layered tc' keys limit part' lev_max.
  Proof using Hk HN Hlim HQ.
    intros H1 H2. destruct (linkCell_full junk sched tc part H1 H2) as (tc' & part' & lev_max & E & R & L & _). exists tc', part', lev_max. auto.
  Qed.
End Oct.
