From Coq Require Import List Arith ZArith Lia Bool Permutation.
From Verif Require Import Outcome ListUtil Arith ParticleModel PointsModel MortonModel DomainModel MixProofs TreeModel TreeSpec TreeProofs.
Import ListNotations.
Local Open Scope Z_scope.

Lemma toS32_id u : u < 2 ^ 31 -> toS32 u = u.
Proof. intros H. unfold toS32. destruct (Z.ltb_spec u (2 ^ 31)); lia. Qed.
Lemma toU32_id u : 0 <= u < 2 ^ 31 -> toU32 u = u.
Proof. intros H. unfold toU32. apply Z.mod_small. lia. Qed.
Lemma toS32_U32 z : - 2 ^ 31 <= z < 2 ^ 31 -> toS32 (toU32 z) = z.
Proof.
  intros H. unfold toS32, toU32. destruct (Z.lt_ge_cases z 0) as [Hz|Hz].
  - replace (z mod 2 ^ 32) with (z + 2 ^ 32). 2:{ symmetry. rewrite <- (Z.mod_small (z + 2 ^ 32) (2 ^ 32)) by lia. rewrite <- (Z.mod_add z 1 (2 ^ 32)) by lia. f_equal. }
    destruct (Z.ltb_spec (z + 2 ^ 32) (2 ^ 31)); lia.
  - rewrite Z.mod_small by lia. destruct (Z.ltb_spec z (2 ^ 31)); lia.
Qed.
Lemma getMSB_small u : 0 <= u < 2 ^ 31 -> getMSB u = false.
Proof. intros H. unfold getMSB. destruct (Z.eq_dec u 0) as [->|]; [reflexivity|]. apply Z.bits_above_log2; [lia|]. apply Z.log2_lt_pow2; lia. Qed.

Lemma zrange_length a b : length (zrange a b) = Z.to_nat (b - a).
Proof. unfold zrange. now rewrite map_length, seq_length. Qed.
Lemma zrange_in a b x : In x (zrange a b) <-> a <= x < b.
Proof.
  unfold zrange. rewrite in_map_iff. split.
  - intros (k & <- & H). apply in_seq in H. lia.
  - intros H. exists (Z.to_nat (x - a)). split; [lia|]. apply in_seq. lia.
Qed.
Lemma zrange_app a b c : a <= b <= c -> zrange a c = zrange a b ++ zrange b c.
Proof.
  intros H. unfold zrange. replace (Z.to_nat (c - a)) with (Z.to_nat (b - a) + Z.to_nat (c - b))%nat by lia. rewrite seq_app, map_app. f_equal.
  rewrite Nat.add_0_l. rewrite <- (Nat.add_0_r (Z.to_nat (b - a))), <- (map_id (seq _ _)). 
  replace (seq (Z.to_nat (b - a) + 0) (Z.to_nat (c - b))) with (map (fun k => Z.to_nat (b - a) + k)%nat (seq 0 (Z.to_nat (c - b)))).
  2:{ generalize (Z.to_nat (c - b)). intros m. generalize 0%nat. induction m as [|m IH]; intros s; [reflexivity|]. cbn [seq map]. f_equal. rewrite IH. f_equal. lia. }
  rewrite !map_map. apply map_ext. intros k. lia.
Qed.
Lemma zrange_one a : zrange a (a + 1) = [a].
Proof. unfold zrange. replace (Z.to_nat (a + 1 - a)) with 1%nat by lia. cbn. f_equal. lia. Qed.
Lemma zrange_nil a b : b <= a -> zrange a b = [].
Proof. intros H. unfold zrange. replace (Z.to_nat (b - a)) with 0%nat by lia. reflexivity. Qed.
Lemma zrange_cons a b : a < b -> zrange a b = a :: zrange (a + 1) b.
Proof. intros H. rewrite (zrange_app a (a + 1) b) by lia. rewrite zrange_one. reflexivity. Qed.
Lemma zrange_snoc a b : a <= b -> zrange a (b + 1) = zrange a b ++ [b].
Proof. intros H. rewrite (zrange_app a b (b + 1)) by lia. now rewrite zrange_one. Qed.
Lemma zrange_nodup a b : NoDup (zrange a b).
Proof. unfold zrange. apply FinFun.Injective_map_NoDup; [intros x y H; lia|apply seq_NoDup]. Qed.

Section Link.
  Variables (keys : list Z) (limit : Z) (Hk : sorted_keys keys) (HN : 2 * Z.of_nat (length keys) <= 2 ^ 31) (Hlim : 1 <= limit).
  Notation N := (Z.of_nat (length keys)).
  Notation cut := (cut keys). Notation shared := (shared keys).
  Notation present := (present keys).

  Section Split.
    Variables (c : cell) (lev a n b : Z).
    Hypotheses (Ea : adr_ptcl c = a) (En : n_ptcl c = n) (Eb : adr_tc c = b) (Hlev : 0 <= lev < 21) (Hs : shared lev a n) (Hn : limit < n) (Hb : 0 <= b) (Hb8 : b + 8 <= 2 ^ 31).
    Notation ct := (cut lev a n).
    Notation pr := (present lev a n).

    Lemma a_small : 0 <= a < 2 ^ 31. Proof using Hs Hn Hlim HN. destruct Hs as (H1 & H2 & _). lia. Qed.
    Lemma ct_bound j : a <= ct j <= a + n. Proof using Hlev Hs Hn Hlim Hk. apply cut_ok; try assumption; lia. Qed.
    Lemma ct_mono i j : i <= j -> ct i <= ct j. Proof using Hlev Hs Hn Hlim Hk. apply cut_mono; try assumption; lia. Qed.

    Lemma setChild_ok tc adr j : b + 8 <= Z.of_nat (length tc) -> (j < 8)%nat -> exists tc', setChild keys c lev (tc, adr) j = Done (tc', adr ++ (if pr (Z.of_nat j) then [b + Z.of_nat j] else [])) /\
      length tc' = length tc /\ (forall k e, k <> b + Z.of_nat j -> at_ tc' k e <-> at_ tc k e) /\
      exists d, at_ tc' (b + Z.of_nat j) d /\ level d = lev + 1 /\ (if pr (Z.of_nat j) then adr_ptcl d = ct (Z.of_nat j) else n_ptcl d = 0).
    Proof using Ea En Eb Hlev Hs Hn Hb Hb8 Hlim HN Hk.
      intros Hlen Hj. unfold setChild. rewrite Ea, En, Eb. assert (Ha := a_small). rewrite (toS32_id a) by lia. rewrite toS32_U32 by lia.
      rewrite partition_cut by (try assumption; try lia). cbn [obind]. destruct (at_ex tc (b + Z.of_nat j)) as [d Hd]; [lia|]. rewrite (zread_at _ _ _ Hd). cbn [obind].
      assert (Hc := ct_bound (Z.of_nat j)). assert (Hsh := Hs). destruct Hsh as (_ & H2 & _).
      destruct (pr (Z.of_nat j)).
      - rewrite toU32_id by lia. rewrite getMSB_small by lia.
        destruct (zwrite_at tc (b + Z.of_nat j) (Cell (n_ptcl d) (adr_tc d) (ct (Z.of_nat j)) (lev + 1))) as (tc' & -> & E1 & E2 & E3); [lia|]. cbn [obind].
        exists tc'. split; [reflexivity|]. split; [assumption|]. split; [intros; apply E3; assumption|]. eexists. split; [exact E2|]. split; reflexivity.
      - change (getMSB (toU32 (-1))) with true. cbv iota.
        destruct (zwrite_at tc (b + Z.of_nat j) (Cell 0 onlyMSB (toU32 (-1)) (lev + 1))) as (tc' & -> & E1 & E2 & E3); [lia|]. cbn [obind].
        exists tc'. split; [rewrite app_nil_r; reflexivity|]. split; [assumption|]. split; [intros; apply E3; assumption|]. eexists. split; [exact E2|]. split; reflexivity.
    Qed.
    Definition js (m : nat) : list Z := filter pr (map Z.of_nat (seq 0 m)).
    Lemma setChildren_ok tc m : b + 8 <= Z.of_nat (length tc) -> (m <= 8)%nat -> exists tc', ofold (setChild keys c lev) (seq 0 m) (tc, []) = Done (tc', map (Z.add b) (js m)) /\
      length tc' = length tc /\ (forall k e, ~ b <= k < b + 8 -> at_ tc' k e <-> at_ tc k e) /\
      forall j, (j < m)%nat -> exists d, at_ tc' (b + Z.of_nat j) d /\ level d = lev + 1 /\ (if pr (Z.of_nat j) then adr_ptcl d = ct (Z.of_nat j) else n_ptcl d = 0).
    Proof using Ea En Eb Hlev Hs Hn Hb Hb8 Hlim HN Hk.
      intros Hlen. induction m as [|m IH]; intros Hm.
      - exists tc. split; [reflexivity|]. split; [reflexivity|]. split; [reflexivity|]. intros j Hj; lia.
      - destruct IH as (tc1 & E1 & L1 & K1 & C1); [lia|]. rewrite seq_S, ofold_app, E1, Nat.add_0_l. cbn [obind ofold].
        destruct (setChild_ok tc1 (map (Z.add b) (js m)) m) as (tc2 & E2 & L2 & K2 & d & C2); [lia|lia|]. rewrite E2. cbn [obind]. exists tc2. split.
        { f_equal. f_equal. unfold js. rewrite seq_S, map_app, filter_app, map_app, Nat.add_0_l. cbn [map filter]. f_equal. now destruct (pr (Z.of_nat m)). }
        split; [lia|]. split; [intros k e Hke; rewrite K2 by lia; apply K1; assumption|].
        intros j Hj. destruct (Nat.eq_dec j m) as [->|Hne]; [exists d; assumption|]. destruct (C1 j ltac:(lia)) as (d' & D1 & D2). exists d'. split; [apply K2; [lia|assumption]|assumption].
    Qed.

    (** counting: each of the present children gets its number, the last one excepted *)
    Fixpoint chain (l : list Z) : Prop :=
      match l with x :: ((y :: _) as r) => x < y /\ ct (x + 1) = ct y /\ chain r | _ => True end.
    Lemma chain_lt x l : chain (x :: l) -> forall y, In y l -> x < y.
    Proof using. revert x. induction l as [|z l IH]; intros x Hc y Hy; [contradiction|]. destruct Hc as (H1 & H2 & H3). destruct Hy as [<-|Hy]; [assumption|]. specialize (IH z H3 y Hy). lia. Qed.
    Lemma counts_ok l : forall x tc cum, chain (x :: l) -> (forall y, In y (x :: l) -> 0 <= y < 8) -> b + 8 <= Z.of_nat (length tc) ->
      (forall y, In y (x :: l) -> exists d, at_ tc (b + y) d /\ level d = lev + 1 /\ adr_ptcl d = ct y) ->
      exists tc', ofold countStep (combine (map (Z.add b) (x :: l)) (tl (map (Z.add b) (x :: l)))) (tc, cum) = Done (tc', cum + ct (last (x :: l) 0) - ct x) /\
      length tc' = length tc /\ (forall k e, ~ In k (map (Z.add b) (x :: l)) -> at_ tc' k e <-> at_ tc k e) /\
      forall y, In y (x :: l) -> exists d, at_ tc' (b + y) d /\ level d = lev + 1 /\ adr_ptcl d = ct y /\ (y <> last (x :: l) 0 -> n_ptcl d = ct (y + 1) - ct y).
    Proof using Hlev Hs Hn Hlim HN Hk Hb Hb8.
      induction l as [|y l IH]; intros x tc cum Hch Hin Hlen Hc.
      - exists tc. cbn [map tl combine ofold last]. split; [do 2 f_equal; lia|]. split; [reflexivity|]. split; [reflexivity|].
        intros y [<-|[]]. destruct (Hc x (or_introl eq_refl)) as (d & D1 & D2 & D3). exists d. split; [assumption|]. split; [assumption|]. split; [assumption|]. intros Hne; exfalso; apply Hne; reflexivity.
      - destruct Hch as (Hxy & Hct & Hch). destruct (Hc x (or_introl eq_refl)) as (d & D1 & D2 & D3). destruct (Hc y (or_intror (or_introl eq_refl))) as (e & E1 & E2 & E3).
        change (combine (map (Z.add b) (x :: y :: l)) (tl (map (Z.add b) (x :: y :: l)))) with ((b + x, b + y) :: combine (map (Z.add b) (y :: l)) (tl (map (Z.add b) (y :: l)))).
        cbn [ofold]. unfold countStep at 1. rewrite (zread_at _ _ _ D1), (zread_at _ _ _ E1). cbn [obind]. rewrite D3, E3.
        assert (B1 := ct_bound x). assert (B2 := ct_bound y). assert (Hsh := Hs). destruct Hsh as (H1 & H2 & _).
        rewrite toS32_U32 by lia. destruct (Hin x (or_introl eq_refl)) as [Hx0 Hx8].
        destruct (zwrite_at tc (b + x) (Cell (ct y - ct x) (adr_tc d) (ct x) (level d))) as (tc1 & -> & W1 & W2 & W3); [lia|]. cbn [obind].
        destruct (IH y tc1 (cum + (ct y - ct x)) Hch) as (tc2 & F1 & F2 & F3 & F4).
        { intros z Hz. apply Hin. now right. } { lia. }
        { intros z Hz. destruct (Hc z (or_intror Hz)) as (f & G1 & G2). exists f. split; [|assumption]. apply W3; [|assumption]. assert (x < z) by (destruct Hz as [<-|Hz]; [assumption|]; assert (y < z) by (apply (chain_lt y l Hch); assumption); lia). lia. }
        exists tc2. rewrite F1. split; [do 2 f_equal; change (last (x :: y :: l) 0) with (last (y :: l) 0); lia|]. split; [lia|]. split.
        { intros k f Hkn. rewrite F3 by (intros Hk'; apply Hkn; right; exact Hk'). apply W3. intros ->. apply Hkn. now left. }
        change (last (x :: y :: l) 0) with (last (y :: l) 0).
        intros z [<-|Hz]; [|apply F4; assumption].
        exists (Cell (ct y - ct x) (adr_tc d) (ct x) (level d)). split; [|cbn; rewrite Hct; auto]. apply F3; [|assumption].
        intros Hk'. apply in_map_iff in Hk'. destruct Hk' as (z & Ez & Hz). assert (x < z) by (destruct Hz as [<-|Hz]; [assumption|]; assert (y < z) by (apply (chain_lt y l Hch); assumption); lia). lia.
    Qed.

    (** no present child between *)
    Lemma ct_gap i m : (forall j, i <= j < i + Z.of_nat m -> pr j = false) -> ct (i + Z.of_nat m) = ct i.
    Proof using Hlev Hs Hn Hlim Hk.
      induction m as [|m IH]; intros H; [f_equal; lia|]. rewrite <- IH by (intros; apply H; lia). assert (E := H (i + Z.of_nat m) ltac:(lia)).
      unfold TreeProofs.present in E. apply Z.ltb_ge in E. assert (ct (i + Z.of_nat m) <= ct (i + Z.of_nat m + 1)) by (apply ct_mono; lia). replace (i + Z.of_nat (S m)) with (i + Z.of_nat m + 1) by lia. lia.
    Qed.
    Lemma ct_gap' i k : i <= k -> (forall j, i <= j < k -> pr j = false) -> ct k = ct i.
    Proof using Hlev Hs Hn Hlim Hk. intros H H'. rewrite <- (ct_gap i (Z.to_nat (k - i))); [f_equal; lia|]. intros j Hj. apply H'. lia. Qed.

    Lemma chain_filter l s : (forall i k, nth_error l i = Some k -> k = s + Z.of_nat i) -> chain (filter pr l) /\
      (forall y r, filter pr l = y :: r -> ct y = ct s) /\
      match filter pr l with [] => True | r => ct (last r 0 + 1) = ct (s + Z.of_nat (length l)) end /\ (filter pr l = [] -> ct (s + Z.of_nat (length l)) = ct s).
    Proof using Hlev Hs Hn Hlim Hk.
      revert s. induction l as [|x l IH]; intros s Hl. { split; [exact I|]. split; [intros ? ? E; discriminate E|]. split; [exact I|]. intros _. f_equal. cbn [length]. lia. }
      assert (Ex := Hl 0%nat x eq_refl). replace (s + Z.of_nat 0) with s in Ex by lia. subst x.
      destruct (IH (s + 1)) as (C1 & C2 & C3 & C4). { intros i k Hi. rewrite (Hl (S i) k Hi). lia. }
      replace (s + Z.of_nat (length (s :: l))) with (s + 1 + Z.of_nat (length l)) by (cbn [length]; lia).
      cbn [filter]. destruct (pr s) eqn:Ep.
      - destruct (filter pr l) as [|y r] eqn:Ef.
        + split; [exact I|]. split; [intros y r E; injection E as <- <-; reflexivity|]. split; [cbn [last]; symmetry; now apply C4|discriminate].
        + assert (Hy : In y l) by (apply (filter_In pr); rewrite Ef; now left). apply In_nth_error in Hy. destruct Hy as [i Hi]. assert (Hi' := Hl (S i) y Hi).
          split; [split; [lia|]; split; [symmetry; now apply (C2 y r)|assumption]|]. split; [intros ? ? E; injection E as <- <-; reflexivity|]. split; [exact C3|discriminate].
      - assert (E1 : ct (s + 1) = ct s) by (apply (ct_gap' s (s + 1)); [lia|]; intros j Hj; replace j with s by lia; assumption).
        split; [assumption|]. split; [intros y r E; rewrite <- E1; now apply (C2 y r)|]. split; [assumption|]. intros E. rewrite <- E1. now apply C4.
    Qed.

    Definition child (tc : list cell) (j : Z) : Prop :=
      exists d, at_ tc (b + j) d /\ level d = lev + 1 /\ n_ptcl d = ct (j + 1) - ct j /\ (0 < n_ptcl d -> adr_ptcl d = ct j).

    Lemma split_ok tc new i : at_ tc i c -> b + 8 <= Z.of_nat (length tc) -> exists tc', splitCell keys limit lev (tc, new) i = Done (tc', new + 8) /\
      length tc' = length tc /\ (forall k e, ~ b <= k < b + 8 -> at_ tc' k e <-> at_ tc k e) /\ forall j, 0 <= j < 8 -> child tc' j.
    Proof using Ea En Eb Hlev Hs Hn Hb Hb8 Hlim HN Hk.
      intros Hc Hlen. unfold splitCell. rewrite (zread_at _ _ _ Hc). cbn [obind]. rewrite En. destruct (Z.leb_spec n limit); [lia|].
      destruct (setChildren_ok tc 8 Hlen (le_n 8)) as (tc1 & E1 & L1 & K1 & C1). rewrite E1. cbn [obind].
      destruct (chain_filter (map Z.of_nat (seq 0 8)) 0) as (H1 & H2 & H3 & H4).
      { intros i' k Hi. rewrite nth_error_map in Hi. destruct (nth_error (seq 0 8) i') eqn:E; [|discriminate]. injection Hi as <-. assert (Hi' : (i' < 8)%nat). { assert (H' : (i' < length (seq 0 8))%nat) by (apply nth_error_Some; congruence). rewrite seq_length in H'. exact H'. }
        rewrite nth_error_seq in E by assumption. injection E as <-. lia. }
      fold (js 8) in H1, H2, H3, H4. change (0 + Z.of_nat (length (map Z.of_nat (seq 0 8)))) with 8 in H3, H4.
      assert (Z8 : ct 8 = a + n) by (apply cut_8; try assumption; lia). assert (Z0 : ct 0 = a) by (apply cut_0; try assumption; lia).
      assert (Hjs : forall y, In y (js 8) <-> 0 <= y < 8 /\ pr y = true).
      { intros y. unfold js. rewrite filter_In, in_map_iff. split; intros [Hy Hp]; (split; [|assumption]).
        - destruct Hy as (k & <- & Hk'). apply in_seq in Hk'. lia.
        - exists (Z.to_nat y). split; [lia|]. apply in_seq. lia. }
      destruct (js 8) as [|x l] eqn:El; [specialize (H4 eq_refl); lia|].
      assert (H5 := H2 x l eq_refl). rewrite Z0 in H5. rewrite Z8 in H3.
      destruct (counts_ok l x tc1 0 H1) as (tc2 & E2 & L2 & K2 & C2).
      { intros y Hy. apply Hjs in Hy. lia. } { lia. }
      { intros y Hy. apply Hjs in Hy. destruct Hy as [Hy Hp]. destruct (C1 (Z.to_nat y) ltac:(lia)) as (d & D1 & D2 & D3). rewrite Z2Nat.id in D1, D3 by lia. rewrite Hp in D3. exists d. auto. }
      rewrite E2. cbn [obind]. change (map (Z.add b) (x :: l)) with ((b + x) :: map (Z.add b) l) at 1. cbv iota.
      assert (El' : last (map (Z.add b) (x :: l)) 0 = b + last (x :: l) 0).
      { clear. revert x. induction l as [|y l IH]; intros x; [reflexivity|]. change (last (map (Z.add b) (x :: y :: l)) 0) with (last (map (Z.add b) (y :: l)) 0). rewrite IH. reflexivity. }
      change ((b + x) :: map (Z.add b) l) with (map (Z.add b) (x :: l)). rewrite El'. set (z := last (x :: l) 0) in *.
      assert (Hz : In z (x :: l)). { subst z. destruct (exists_last (l := x :: l) ltac:(discriminate)) as (l' & w & ->). rewrite last_last. apply in_or_app. right. now left. }
      destruct (C2 z Hz) as (d & D1 & D2 & D3 & _). rewrite (zread_at _ _ _ D1). cbn [obind]. assert (Hz8 := proj1 (Hjs z) Hz). destruct Hz8 as [Hz8 Hzp].
      destruct (zwrite_at tc2 (b + z) (Cell (n - (0 + ct z - ct x)) (adr_tc d) (adr_ptcl d) (level d))) as (tc3 & -> & W1 & W2 & W3); [lia|]. cbn [obind].
      exists tc3. split; [reflexivity|]. split; [lia|]. split.
      { intros k e Hk'. rewrite W3 by lia. rewrite K2. - apply K1. assumption. - intros Hin. apply in_map_iff in Hin. destruct Hin as (y & <- & Hy). apply Hjs in Hy. lia. }
      intros j Hj. destruct (pr j) eqn:Ep.
      - assert (Hin : In j (x :: l)) by (apply Hjs; auto). destruct (Z.eq_dec j z) as [->|Hne].
        + eexists. split; [exact W2|]. cbn [level n_ptcl adr_ptcl]. split; [assumption|]. split; [lia|auto].
        + destruct (C2 j Hin) as (e & F1 & F2 & F3 & F4). exists e. split; [apply W3; [lia|assumption]|]. split; [assumption|]. split; [apply F4; assumption|auto].
      - destruct (C1 (Z.to_nat j) ltac:(lia)) as (e & F1 & F2 & F3). rewrite Z2Nat.id in F1, F3 by lia. rewrite Ep in F3. exists e.
        assert (Hnj : ~ In j (x :: l)) by (intros Hin; apply Hjs in Hin; destruct Hin; congruence).
        split; [apply W3; [intros Hjz; apply Hnj; replace j with z by lia; assumption|]; apply K2; [intros Hin; apply in_map_iff in Hin; destruct Hin as (y & Hy & Hy'); apply Hnj; replace j with y by lia; assumption|assumption]|].
        split; [assumption|]. unfold TreeProofs.present in Ep. apply Z.ltb_ge in Ep. assert (ct j <= ct (j + 1)) by (apply ct_mono; lia). split; lia.
    Qed.
  End Split.
End Link.
