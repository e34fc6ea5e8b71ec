From Coq Require Import List Arith ZArith Lia Bool Permutation.
From Verif Require Import Outcome ListUtil Arith ParticleModel PointsModel MortonModel DomainModel MixProofs TreeModel TreeSpec TreeProofs TreeLink.
Import ListNotations.
Local Open Scope Z_scope.

Definition sumZ (f : Z -> Z) (l : list Z) : Z := fold_right (fun x s => f x + s) 0 l.
Lemma sumZ_app f l1 l2 : sumZ f (l1 ++ l2) = sumZ f l1 + sumZ f l2.
Proof. unfold sumZ. induction l1 as [|x l IH]; cbn; lia. Qed.
Lemma sumZ_ext f g l : (forall x, In x l -> f x = g x) -> sumZ f l = sumZ g l.
Proof. unfold sumZ. induction l as [|x l IH]; intros H; cbn; [reflexivity|]. rewrite (H x (or_introl eq_refl)), IH by (intros; apply H; now right). reflexivity. Qed.
Lemma sumZ_flat f g l : sumZ f (flat_map g l) = sumZ (fun i => sumZ f (g i)) l.
Proof. induction l as [|x l IH]; [reflexivity|]. cbn [flat_map]. rewrite sumZ_app, IH. reflexivity. Qed.
Lemma sumZ_filter f p l : (forall x, In x l -> 0 <= f x) -> sumZ f (filter p l) <= sumZ f l.
Proof. unfold sumZ. induction l as [|x l IH]; intros H; cbn; [lia|]. assert (H0 := H x (or_introl eq_refl)). specialize (IH (fun y Hy => H y (or_intror Hy))). destruct (p x); cbn; lia. Qed.
Lemma sumZ_lower f l b : (forall x, In x l -> b <= f x) -> Z.of_nat (length l) * b <= sumZ f l.
Proof. unfold sumZ. induction l as [|x l IH]; intros H; [cbn; lia|]. assert (H0 := H x (or_introl eq_refl)). specialize (IH (fun y Hy => H y (or_intror Hy))). cbn [length fold_right]. lia. Qed.

Lemma at_app {A} (l1 l2 : list A) i a : i < Z.of_nat (length l1) -> at_ (l1 ++ l2) i a <-> at_ l1 i a.
Proof. intros H. unfold at_. split; intros [H1 H2]; (split; [assumption|]); [rewrite nth_error_app1 in H2 by lia|rewrite nth_error_app1 by lia]; assumption. Qed.

Section Levels.
  Variables (keys : list Z) (limit : Z).
  Notation N := (Z.of_nat (length keys)).
  Definition q : Z := N / (limit + 1).
  Notation shared := (shared keys).

  (** number of particles of cell i *)
  Definition nn (tc : list cell) (i : Z) : Z := match nth_error tc (Z.to_nat i) with Some c => n_ptcl c | None => 0 end.
  Definition nl (tc : list cell) (i : Z) : bool := limit <? nn tc i.
  Definition cnt (tc : list cell) (x y : Z) : Z := Z.of_nat (length (filter (nl tc) (zrange x y))).
  Lemma nn_at tc i c : at_ tc i c -> nn tc i = n_ptcl c.
  Proof using. intros [_ E]. unfold nn. now rewrite E. Qed.
  Lemma cnt_snoc tc x y : x <= y -> cnt tc x (y + 1) = cnt tc x y + (if nl tc y then 1 else 0).
  Proof using. intros H. unfold cnt. rewrite zrange_snoc, filter_app, app_length by assumption. cbn [filter]. destruct (nl tc y); cbn [length]; lia. Qed.
  Lemma cnt_nonneg tc x y : 0 <= cnt tc x y. Proof using. unfold cnt. lia. Qed.
  Lemma cnt_le tc x y z : x <= y <= z -> cnt tc x y <= cnt tc x z.
  Proof using. intros H. unfold cnt. rewrite (zrange_app x y z) by lia. rewrite filter_app, app_length. lia. Qed.
  Lemma cnt_lt tc x i y : x <= i < y -> nl tc i = true -> cnt tc x i + 1 <= cnt tc x y.
  Proof using. intros H Hi. assert (H1 := cnt_snoc tc x i ltac:(lia)). rewrite Hi in H1. assert (H2 := cnt_le tc x (i + 1) y ltac:(lia)). lia. Qed.
  Lemma cnt_ext tc tc' x y : (forall i, x <= i < y -> nn tc' i = nn tc i) -> cnt tc' x y = cnt tc x y.
  Proof using. intros H. unfold cnt. f_equal. f_equal. apply filter_ext_in. intros i Hi. apply zrange_in in Hi. unfold nl. now rewrite H. Qed.

  Definition good (l : Z) (c : cell) : Prop := level c = l /\ 0 <= n_ptcl c /\ (0 < n_ptcl c -> shared l (adr_ptcl c) (n_ptcl c)).
  Definition kids (l : Z) (c : cell) (tc : list cell) : Prop := forall j, 0 <= j < 8 -> child keys l (adr_ptcl c) (n_ptcl c) (adr_tc c) tc j.

    (** the children of a level take the cells from base on, in the order of their parents *)
    Lemma blocks left base tc0 e : left <= e -> zrange base (base + 8 * cnt tc0 left e) = flat_map (fun i => zrange (base + 8 * cnt tc0 left i) (base + 8 * cnt tc0 left i + 8)) (filter (nl tc0) (zrange left e)).
    Proof using.
      intros He. replace e with (left + Z.of_nat (Z.to_nat (e - left))) by lia. generalize (Z.to_nat (e - left)). intros m. induction m as [|m IH].
      - rewrite Z.add_0_r. unfold cnt. rewrite (zrange_nil left left) by lia. cbn [filter flat_map length]. apply zrange_nil. lia.
      - replace (left + Z.of_nat (S m)) with (left + Z.of_nat m + 1) by lia. set (e' := left + Z.of_nat m) in *. rewrite cnt_snoc by lia. rewrite (zrange_snoc left e') by lia. rewrite filter_app, flat_map_app, <- IH.
        cbn [filter]. assert (H := cnt_nonneg tc0 left e'). destruct (nl tc0 e'); cbn [flat_map].
        + rewrite app_nil_r. rewrite (zrange_app base (base + 8 * cnt tc0 left e') _) by lia. f_equal. f_equal. lia.
        + rewrite app_nil_r. f_equal. lia.
    Qed.

  (** the loop that gives the cells of a new level the addresses of their children *)
  Lemma assign_ok lev left base tc1 : 0 <= lev < 21 -> 0 <= left -> left <= base -> Z.of_nat (length tc1) = base -> base + 8 * cnt tc1 left base < 2 ^ 31 ->
    (forall i c, left <= i < base -> at_ tc1 i c -> level c = lev) ->
    exists tc2, ofold (assignStep limit) (zrange left base) (tc1, base) = Done (tc2, base + 8 * cnt tc1 left base) /\ length tc2 = length tc1 /\
    (forall k e, k < left -> at_ tc2 k e <-> at_ tc1 k e) /\
    forall i c, left <= i < base -> at_ tc1 i c -> exists d, at_ tc2 i d /\ n_ptcl d = n_ptcl c /\ adr_ptcl d = adr_ptcl c /\ level d = level c /\ (limit < n_ptcl c -> adr_tc d = base + 8 * cnt tc1 left i).
  Proof using.
    intros Hlev Hleft Hlb Hlen Hmax Hlv.
    assert (H : forall m, left + Z.of_nat m <= base -> exists tc2, ofold (assignStep limit) (zrange left (left + Z.of_nat m)) (tc1, base) = Done (tc2, base + 8 * cnt tc1 left (left + Z.of_nat m)) /\ length tc2 = length tc1 /\
      (forall k e, k < left \/ left + Z.of_nat m <= k -> at_ tc2 k e <-> at_ tc1 k e) /\
      forall i c, left <= i < left + Z.of_nat m -> at_ tc1 i c -> exists d, at_ tc2 i d /\ n_ptcl d = n_ptcl c /\ adr_ptcl d = adr_ptcl c /\ level d = level c /\ (limit < n_ptcl c -> adr_tc d = base + 8 * cnt tc1 left i)).
    { induction m as [|m IH]; intros Hm.
      - exists tc1. rewrite zrange_nil by lia. cbn [ofold]. split; [do 2 f_equal; unfold cnt; rewrite zrange_nil by lia; cbn [filter length]; lia|]. split; [reflexivity|]. split; [reflexivity|]. intros i c Hi; lia.
      - destruct (IH ltac:(lia)) as (tc2 & E2 & L2 & K2 & C2). replace (left + Z.of_nat (S m)) with (left + Z.of_nat m + 1) in * by lia. set (e := left + Z.of_nat m) in *.
        rewrite zrange_snoc by lia. rewrite ofold_app, E2. cbn [obind ofold]. destruct (at_ex tc1 e ltac:(lia)) as (c & Hc).
        assert (Hc2 : at_ tc2 e c) by (apply K2; [lia|assumption]). unfold assignStep at 1. rewrite (zread_at _ _ _ Hc2). cbn [obind]. rewrite cnt_snoc by lia. unfold nl. rewrite (nn_at _ _ _ Hc).
        unfold isLeaf. rewrite (Hlv e c) by (try assumption; lia). unfold levelLimit. destruct (Z.eqb_spec lev 21); [lia|]. rewrite orb_false_r. destruct (Z.leb_spec (n_ptcl c) limit) as [Hs|Hb].
        + destruct (Z.ltb_spec limit (n_ptcl c)); [lia|]. exists tc2. split; [cbn [obind]; do 2 f_equal; lia|]. split; [assumption|]. split; [intros; apply K2; lia|].
          intros i c' Hi Hc'. destruct (Z.eq_dec i e) as [->|]; [|apply C2; [lia|assumption]]. assert (c' = c) by (apply (at_fun tc1 e); assumption). subst c'. exists c. split; [assumption|]. repeat split; intros; lia.
        + destruct (Z.ltb_spec limit (n_ptcl c)); [|lia]. assert (H1 := cnt_lt tc1 left e base ltac:(lia) ltac:(unfold nl; rewrite (nn_at _ _ _ Hc); apply Z.ltb_lt; assumption)). assert (H2 := cnt_nonneg tc1 left e).
          destruct (zwrite_at tc2 e (Cell (n_ptcl c) (toU32 (base + 8 * cnt tc1 left e)) (adr_ptcl c) lev)) as (tc3 & -> & W1 & W2 & W3); [lia|]. cbn [obind].
          unfold as_int, nChildren. destruct (Z.leb_spec INT_MIN (base + 8 * cnt tc1 left e + 8)); [|unfold INT_MIN in *; lia]. destruct (Z.leb_spec (base + 8 * cnt tc1 left e + 8) INT_MAX); [|unfold INT_MAX in *; lia]. cbn [andb obind].
          exists tc3. split; [do 2 f_equal; lia|]. split; [lia|]. split; [intros k e' Hke; rewrite W3 by lia; apply K2; lia|].
          intros i c' Hi Hc'. destruct (Z.eq_dec i e) as [->|Hne].
          * assert (c' = c) by (apply (at_fun tc1 e); assumption). subst c'. eexists. split; [exact W2|]. cbn [n_ptcl adr_tc adr_ptcl level]. rewrite (Hlv e c) by (try assumption; lia). repeat split. intros _. apply toU32_id. lia.
          * destruct (C2 i c' ltac:(lia) Hc') as (d & D1 & D2). exists d. split; [apply W3; assumption|assumption]. }
    destruct (H (Z.to_nat (base - left)) ltac:(lia)) as (tc2 & E & L & K & C). replace (left + Z.of_nat (Z.to_nat (base - left))) with base in * by lia.
    exists tc2. split; [assumption|]. split; [assumption|]. split; [intros; apply K; lia|assumption].
  Qed.

  Lemma child_ext l a n b tc tc' : (forall j d, 0 <= j < 8 -> at_ tc (b + j) d -> exists d', at_ tc' (b + j) d' /\ n_ptcl d' = n_ptcl d /\ adr_ptcl d' = adr_ptcl d /\ level d' = level d) ->
    (forall j, 0 <= j < 8 -> child keys l a n b tc j) -> forall j, 0 <= j < 8 -> child keys l a n b tc' j.
  Proof using. intros H Hc j Hj. destruct (Hc j Hj) as (d & D1 & D2 & D3 & D4). destruct (H j d Hj D1) as (d' & F1 & F2 & F3 & F4). exists d'. rewrite F2, F3, F4. auto. Qed.

  Lemma resize_grow junk n (tc : list cell) : Z.of_nat (length tc) <= n -> Z.of_nat (length (resize junk n tc)) = n /\ forall k e, k < Z.of_nat (length tc) -> at_ (resize junk n tc) k e <-> at_ tc k e.
  Proof using. intros H. unfold resize. rewrite firstn_all2 by lia. split; [rewrite app_length, map_length, seq_length; lia|]. intros k e Hke. apply at_app. assumption. Qed.

  Variables (Hk : sorted_keys keys) (HN : 2 * Z.of_nat (length keys) <= 2 ^ 31) (Hlim : 1 <= limit) (HQ : 8 + 168 * q < 2 ^ 31).

  Lemma cnt_bound left base tc0 : (forall i, left <= i < base -> 0 <= nn tc0 i) -> sumZ (nn tc0) (zrange left base) <= N -> sumZ (nn tc0) (filter (nl tc0) (zrange left base)) <= N /\ cnt tc0 left base <= q.
  Proof using Hlim.
    intros Hp Hsum. assert (H : sumZ (nn tc0) (filter (nl tc0) (zrange left base)) <= N).
    { etransitivity; [|exact Hsum]. apply sumZ_filter. intros i Hi. apply zrange_in in Hi. apply Hp. assumption. }
    split; [assumption|]. unfold q. apply Z.div_le_lower_bound; [lia|]. rewrite Z.mul_comm. etransitivity; [|exact H]. unfold cnt. apply sumZ_lower.
    intros i Hi. apply filter_In in Hi. destruct Hi as [_ Hi]. unfold nl in Hi. apply Z.ltb_lt in Hi. lia.
  Qed.

    Lemma kids_sum lev c tc : 0 <= lev < 21 -> limit < n_ptcl c -> good lev c -> kids lev c tc -> sumZ (nn tc) (zrange (adr_tc c) (adr_tc c + 8)) = n_ptcl c.
    Proof using Hk Hlim.
      intros Hlev Hbig (G1 & G2 & G3) Hkd. assert (Hs : shared lev (adr_ptcl c) (n_ptcl c)) by (apply G3; lia).
      assert (H : forall m, (m <= 8)%nat -> sumZ (nn tc) (zrange (adr_tc c) (adr_tc c + Z.of_nat m)) = cut keys lev (adr_ptcl c) (n_ptcl c) (Z.of_nat m) - cut keys lev (adr_ptcl c) (n_ptcl c) 0).
      { induction m as [|m IH]; intros Hm; [rewrite zrange_nil by lia; cbn [sumZ fold_right]; change (Z.of_nat 0) with 0; lia|].
        replace (adr_tc c + Z.of_nat (S m)) with (adr_tc c + Z.of_nat m + 1) by lia. rewrite zrange_snoc by lia. rewrite sumZ_app, IH by lia.
        destruct (Hkd (Z.of_nat m) ltac:(lia)) as (d & D1 & D2 & D3 & D4). cbn [sumZ fold_right]. rewrite (nn_at _ _ _ D1), D3. replace (Z.of_nat (S m)) with (Z.of_nat m + 1) by lia. lia. }
      specialize (H 8%nat (le_n 8)). change (Z.of_nat 8) with 8 in H. rewrite H. rewrite cut_0, cut_8 by (try assumption; lia). lia.
    Qed.

  Section Parents.
    Variables (lev left base : Z) (tc0 : list cell).
    Hypotheses (Hlev : 0 <= lev < 21) (Hleft : 0 <= left) (Hlb : left <= base)
      (Hseg : forall i, left <= i < base -> exists c, at_ tc0 i c /\ good lev c /\ (limit < n_ptcl c -> adr_tc c = base + 8 * cnt tc0 left i))
      (Hlen : Z.of_nat (length tc0) = base + 8 * cnt tc0 left base) (Hmax : Z.of_nat (length tc0) <= 2 ^ 31).

    Lemma parents_ok order : forall tc new, NoDup order -> (forall i, In i order -> left <= i < base) -> length tc = length tc0 -> (forall k e, k < base -> at_ tc k e <-> at_ tc0 k e) ->
      exists tc', ofold (splitCell keys limit lev) order (tc, new) = Done (tc', new + 8 * Z.of_nat (length (filter (nl tc0) order))) /\
      length tc' = length tc0 /\ (forall k e, k < base -> at_ tc' k e <-> at_ tc0 k e) /\
      (forall i c, In i order -> at_ tc0 i c -> limit < n_ptcl c -> kids lev c tc') /\
      (forall k e, base <= k -> (forall i c, In i order -> at_ tc0 i c -> limit < n_ptcl c -> ~ adr_tc c <= k < adr_tc c + 8) -> at_ tc' k e <-> at_ tc k e).
    Proof using Hlev Hleft Hlb Hseg Hlen Hmax Hk HN Hlim.
      induction order as [|i r IH]; intros tc new Hnd Hin Hl Hag.
      - exists tc. cbn [ofold filter length]. split; [do 2 f_equal; lia|]. split; [assumption|]. split; [assumption|]. split; [intros ? ? []|reflexivity].
      - inversion Hnd as [|? ? Hni Hnd']; subst. assert (Hi := Hin i (or_introl eq_refl)). destruct (Hseg i Hi) as (c & Hc & (G1 & G2 & G3) & Hadr). cbn [ofold filter].
        assert (Hci : at_ tc i c) by (apply Hag; [lia|assumption]). unfold nl at 1. rewrite (nn_at _ _ _ Hc). destruct (Z.ltb_spec limit (n_ptcl c)) as [Hbig|Hsmall].
        + assert (Hc1 := cnt_lt tc0 left i base Hi ltac:(unfold nl; rewrite (nn_at _ _ _ Hc); apply Z.ltb_lt; assumption)). assert (Hc0 := cnt_nonneg tc0 left i). specialize (Hadr Hbig).
          destruct (split_ok keys limit Hk HN Hlim c lev (adr_ptcl c) (n_ptcl c) (adr_tc c) eq_refl eq_refl eq_refl Hlev (G3 ltac:(lia)) Hbig ltac:(lia) ltac:(lia) tc new i Hci ltac:(lia)) as (tc1 & E1 & L1 & K1 & C1).
          rewrite E1. cbn [obind]. destruct (IH tc1 (new + 8) Hnd') as (tc2 & E2 & L2 & K2 & C2 & U2).
          { intros; apply Hin; now right. } { lia. } { intros k e Hke. rewrite K1 by lia. apply Hag. assumption. }
          exists tc2. rewrite E2. split; [do 2 f_equal; cbn [length]; lia|]. split; [assumption|]. split; [assumption|]. split.
          * intros i' c' [<-|Hi'] Hc' Hb'; [|now apply (C2 i')]. assert (c' = c) by (apply (at_fun tc0 i); assumption). subst c'. intros j Hj. destruct (C1 j Hj) as (d & D1 & D2). exists d. split; [|assumption].
            apply U2; [lia|intros i' c2 Hi' Hc2 Hb''|assumption].
            destruct (Hseg i' (Hin i' (or_intror Hi'))) as (c'' & Hc'' & _ & Hadr''). assert (c'' = c2) by (apply (at_fun tc0 i'); assumption). subst c''. specialize (Hadr'' Hb'').
            assert (Hne : i <> i') by (intros ->; contradiction). assert (Hi'' := Hin i' (or_intror Hi')).
            destruct (Z.lt_trichotomy i i') as [Hlt|[He|Hgt]]; [|contradiction|].
            -- assert (H1 := cnt_lt tc0 left i i' ltac:(lia) ltac:(unfold nl; rewrite (nn_at _ _ _ Hc); apply Z.ltb_lt; assumption)). lia.
            -- assert (H1 := cnt_lt tc0 left i' i ltac:(lia) ltac:(unfold nl; rewrite (nn_at _ _ _ Hc2); apply Z.ltb_lt; assumption)). lia.
          * intros k e Hkb Hkn. rewrite U2; [|assumption|intros i' c' Hi' Hc' Hb'; apply (Hkn i' c'); try assumption; now right]. apply K1. apply (Hkn i c); try assumption. now left.
        + assert (Es : splitCell keys limit lev (tc, new) i = Done (tc, new)). { unfold splitCell. rewrite (zread_at _ _ _ Hci). cbn [obind]. destruct (Z.leb_spec (n_ptcl c) limit); [reflexivity|lia]. }
          rewrite Es. cbn [obind]. destruct (IH tc new Hnd') as (tc2 & E2 & L2 & K2 & C2 & U2); [intros; apply Hin; now right|assumption|assumption|].
          exists tc2. rewrite E2. split; [reflexivity|]. split; [assumption|]. split; [assumption|]. split.
          * intros i' c' [<-|Hi'] Hc' Hb'; [|now apply (C2 i')]. assert (c' = c) by (apply (at_fun tc0 i); assumption). subst c'. lia.
          * intros k e Hkb Hkn. apply U2; [assumption|]. intros i' c' Hi' Hc' Hb'. apply (Hkn i' c'); try assumption. now right.
    Qed.

    Lemma parents_sum tc : (forall i c, left <= i < base -> at_ tc0 i c -> limit < n_ptcl c -> kids lev c tc) ->
      sumZ (nn tc) (zrange base (base + 8 * cnt tc0 left base)) = sumZ (nn tc0) (filter (nl tc0) (zrange left base)).
    Proof using Hlev Hleft Hlb Hseg Hk HN Hlim.
      intros Hkd. rewrite (blocks left base tc0 base) by assumption. rewrite sumZ_flat. apply sumZ_ext. intros i Hi. apply filter_In in Hi. destruct Hi as [Hi Hn]. apply zrange_in in Hi.
      destruct (Hseg i Hi) as (c & Hc & Hg & Hadr). rewrite (nn_at _ _ _ Hc). unfold nl in Hn. rewrite (nn_at _ _ _ Hc) in Hn. apply Z.ltb_lt in Hn. rewrite <- (Hadr Hn). apply (kids_sum lev); try assumption. apply (Hkd i); assumption.
    Qed.
  End Parents.

  (** the invariant of the loop over the levels *)
  Definition older (tc : list cell) (p : Z -> Z) (lev : Z) : Prop := forall l i, 0 <= l < lev -> p l <= i < p (l + 1) ->
    exists c, at_ tc i c /\ good l c /\ (limit < n_ptcl c -> p (l + 1) <= adr_tc c /\ adr_tc c + 8 <= p (l + 2) /\ kids l c tc).
  Definition table (part : list Z) (p : Z -> Z) (lev : Z) : Prop := length part = 23%nat /\ p 0 = 0 /\ (forall l, 0 <= l <= lev -> p l <= p (l + 1)) /\ forall l, 0 <= l <= lev + 1 -> at_ part l (p l).
  Definition Inv (tc : list cell) (part : list Z) (p : Z -> Z) (lev left base : Z) : Prop :=
    0 <= lev < 21 /\ 0 <= left <= base /\ p lev = left /\ p (lev + 1) = base /\ table part p lev /\ older tc p lev /\
    (forall i, left <= i < base -> exists c, at_ tc i c /\ good lev c /\ (limit < n_ptcl c -> adr_tc c = base + 8 * cnt tc left i)) /\
    Z.of_nat (length tc) = base + 8 * cnt tc left base /\ sumZ (nn tc) (zrange left base) <= N /\ base <= 8 + 8 * lev * q.
  Definition Final (tc : list cell) (part : list Z) (p : Z -> Z) (lev_max : Z) : Prop :=
    0 <= lev_max <= 21 /\ table part p lev_max /\ p (lev_max + 1) <= Z.of_nat (length tc) /\ Z.of_nat (length tc) <= 2 ^ 31 /\
    forall l i, 0 <= l <= lev_max -> p l <= i < p (l + 1) ->
      exists c, at_ tc i c /\ good l c /\ (limit < n_ptcl c -> l < 21 -> l < lev_max /\ p (l + 1) <= adr_tc c /\ adr_tc c + 8 <= p (l + 2) /\ kids l c tc).

  Lemma q_nonneg : 0 <= q. Proof using Hlim. unfold q. apply Z.div_pos; lia. Qed.

  Lemma linkLevels_ok junk sched (Hsch : forall l n, Permutation (sched l n) (seq 0 n)) fuel : forall tc part p lev left base, (Z.to_nat (21 - lev) < fuel)%nat -> Inv tc part p lev left base ->
    exists tc' part' p' lev_max, linkLevels fuel junk sched keys limit tc part lev left (base - 1) = Done (tc', part', lev_max) /\ Final tc' part' p' lev_max /\
    (forall l, 0 <= l <= lev + 1 -> p' l = p l) /\ (forall k c, k < base -> at_ tc k c -> at_ tc' k c).
  Proof using Hk HN Hlim HQ.
    induction fuel as [|f IH]; intros tc part p lev left base Hf (Hlev & Hlb & Hp1 & Hp2 & Htab & Hold & Hseg & Hlen & Hsum & Hbase); [lia|]. cbn [linkLevels].
    assert (Hq := q_nonneg). assert (Hpos : forall i, left <= i < base -> 0 <= nn tc i) by (intros i Hi; destruct (Hseg i Hi) as (c & A1 & (_ & A2 & _) & _); rewrite (nn_at _ _ _ A1); exact A2).
    destruct (cnt_bound left base tc Hpos Hsum) as [Hsum2 Hcq].
    set (order := map _ _). assert (Hperm : Permutation order (zrange left base)). { subst order. unfold zrange. replace (base - 1 + 1 - left) with (base - left) by lia. apply Permutation_map. apply Hsch. }
    assert (Hc0 := cnt_nonneg tc left base).
    assert (Hmax : Z.of_nat (length tc) <= 2 ^ 31) by nia.
    destruct (parents_ok lev left base tc ltac:(lia) ltac:(lia) ltac:(lia) Hseg Hlen Hmax order tc 0) as (tc1 & E1 & L1 & K1 & C1 & _).
    { apply (Permutation_NoDup (Permutation_sym Hperm)). apply zrange_nodup. }
    { intros i Hi. apply zrange_in. apply (Permutation_in _ Hperm). assumption. } { reflexivity. } { reflexivity. }
    rewrite E1. cbn [obind]. clear E1.
    assert (Ecnt : Z.of_nat (length (filter (nl tc) order)) = cnt tc left base).
    { unfold cnt. f_equal. apply Permutation_length. clear - Hperm. induction Hperm; cbn; auto; repeat (destruct (nl tc _)); try constructor; auto. eapply Permutation_trans; eassumption. }
    rewrite Ecnt. clear Ecnt.
    assert (C1' : forall i c, left <= i < base -> at_ tc i c -> limit < n_ptcl c -> kids lev c tc1). { intros i c Hi. apply C1. apply (Permutation_in _ (Permutation_sym Hperm)). apply zrange_in. assumption. }
    clear C1. clearbody order. clear Hperm order.
    assert (Htab' := Htab). destruct Htab' as (T1 & T2 & T3 & T4).
    assert (Hpm : forall l l', 0 <= l <= l' -> l' <= lev + 1 -> p l <= p l').
    { intros l l' Hll Hl'. replace l' with (l + Z.of_nat (Z.to_nat (l' - l))) by lia. assert (Hm : l + Z.of_nat (Z.to_nat (l' - l)) <= lev + 1) by lia. revert Hm. generalize (Z.to_nat (l' - l)). intros m. induction m as [|m IHm]; intros Hm; [rewrite Z.add_0_r; lia|].
      specialize (IHm ltac:(lia)). replace (l + Z.of_nat (S m)) with (l + Z.of_nat m + 1) by lia. assert (p (l + Z.of_nat m) <= p (l + Z.of_nat m + 1)) by (apply T3; lia). lia. }
    assert (Hold1 : older tc1 p lev).
    { intros l i Hl Hi. assert (Hi2 : p (l + 1) <= p lev) by (apply Hpm; lia). destruct (Hold l i Hl Hi) as (c & A1 & A2 & A3). exists c. split; [apply K1; [lia|assumption]|]. split; [assumption|].
      intros Hb. destruct (A3 Hb) as (B1 & B2 & B3). split; [assumption|]. split; [assumption|]. assert (p (l + 2) <= p (lev + 1)) by (apply Hpm; lia). refine (child_ext _ _ _ _ tc tc1 _ B3).
      intros j d Hj Hd. exists d. split; [apply K1; [lia|assumption]|auto]. }
    destruct (Z.eqb_spec (0 + 8 * cnt tc left base) 0) as [E0|E0].
    - exists tc1, part, p, lev. split; [reflexivity|]. split; [|split; [reflexivity|intros k c Hkb Hc; apply K1; assumption]]. split; [lia|]. split; [assumption|]. split; [lia|]. split; [lia|].
      intros l i Hl Hi. destruct (Z.eq_dec l lev) as [->|Hne].
      + destruct (Hseg i ltac:(lia)) as (c & A1 & A2 & A3). exists c. split; [apply K1; [lia|assumption]|]. split; [assumption|]. intros Hb. exfalso.
        assert (H1 := cnt_lt tc left i base ltac:(lia) ltac:(unfold nl; rewrite (nn_at _ _ _ A1); apply Z.ltb_lt; assumption)). assert (H2 := cnt_nonneg tc left i). lia.
      + destruct (Hold1 l i ltac:(lia) Hi) as (c & A1 & A2 & A3). exists c. split; [assumption|]. split; [assumption|]. intros Hb Hl21. split; [lia|]. apply A3. assumption.
    - set (base' := base + 8 * cnt tc left base) in *.
      unfold as_int. destruct (Z.leb_spec INT_MIN (base - 1 + (0 + 8 * cnt tc left base))); [|unfold INT_MIN in *; lia]. destruct (Z.leb_spec (base - 1 + (0 + 8 * cnt tc left base)) INT_MAX); [|unfold INT_MAX in *; nia]. cbn [andb obind].
      replace (base - 1 + (0 + 8 * cnt tc left base)) with (base' - 1) by lia. replace (base - 1 + 1) with base by lia. replace (base' - 1 + 1) with base' by lia.
      destruct (zwrite_at part (lev + 1 + 1) base') as (part' & -> & P1 & P2 & P3); [rewrite T1; lia|]. cbn [obind].
      set (p' := fun l => if l =? lev + 2 then base' else p l).
      assert (Hp' : forall l, l <> lev + 2 -> p' l = p l) by (intros l Hl; unfold p'; destruct (Z.eqb_spec l (lev + 2)); [contradiction|reflexivity]).
      assert (Hp'' : p' (lev + 2) = base') by (unfold p'; rewrite Z.eqb_refl; reflexivity).
      assert (Htab2 : table part' p' (lev + 1)).
      { split; [lia|]. split; [rewrite Hp' by lia; assumption|]. split.
        - intros l Hl. destruct (Z.eq_dec l (lev + 1)) as [->|Hne]; [replace (lev + 1 + 1) with (lev + 2) by lia; rewrite Hp'', Hp', Hp2 by lia; lia|]. rewrite !Hp' by lia. apply T3. lia.
        - intros l Hl. destruct (Z.eq_dec l (lev + 2)) as [->|Hne]; [rewrite Hp''; replace (lev + 2) with (lev + 1 + 1) by lia; assumption|]. rewrite Hp' by assumption. apply P3; [lia|]. apply T4. lia. }
      assert (Hold2 : older tc1 p' (lev + 1)).
      { intros l i Hl Hi. rewrite !Hp' in Hi by lia. destruct (Z.eq_dec l lev) as [->|Hne].
        - destruct (Hseg i ltac:(lia)) as (c & A1 & A2 & A3). exists c. split; [apply K1; [lia|assumption]|]. split; [assumption|]. intros Hb. rewrite (Hp' (lev + 1)), Hp'', Hp2, (A3 Hb) by lia.
          assert (H1 := cnt_lt tc left i base ltac:(lia) ltac:(unfold nl; rewrite (nn_at _ _ _ A1); apply Z.ltb_lt; assumption)). assert (H2 := cnt_nonneg tc left i). split; [lia|]. split; [lia|]. apply (C1' i); try assumption. lia.
        - destruct (Hold1 l i ltac:(lia) Hi) as (c & A1 & A2 & A3). exists c. split; [assumption|]. split; [assumption|]. intros Hb. rewrite !Hp' by lia. apply A3. assumption. }
      (* the cells of the new level *)
      assert (Hnew : forall i, base <= i < base' -> exists c, at_ tc1 i c /\ good (lev + 1) c).
      { intros i Hi. assert (Hin : In i (zrange base base')) by (apply zrange_in; assumption). unfold base' in Hin. rewrite (blocks left base tc base) in Hin by lia.
        apply in_flat_map in Hin. destruct Hin as (i0 & H1 & H2). apply filter_In in H1. destruct H1 as [H1 H1n]. apply zrange_in in H1. apply zrange_in in H2.
        destruct (Hseg i0 H1) as (c & A1 & A2 & A3). unfold nl in H1n. rewrite (nn_at _ _ _ A1) in H1n. apply Z.ltb_lt in H1n. specialize (A3 H1n).
        assert (Hkd := C1' i0 c H1 A1 H1n). destruct (Hkd (i - adr_tc c) ltac:(lia)) as (d & D1 & D2 & D3 & D4). replace (adr_tc c + (i - adr_tc c)) with i in D1 by lia. exists d. split; [assumption|].
        assert (Hsh : shared lev (adr_ptcl c) (n_ptcl c)) by (apply A2; lia). set (j := i - adr_tc c) in *.
        assert (Hm := cut_mono keys Hk lev (adr_ptcl c) (n_ptcl c) j (j + 1) ltac:(lia) Hsh ltac:(lia) ltac:(lia)).
        split; [assumption|]. split; [lia|]. intros Hd. rewrite (D4 Hd), D3. apply cut_shared; try assumption; lia. }
      destruct (Z.eqb_spec (lev + 1) levelLimit) as [E21|E21].
      + unfold levelLimit in E21. exists tc1, part', p', (lev + 1). split; [reflexivity|]. split; [|split; [intros; apply Hp'; lia|intros k c Hkb Hc; apply K1; assumption]].
        split; [lia|]. split; [assumption|]. replace (lev + 1 + 1) with (lev + 2) by lia. split; [rewrite Hp''; lia|]. split; [lia|].
        intros l i Hl Hi. destruct (Z.eq_dec l (lev + 1)) as [->|Hne].
        * replace (lev + 1 + 1) with (lev + 2) in Hi by lia. rewrite Hp'', Hp', Hp2 in Hi by lia. destruct (Hnew i Hi) as (c & A1 & A2). exists c. split; [assumption|]. split; [assumption|]. intros; lia.
        * destruct (Hold2 l i ltac:(lia) Hi) as (c & A1 & A2 & A3). exists c. split; [assumption|]. split; [assumption|]. intros Hb _. split; [lia|]. apply A3. assumption.
      + unfold levelLimit in E21.
        assert (Hsum3 : sumZ (nn tc1) (zrange base base') <= N). { unfold base'. rewrite (parents_sum lev left base tc ltac:(lia) ltac:(lia) ltac:(lia) Hseg tc1 C1'). assumption. }
        assert (Hpos1 : forall i, base <= i < base' -> 0 <= nn tc1 i) by (intros i Hi; destruct (Hnew i Hi) as (c & A1 & (_ & A2 & _)); rewrite (nn_at _ _ _ A1); exact A2).
        destruct (cnt_bound base base' tc1 Hpos1 Hsum3) as [_ Hcq']. assert (Hc1 := cnt_nonneg tc1 base base').
        assert (Hb' : base' <= 8 + 8 * (lev + 1) * q) by nia. assert (Hb'' : base' + 8 * cnt tc1 base base' < 2 ^ 31) by nia.
        destruct (assign_ok (lev + 1) base base' tc1 ltac:(lia) ltac:(lia) ltac:(lia) ltac:(lia) Hb'') as (tc2 & E2 & L2 & K2 & C2).
        { intros i c Hi Hc. destruct (Hnew i Hi) as (c' & A1 & (A2 & _)). assert (c' = c) by (apply (at_fun tc1 i); assumption). subst c'. assumption. }
        rewrite E2. cbn [obind]. clear E2. destruct (resize_grow junk (base' + 8 * cnt tc1 base base') tc2 ltac:(lia)) as [L3 K3]. set (tc3 := resize junk _ tc2) in *.
        assert (Hcell : forall k c, k < base' -> at_ tc1 k c -> exists d, at_ tc3 k d /\ n_ptcl d = n_ptcl c /\ adr_ptcl d = adr_ptcl c /\ level d = level c /\ (k < base -> d = c) /\ (base <= k -> limit < n_ptcl c -> adr_tc d = base' + 8 * cnt tc1 base k)).
        { intros k c Hkb Hc. destruct (Z.lt_ge_cases k base) as [Hlt|Hge].
          - exists c. split; [apply K3; [lia|]; apply K2; assumption|]. repeat split; auto. lia.
          - destruct (C2 k c ltac:(lia) Hc) as (d & D1 & D2 & D3 & D4 & D5). exists d. split; [apply K3; [lia|assumption]|]. repeat split; try assumption; auto; lia. }
        assert (Hnn : forall k, base <= k < base' -> nn tc3 k = nn tc1 k).
        { intros k Hk'. destruct (Hnew k Hk') as (c & A1 & _). destruct (Hcell k c ltac:(lia) A1) as (d & D1 & D2 & _). rewrite (nn_at _ _ _ D1), (nn_at _ _ _ A1). assumption. }
        assert (Hcnt : forall k, k <= base' -> cnt tc3 base k = cnt tc1 base k) by (intros k Hk'; apply cnt_ext; intros; apply Hnn; lia).
        destruct (IH tc3 part' p' (lev + 1) base base') as (tc' & part'' & p'' & lev_max & R1 & R2 & R3 & R4).
        { lia. }
        { split; [lia|]. split; [lia|]. split; [rewrite Hp' by lia; assumption|]. split; [replace (lev + 1 + 1) with (lev + 2) by lia; assumption|]. split; [assumption|]. split.
          { intros l i Hl Hi. destruct (Hold2 l i Hl Hi) as (c & A1 & A2 & A3).
            assert (Hib : i < base). { assert (p' (l + 1) <= base); [|lia]. rewrite Hp' by lia. rewrite <- Hp2. apply Hpm; lia. }
            destruct (Hcell i c ltac:(lia) A1) as (d & D1 & _ & _ & _ & D5 & _). rewrite (D5 Hib) in D1. exists c. split; [assumption|]. split; [assumption|]. intros Hbg. destruct (A3 Hbg) as (B1 & B2 & B3). split; [assumption|]. split; [assumption|].
            refine (child_ext _ _ _ _ tc1 tc3 _ B3). intros j d' Hj Hd'.
            assert (Hle : p' (l + 2) <= base'). { destruct (Z.eq_dec l lev) as [->|]; [rewrite Hp''; lia|]. rewrite Hp' by lia. assert (p (l + 2) <= p (lev + 1)) by (apply Hpm; lia). lia. }
            destruct (Hcell (adr_tc c + j) d' ltac:(lia) Hd') as (d2 & F1 & F2 & F3 & F4 & _). exists d2. auto. }
          split.
          { intros i Hi. destruct (Hnew i Hi) as (c & A1 & (G1 & G2 & G3)). destruct (Hcell i c ltac:(lia) A1) as (d & D1 & D2 & D3 & D4 & _ & D6). exists d. split; [assumption|]. split; [unfold good; rewrite D2, D3, D4; auto|].
            intros Hbg. rewrite D2 in Hbg. rewrite Hcnt by lia. apply D6; [lia|assumption]. }
          split; [rewrite Hcnt by lia; assumption|]. split; [|assumption].
          rewrite (sumZ_ext (nn tc3) (nn tc1)); [assumption|]. intros i Hi. apply zrange_in in Hi. apply Hnn. assumption. }
        exists tc', part'', p'', lev_max. replace (base' - 1) with (base' - 1) in R1 by lia. split; [exact R1|]. split; [assumption|]. split.
        * intros l Hl. rewrite R3 by lia. apply Hp'. lia.
        * intros k c Hkb Hc. destruct (Hcell k c ltac:(lia) (proj2 (K1 k c Hkb) Hc)) as (d & D1 & _ & _ & _ & D5 & _). rewrite (D5 Hkb) in D1. apply R4; [lia|assumption].
  Qed.
End Levels.
