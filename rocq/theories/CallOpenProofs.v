(** All the steps of CallModel together, in doubles, when no axis is periodic. *)
From Coq Require Import List Arith ZArith Lia Bool Permutation Sorted Reals Lra.
From Flocq Require Import Core.
From Verif Require Import Outcome ListUtil Arith ParticleModel VecModel DomainModel RadixProofs MortonModel TreeModel TreeSpec TreeProofs TreeLink TreeSearch TreeContact LetModel LetSpec LetProofs LetSearch CallModel CallSpec CallRoot CallSort CallForce CallProofs CallContact CallOpenSpec CallOpenRoot.
Import ListNotations.

Lemma all_tags {N : arith} {P} (E : list (list (item N P))) : length (flat_map (fun s => map (fun j => (s, Z.of_nat j)) (seq 0 (length (nth s E [])))) (seq 0 (length E))) = length (concat E).
Proof.
  rewrite flat_map_concat_map. induction E as [|x l IH] using rev_ind; [reflexivity|]. rewrite app_length. cbn [length]. rewrite Nat.add_1_r, seq_S, map_app, !concat_app, !app_length. cbn [map concat plus]. rewrite !app_nil_r, map_length, seq_length, app_nth2, Nat.sub_diag by lia. cbn [nth]. f_equal. rewrite <- IH. f_equal. f_equal. apply map_ext_in. intros s Hs. apply in_seq in Hs. rewrite app_nth1 by lia. reflexivity.
Qed.
Lemma open_origin k : lattice open k -> k = origin.
Proof. destruct k as [x y z]. intros (A & B & C). cbn in A, B, C. rewrite A, B, C by reflexivity. reflexivity. Qed.
Lemma open_count {N : arith} {P} (val : N -> R) slack img (E : list (list (item N P))) need r own o : nth_error E r = Some own -> delivers val slack open img E need r o -> (length own + length o <= length (concat E))%nat.
Proof.
  intros Hr (tags & T1 & T2 & _). rewrite <- (Forall2_len _ _ _ T2), <- all_tags. set (mine := map (fun j => (r, Z.of_nat j)) (seq 0 (length own))).
  assert (L1 : length mine = length own) by (unfold mine; rewrite map_length, seq_length; reflexivity). rewrite <- L1, <- (map_length fst tags), <- app_length.
  assert (Tg : forall s j k, In (s, j, k) tags -> k = origin /\ s <> r /\ exists l f, nth_error E s = Some l /\ at_ l j f).
  { intros s j k H. destruct (Forall2_at' _ _ _ _ T2 H) as (e & _ & X1 & X2 & _ & l & f & X4 & X5 & _). apply open_origin in X1. split; [exact X1|]. split; [intros X; exact (X2 X X1)|]. eauto. }
  apply NoDup_incl_length.
  - assert (App : forall l1 l2 : list (nat * Z), NoDup l1 -> NoDup l2 -> (forall x, In x l1 -> ~ In x l2) -> NoDup (l1 ++ l2)).
    { clear. induction l1 as [|x l1 IH]; intros l2 N1 N2 H; [exact N2|]. inversion N1 as [|? ? Nx Nl]; subst. cbn [app]. constructor; [|apply IH; [exact Nl|exact N2|intros y Hy; apply H; now right]]. intros I. apply in_app_or in I. destruct I as [I|I]; [exact (Nx I)|]. exact (H x (or_introl eq_refl) I). }
    apply App.
    + unfold mine. apply nodup_map; [apply seq_NoDup|]. intros a b _ _ H. injection H as H. lia.
    + apply nodup_map; [exact T1|]. intros ((s & j) & k) ((s' & j') & k') H H' X. injection X as -> ->. destruct (Tg _ _ _ H) as (-> & _). destruct (Tg _ _ _ H') as (-> & _). reflexivity.
    + intros (s & j) H H'. unfold mine in H. apply in_map_iff in H. destruct H as (a & X & _). injection X as -> <-. apply in_map_iff in H'. destruct H' as (((s' & j') & k') & X & H'). cbn [fst] in X. injection X as -> ->. destruct (Tg _ _ _ H') as (_ & X & _). congruence.
  - intros (s & j) H. apply in_flat_map. exists s. apply in_app_or in H. destruct H as [H|H].
    + unfold mine in H. apply in_map_iff in H. destruct H as (a & X & Ha). injection X as -> <-. split; [apply in_seq; split; [lia|]; apply nth_error_Some; congruence|]. rewrite (nth_error_nth _ _ _ Hr). apply in_map_iff. exists a. auto.
    + apply in_map_iff in H. destruct H as (((s' & j') & k') & X & H). cbn [fst] in X. injection X as -> ->. destruct (Tg _ _ _ H) as (_ & _ & l & f & X1 & X2 & X3). split; [apply in_seq; split; [lia|]; apply nth_error_Some; congruence|]. apply in_map_iff. exists (Z.to_nat j). split; [f_equal; lia|]. apply in_seq. split; [lia|]. rewrite (nth_error_nth _ _ _ X1). apply nth_error_Some. congruence.
Qed.
Lemma delivers_loose {P} pa img (E : list (list (item F_arith P))) need r o : delivers real tight pa img E need r o -> delivers real loose pa img E need r o.
Proof.
  intros (tags & T1 & T2 & T3). exists tags. split; [exact T1|]. split; [exact T2|]. intros own e s l j f k H1 H2 H3 H4 H5 H6 H7. apply (T3 own e s l j f k H1 H2 H3 H4 H5 H6). destruct H7 as [H7|H7]; [left; exact H7|right]. unfold tight. 
  apply (Rle_trans _ (loose (apart real (i_site e) (i_site (img k f))))); [apply loose_above|exact H7]. unfold apart. cbv zeta. repeat apply Rplus_le_le_0_compat; apply pow2_ge_0.
Qed.

Section Doubles.
  Context {P Fo : Type} (q : nat -> cast F_arith P Fo) (threads : nat) (root : ort F_arith) (doms : list (ort F_arith)) (limit grpLimit : Z) (E : list (list (item F_arith P))).
  Context (func : list (item F_arith P) -> list (item F_arith P) -> list Fo -> list Fo) (clear : Fo -> Fo).
  Hypothesis HW : arena_open root doms E.
  Hypothesis Hq : forall r, any_cast (length doms) threads limit (length (nth r E [])) (q r).
  Hypothesis Hlim : (1 <= limit <= grpLimit)%Z.

  Definition tree_okF (r : nat) (l : local F_arith P) : Prop :=
    nth_error E r = Some (l_org l) /\ shuffled (l_org l) (map snd (l_tp l)) (l_own l) /\ sorted_keys (map fst (l_tp l)) /\ (forall t, In t (l_tp l) -> (0 <= fst t < 8 ^ 21)%Z) /\
    usable finite real (map i_site (l_own l)) /\ q_tree1 (q r) (map fst (l_tp l)) (map i_site (l_own l)) = Done (l_tree l).

  Lemma q_atF r own : nth_error E r = Some own -> any_cast (length doms) threads limit (length own) (q r).
  Proof using Hq. intros H. specialize (Hq r). rewrite (nth_error_nth _ _ _ H) in Hq. exact Hq. Qed.
  Lemma in_all r own e : nth_error E r = Some own -> In e own -> In e (concat E).
  Proof using. intros H1 H2. apply in_concat. apply nth_error_In in H1. eauto. Qed.
  Lemma own_few r own : nth_error E r = Some own -> treeable (length own).
  Proof using HW.
    clear Hq Hlim. intros H. apply (treeable_less _ (length (concat E))); [|exact (w_few _ _ _ HW)]. clear HW. apply nth_error_split in H. destruct H as (l1 & l2 & -> & _). rewrite concat_app, app_length. cbn [concat]. rewrite app_length. lia.
  Qed.

  Lemma localTree_okF key r own : nth_error E r = Some own -> (forall e, In e own -> keyed_at key (s_pos (i_site e))) -> exists l, localTree key (q r) own = Done l /\ tree_okF r l.
  Proof using HW Hq Hlim.
    intros Hr Hk. pose proof (q_atF r own Hr) as Q. unfold localTree. destruct (sortLocal_ok key (q_sort1 (q r) (length own)) own (ac_sort1 _ _ _ _ _ Q _) Hk) as (tp & srt & E1 & E2 & E3 & E4). rewrite E1. cbn [obind fst snd].
    destruct (shuffled_length _ _ _ E2) as (L1 & L2). rewrite map_length in L2.
    assert (U : usable finite real (map i_site srt)). { intros x Hx. apply in_map_iff in Hx. destruct Hx as (e & <- & He). apply (shuffled_in _ _ _ _ E2) in He. exact (usable_F root doms E HW e (in_all r own e Hr He) (i_site e) (or_introl eq_refl)). }
    destruct (ac_tree1 _ _ _ _ _ Q (map fst tp) (map i_site srt)) as (junk & jm & sched & sched' & tc & part & S1 & S2 & S3 & S4).
    assert (Ft : fits limit (map fst tp)) by (apply treeable_fits; [lia|rewrite map_length, L2; exact (own_few r own Hr)|exact E3]).
    destruct (buildTree_fits finite real doubles_ordered junk jm sched sched' (map fst tp) (map i_site srt) limit tc part) as (t & T1 & T2); try assumption; [rewrite !map_length; lia|lia|].
    rewrite S4, T1. cbn [obind]. exists (Local own tp srt t). split; [reflexivity|]. split; [exact Hr|]. split; [exact E2|]. split; [exact E3|]. split; [exact E4|]. split; [exact U|]. cbn [l_tp l_own l_tree]. rewrite S4. exact T1.
  Qed.

  Lemma makeTrees_okF fuel : exists cell ls recv, @makeTrees F_arith P Fo q f_cast fuel open root doms limit E = Done (cell, ls, recv) /\
    length ls = length E /\ length recv = length E /\ (forall r l, nth_error ls r = Some l -> tree_okF r l) /\ (forall e, In e (concat E) -> keyed_at (@cellKey F_arith f_cast cell) (s_pos (i_site e))) /\
    forall r o, nth_error recv r = Some o -> delivers real tight open (fun _ f => f) E (fun _ _ => True) r o.
  Proof using HW Hq Hlim.
    set (deal := fun r => q_deal (q r)). assert (Hd : forall r own, nth_error E r = Some own -> Permutation (concat (deal r)) (seq 0 (length own))) by (intros r own Hr; exact (ac_deal _ _ _ _ _ (q_atF r own Hr))).
    destruct (root_cell_open root doms E HW deal fuel Hd) as (cell & C1 & C2). set (key := @cellKey F_arith f_cast cell) in *.
    destruct (omap_seq (fun r => do ep <- mread E r; localTree key (q r) ep) tree_okF (length E)) as (ls & L1 & L2 & L3).
    { intros r Hr. destruct (nth_error E r) as [own|] eqn:Er; [|apply nth_error_None in Er; lia]. unfold mread. rewrite Er. cbn [obind]. apply localTree_okF; [exact Er|]. intros e He. exact (C2 e (in_all r own e Er He)). }
    assert (Same : forall r own', nth_error (map l_own ls) r = Some own' -> exists own, nth_error E r = Some own /\ forall e, In e own' <-> In e own).
    { intros r own' H. apply nth_error_map_some in H. destruct H as (l & Hl & ->). destruct (L3 r l Hl) as (A & B & _). exists (l_org l). split; [exact A|]. intros e. apply (shuffled_in _ _ _ _ B). }
    assert (Y : ready_open (fun r => q_let (q r)) key root doms (map l_own ls) (map l_tree ls) limit).
    { constructor.
      - exact (w_box _ _ _ HW).
      - exact (w_doms _ _ _ HW).
      - rewrite map_length, L2. exact (w_E _ _ _ HW).
      - rewrite map_length, L2. exact (w_E _ _ _ HW).
      - lia.
      - intros r own d e Hr Hdr He. destruct (Same r own Hr) as (w & W1 & W2). apply (w_homes _ _ _ HW r w d e W1 Hdr). apply W2. exact He.
      - intros r own t Hr Ht. apply nth_error_map_some in Hr. destruct Hr as (l & Hl & ->). rewrite (map_nth_error _ _ _ Hl) in Ht. injection Ht as <-. destruct (L3 r l Hl) as (T1 & T2 & T3 & T4 & T5 & T6). split; [exact T5|].
        destruct (ac_tree1 _ _ _ _ _ (q_atF r _ T1) (map fst (l_tp l)) (map i_site (l_own l))) as (junk & jm & sched & sched' & tc & part & S1 & S2 & S3 & S4). destruct (shuffled_length _ _ _ T2) as (M1 & M2). rewrite map_length in M2.
        exists junk, jm, sched, sched', (map fst (l_tp l)), tc, part. split; [exact S1|]. split; [exact S2|]. split; [exact S3|]. split; [apply treeable_fits; [lia|rewrite map_length, M2; exact (own_few r _ T1)|exact T3]|].
        split; [rewrite map_length; lia|]. rewrite <- S4. exact T6.
      - intros r. exact (ac_let _ _ _ _ _ (Hq r)).
      - intros own e Ho He. apply In_nth_error in Ho. destruct Ho as (r & Hr). destruct (Same r own Hr) as (w & W1 & W2). exact (C2 e (in_all r w e W1 (proj1 (W2 e) He))). }
    destruct (exchange_search_open _ _ _ _ _ _ _ fuel Y) as (recv & R1 & R2 & R3 & _). exists cell, ls, recv.
    split; [unfold makeTrees; fold deal; rewrite C1; cbn [obind]; fold key; rewrite L1; cbn [obind]; rewrite R1; reflexivity|]. split; [exact L2|]. split; [rewrite R2; symmetry; exact (w_E _ _ _ HW)|]. split; [exact L3|]. split; [exact C2|].
    intros r o Ho. apply (delivers_shuffle _ _ _ _ E (map l_own ls) _ (fun _ _ => True) r o (fun s => match nth_error ls s with Some l => map snd (l_tp l) | None => [] end)).
    - rewrite map_length. exact L2.
    - intros s l Hs. destruct (nth_error ls s) as [lo|] eqn:El; [|apply nth_error_None in El; assert (s < length E) by (apply nth_error_Some; congruence); lia]. destruct (L3 s lo El) as (A & B & _). exists (l_own lo). split; [apply map_nth_error; exact El|]. assert (l = l_org lo) as -> by congruence. exact B.
    - auto.
    - apply R3. exact Ho.
  Qed.

  Hypothesis Hfunc : forall epi epj fs, length fs = length epi -> length (func epi epj fs) = length fs.

  Theorem call_open fuel : exists res, @calcForceAll F_arith P Fo func clear q f_cast fuel open root doms limit grpLimit E = Done res /\ length res = length E /\
    forall r own x, nth_error E r = Some own -> nth_error res r = Some x -> served real loose open (fun _ f => f) E func clear threads own x.
  Proof using HW Hq Hlim Hfunc.
    destruct (makeTrees_okF fuel) as (cell & ls & recv & M1 & M2 & M3 & M4 & M5 & M6). unfold calcForceAll. rewrite M1. cbn [obind].
    destruct (omap_seq (fun r => do l <- mread ls r; do x <- mread recv r; callRank func clear (q r) (@cellKey F_arith f_cast cell) limit grpLimit l x)
      (fun r x => forall own, nth_error E r = Some own -> served real loose open (fun _ f => f) E func clear threads own x) (length E)) as (res & R1 & R2 & R3).
    2: { exists res. split; [exact R1|]. split; [exact R2|]. intros r own x Hr Hx. exact (R3 r x Hx own Hr). }
    intros r Hr. destruct (nth_error ls r) as [l|] eqn:El; [|apply nth_error_None in El; lia]. destruct (nth_error recv r) as [o|] eqn:Eo; [|apply nth_error_None in Eo; lia].
    unfold mread at 1. rewrite El. cbn [obind]. unfold mread at 1. rewrite Eo. cbn [obind]. destruct (M4 r l El) as (T1 & T2 & T3 & T4 & T5 & T6). pose proof (M6 r o Eo) as D. pose proof (q_atF r _ T1) as Q. set (own := l_org l) in *.
    assert (Room : treeable (length own + length o)) by (apply (treeable_less _ (length (concat E))); [apply (open_count _ _ _ _ _ _ _ _ T1 D)|exact (w_few _ _ _ HW)]).
    assert (Io : forall e, In e o -> In e (concat E)).
    { intros e He. destruct D as (tags & _ & D2 & _). destruct (Forall2_at _ _ _ _ D2 He) as (((s & j) & k) & _ & X1 & _ & X3 & l' & f & X4 & (_ & X5) & ->). exact (in_all s l' f X4 (nth_error_In _ _ X5)). }
    unfold callRank. fold own. destruct (sortGlobal_ok (@cellKey F_arith f_cast cell) (q_sort2 (q r) (length own + length o)) (l_tp l) own o) as (tp' & all & S1 & S2 & S3); [apply (ac_sort2 _ _ _ _ _ Q)|exact (proj1 T2)|exact T4|intros e He; exact (M5 e (Io e He))|].
    rewrite S1. cbn [obind]. destruct (shuffled_length _ _ _ T2) as (L1 & L2). destruct (shuffled_length _ _ _ S2) as (L3 & L4). rewrite map_length in L2, L4. rewrite app_length in L3, L4.
    destruct (ac_tree1 _ _ _ _ _ Q (map fst (l_tp l)) (map i_site (l_own l))) as (j1 & m1 & s1 & s1' & c1 & p1 & A1 & A2 & A3 & A4). destruct (ac_tree2 _ _ _ _ _ Q (map fst tp') (map i_site all)) as (j2 & m2 & s2 & s2' & c2 & p2 & B1 & B2 & B3 & B4).
    assert (Ua : usable finite real (map i_site all)).
    { intros x Hx. apply in_map_iff in Hx. destruct Hx as (e & <- & He). apply (shuffled_in _ _ _ _ S2) in He. apply (usable_F root doms E HW e); [|now left]. apply in_app_or in He. destruct He as [He|He]; [exact (in_all r own e T1 He)|exact (Io e He)]. }
    destruct (search_doubles j1 m1 s1 s1' c1 p1 j2 m2 s2 s2' c2 p2 (map fst (l_tp l)) (map i_site (l_own l)) (map fst tp') (map i_site all) limit grpLimit) as (lists & G1 & G2); try assumption.
    { apply treeable_fits; [lia|rewrite map_length, L2; exact (own_few r own T1)|exact T3]. } { apply treeable_fits; [lia|rewrite map_length, L4; exact Room|exact S3]. } { rewrite !map_length. lia. } { rewrite !map_length. lia. }
    assert (G1' : searchLists (fun _ _ => Done (l_tree l)) (q_tree2 (q r)) (map fst (l_tp l)) (map i_site (l_own l)) (map fst tp') (map i_site all) limit grpLimit = Done lists).
    { rewrite <- G1. unfold searchLists. rewrite <- A4, <- B4, T6. reflexivity. }
    rewrite G1'. cbn [obind].
    destruct (rank_served finite real loose open (fun _ f => f) E (fun _ _ => True) func clear Hfunc (fun f => eq_refl) r own o (l_own l) all (l_tp l) tp' (map fst (l_tp l)) grpLimit lists T1 T2 S2 G2 (delivers_loose _ _ _ _ _ _ D) threads
      (q_calls (q r) (length lists)) (q_copy (q r)) (map (q_sorted (q r)) (seq 0 (length own))) (map (q_org (q r)) (seq 0 (length own)))) as (x & X1 & X2).
    - apply (ac_calls _ _ _ _ _ Q).
    - apply (ac_calls _ _ _ _ _ Q).
    - apply (ac_copy _ _ _ _ _ Q).
    - rewrite map_length, seq_length. reflexivity.
    - rewrite map_length, seq_length. reflexivity.
    - exists x. split; [exact X1|]. intros own' Hr'. assert (own' = own) as -> by congruence. exact X2.
  Qed.
End Doubles.
