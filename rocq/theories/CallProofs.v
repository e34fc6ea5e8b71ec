(** All the steps of CallModel together, with exact numbers. *)
From Coq Require Import List Arith ZArith Lia Bool Permutation Sorted Reals Lra.
From Flocq Require Import Core.
From Verif Require Import Outcome ListUtil Arith ParticleModel VecModel DomainModel RadixProofs TreeModel TreeSpec TreeProofs TreeLink TreeSearch TreeContact LetModel LetSpec LetProofs LetSearch CallModel CallSpec CallRoot CallSort CallForce.
Import ListNotations.

Lemma treeable_fits limit keys : (1 <= limit)%Z -> treeable (length keys) -> sorted_keys keys -> fits limit keys.
Proof.
  intros Hl (H1 & H2) Hs. split; [exact Hs|]. split; [exact H1|]. assert (Z.of_nat (length keys) / (limit + 1) <= Z.of_nat (length keys) / 2)%Z by (apply Z.div_le_compat_l; lia). lia.
Qed.

Lemma omap_seq {B} (f : nat -> outcome B) (Q : nat -> B -> Prop) n : (forall r, r < n -> exists y, f r = Done y /\ Q r y) -> exists ys, omap f (seq 0 n) = Done ys /\ length ys = n /\ forall r y, nth_error ys r = Some y -> Q r y.
Proof.
  intros H. destruct (omap_each f Q (seq 0 n)) as (ys & E1 & E2); [intros r Hr; apply H; apply in_seq in Hr; lia|]. exists ys. split; [exact E1|]. split; [apply Forall2_len in E2; rewrite seq_length in E2; lia|].
  intros r y Hy. destruct (Forall2_nth _ _ _ E2 r y Hy) as (r' & Hr & HQ). assert (r < n) by (rewrite <- (seq_length n 0); apply nth_error_Some; congruence). rewrite nth_error_seq in Hr by assumption. injection Hr as <-. exact HQ.
Qed.

(** the particles of the ranks in another order *)
Lemma delivers_shuffle {N : arith} {P} (val : N -> R) slack pa img (E E' : list (list (item N P))) (need need' : nat -> vec Z -> Prop) r out (sg : nat -> list nat) : length E' = length E ->
  (forall s l, nth_error E s = Some l -> exists l', nth_error E' s = Some l' /\ shuffled l (sg s) l') -> (forall s k, need' s k -> need s k) ->
  delivers val slack pa img E' need' r out -> delivers val slack pa img E need r out.
Proof.
  intros LE HS Hn (tags & T1 & T2 & T3). set (tr := fun t : nat * Z * vec Z => let '(s, j, k) := t in (s, Z.of_nat (nth (Z.to_nat j) (sg s) 0), k)).
  assert (V : forall s j k, In (s, j, k) tags -> exists l l' y, nth_error E s = Some l /\ nth_error E' s = Some l' /\ shuffled l (sg s) l' /\ (0 <= j)%Z /\ nth_error (sg s) (Z.to_nat j) = Some y).
  { intros s j k H. destruct (Forall2_at' _ _ _ _ T2 H) as (e & _ & _ & _ & _ & l' & f & L1 & (Hj & L2) & _). assert (Hs : s < length E) by (rewrite <- LE; apply nth_error_Some; congruence). destruct (nth_error E s) as [l|] eqn:El; [|apply nth_error_None in El; lia].
    destruct (HS s l El) as (l'' & El' & Sh). assert (l'' = l') as -> by congruence. destruct (shuffled_read _ _ _ _ _ Sh L2) as (y & Y & _). exists l, l', y. auto. }
  exists (map tr tags). split; [|split].
  - apply nodup_map; [exact T1|]. intros ((s & j) & k) ((s' & j') & k') Hx Hy Et. cbn in Et. injection Et as -> Ej ->. apply Nat2Z.inj in Ej. destruct (V _ _ _ Hx) as (l & l' & y & A1 & A2 & A3 & A4 & A5). destruct (V _ _ _ Hy) as (m & m' & y' & B1 & B2 & B3 & B4 & B5).
    rewrite (nth_error_nth _ _ _ A5), (nth_error_nth _ _ _ B5) in Ej. subst y'. pose proof (shuffled_inj _ _ _ _ _ _ A3 A5 B5). assert (j = j') by lia. congruence.
  - apply Forall2_map_l. revert T2. apply Forall2_imp. intros ((s & j) & k) e Ht _ (Q1 & Q2 & Q3 & l' & f & L1 & L2 & ->). cbn. destruct (V _ _ _ Ht) as (l & m' & y & A1 & A2 & A3 & A4 & A5). assert (m' = l') as -> by congruence.
    split; [exact Q1|]. split; [exact Q2|]. split; [apply Hn; exact Q3|]. exists l, f. split; [exact A1|]. split; [|reflexivity]. split; [lia|]. rewrite Nat2Z.id. destruct L2 as (_ & L2). destruct (shuffled_read _ _ _ _ _ A3 L2) as (y' & Y1 & Y2). rewrite (nth_error_nth _ _ _ Y1). exact Y2.
  - intros own e s l j f k Hr He Hs (Hj0 & Hj) Hk Hne Hsee. destruct (HS r own Hr) as (own' & Hr' & Shr). destruct (HS s l Hs) as (l' & Hs' & Sh). destruct (shuffled_find _ _ _ _ _ Sh Hj) as (x & X1 & X2).
    assert (Ht : In (s, Z.of_nat x, k) tags). { apply (T3 own' e s l' (Z.of_nat x) f k Hr'); try assumption; [apply (proj2 (shuffled_in _ _ _ _ Shr)); exact He|split; [lia|rewrite Nat2Z.id; exact X2]]. }
    apply in_map_iff. exists (s, Z.of_nat x, k). split; [|exact Ht]. cbn. rewrite Nat2Z.id, (nth_error_nth _ _ _ X1), Z2Nat.id by exact Hj0. reflexivity.
Qed.

Section Reals.
  Context {P Fo : Type} (q : nat -> cast R_arith P Fo) (threads : nat) (pa : vec bool) (root : ort R) (doms : list (ort R)) (limit grpLimit : Z) (E : list (list (item R_arith P))).
  Context (func : list (item R_arith P) -> list (item R_arith P) -> list Fo -> list Fo) (clear : Fo -> Fo).
  Hypothesis HA : arena pa root doms E.
  Hypothesis Hq : forall r, any_cast (length doms) threads limit (length (nth r E [])) (q r).
  Hypothesis Hlim : (1 <= limit <= grpLimit)%Z.

  Lemma away_origin p : away root origin p = p.
  Proof using. destruct p as [a b c]. unfold away, origin. cbn [vx vy vz]. rewrite !Rmult_0_l, !Rminus_0_r. reflexivity. Qed.
  Lemma hull_in (bs cs : list (ort R_arith)) o : (forall b, In b bs <-> In b cs) -> @hull R_arith all_ok (fun x => x) bs o -> @hull R_arith all_ok (fun x => x) cs o.
  Proof using.
    intros H (H1 & H2 & H3). split; [exact H1|]. split; [intros b Hb; apply H2, H, Hb|]. intros c Hc. destruct (H3 c Hc) as ((b & B1 & B2) & (b' & B3 & B4)). split; [exists b|exists b']; (split; [apply H; assumption|assumption]).
  Qed.
  Lemma hits_same own own' d k : (forall e, In e own' <-> In e own) -> hits root own' d k -> hits (P := P) root own d k.
  Proof using.
    intros H (o & Ho & Hm). exists o. split; [|exact Hm]. revert Ho. apply hull_in. intros b. rewrite !in_map_iff. split; intros (e & A & B); exists e; (split; [exact A|apply H; exact B]).
  Qed.

  Definition in_order (ls : list (local R_arith P)) : Prop := length ls = length E /\ forall r l, nth_error ls r = Some l -> nth_error E r = Some (l_org l) /\ shuffled (l_org l) (map snd (l_tp l)) (l_own l).

  Lemma order_at ls r own : in_order ls -> nth_error E r = Some own -> exists l, nth_error ls r = Some l /\ l_org l = own /\ shuffled own (map snd (l_tp l)) (l_own l).
  Proof using.
    intros (L & H) Hr. destruct (nth_error ls r) as [l|] eqn:El; [|apply nth_error_None in El; assert (r < length E) by (apply nth_error_Some; congruence); lia]. destruct (H r l El) as (A & B). assert (l_org l = own) by congruence. subst own. exists l. auto.
  Qed.
  Lemma order_own ls own' : in_order ls -> In own' (map l_own ls) -> exists own, In own E /\ forall e, In e own' <-> In e own.
  Proof using.
    intros (L & H) Ho. apply in_map_iff in Ho. destruct Ho as (l & <- & Hl). apply In_nth_error in Hl. destruct Hl as (r & Hr). destruct (H r l Hr) as (A & B). exists (l_org l). split; [apply nth_error_In in A; exact A|]. intros e. apply (shuffled_in _ _ _ _ B).
  Qed.
  Lemma order_nth ls r own' : in_order ls -> nth_error (map l_own ls) r = Some own' -> exists own, nth_error E r = Some own /\ forall e, In e own' <-> In e own.
  Proof using.
    intros (L & H) Ho. apply nth_error_map_some in Ho. destruct Ho as (l & Hl & ->). destruct (H r l Hl) as (A & B). exists (l_org l). split; [exact A|]. intros e. apply (shuffled_in _ _ _ _ B).
  Qed.
  Lemma needed_order ls r s k : in_order ls -> needed root doms (map l_own ls) r s k -> needed root doms E r s k.
  Proof using.
    intros HI (d & d' & own & own' & D1 & D2 & O1 & O2 & Hh). destruct (order_nth ls r own HI O1) as (w & W1 & W2). destruct (order_nth ls s own' HI O2) as (w' & W1' & W2'). exists d, d', w, w'. split; [exact D1|]. split; [exact D2|]. split; [exact W1|]. split; [exact W1'|].
    destruct Hh as [Hh|Hh]; [left; exact (hits_same w' own' d k W2' Hh)|right; exact (hits_same w own d' (opposite k) W2 Hh)].
  Qed.

  (** the trees of the ranks *)
  Definition tree_ok (key : vec R -> outcome Z) (r : nat) (l : local R_arith P) : Prop :=
    nth_error E r = Some (l_org l) /\ shuffled (l_org l) (map snd (l_tp l)) (l_own l) /\ sorted_keys (map fst (l_tp l)) /\ (forall t, In t (l_tp l) -> (0 <= fst t < 8 ^ 21)%Z) /\
    usable all_ok (fun x : R_arith => x) (map i_site (l_own l)) /\ q_tree1 (q r) (map fst (l_tp l)) (map i_site (l_own l)) = Done (l_tree l).

  Lemma q_at r own : nth_error E r = Some own -> any_cast (length doms) threads limit (length own) (q r).
  Proof using Hq. intros H. specialize (Hq r). rewrite (nth_error_nth _ _ _ H) in Hq. exact Hq. Qed.

  Lemma localTree_ok key r own : nth_error E r = Some own -> (forall e, In e own -> keyed_at key (s_pos (i_site e)) /\ usable all_ok (fun x : R_arith => x) [i_site e]) ->
    exists l, localTree key (q r) own = Done l /\ tree_ok key r l.
  Proof using HA Hq Hlim.
    intros Hr Hk. pose proof (q_at r own Hr) as Q. unfold localTree. destruct (sortLocal_ok key (q_sort1 (q r) (length own)) own (ac_sort1 _ _ _ _ _ Q _) (fun e He => proj1 (Hk e He))) as (tp & srt & E1 & E2 & E3 & E4). rewrite E1. cbn [obind fst snd].
    destruct (shuffled_length _ _ _ E2) as (L1 & L2). rewrite map_length in L2.
    assert (U : usable all_ok (fun x : R_arith => x) (map i_site srt)). { intros x Hx. apply in_map_iff in Hx. destruct Hx as (e & <- & He). apply (shuffled_in _ _ _ _ E2) in He. exact (proj2 (Hk e He) (i_site e) (or_introl eq_refl)). }
    destruct (ac_tree1 _ _ _ _ _ Q (map fst tp) (map i_site srt)) as (junk & jm & sched & sched' & tc & part & S1 & S2 & S3 & S4).
    assert (Ft : fits limit (map fst tp)) by (apply treeable_fits; [lia|rewrite map_length, L2; apply (a_few _ _ _ _ HA); apply nth_error_In in Hr; exact Hr|exact E3]).
    destruct (buildTree_fits all_ok (fun x : R_arith => x) reals_ordered junk jm sched sched' (map fst tp) (map i_site srt) limit tc part) as (t & T1 & T2); try assumption; [rewrite !map_length; lia|lia|].
    rewrite S4, T1. cbn [obind]. exists (Local own tp srt t). split; [reflexivity|]. split; [exact Hr|]. split; [exact E2|]. split; [exact E3|]. split; [exact E4|]. split; [exact U|]. cbn [l_tp l_own l_tree]. rewrite S4. exact T1.
  Qed.

  Lemma makeTrees_ok : exists F, forall fuel, F <= fuel -> exists cell ls recv, @makeTrees R_arith P Fo q Ztrunc fuel pa root doms limit E = Done (cell, ls, recv) /\
    length ls = length E /\ length recv = length E /\ (forall r l, nth_error ls r = Some l -> tree_ok (@cellKey R_arith Ztrunc cell) r l) /\
    (forall r s own e k, nth_error E s = Some own -> In e own -> lattice pa k -> k = origin \/ needed root doms E r s k ->
        keyed_at (@cellKey R_arith Ztrunc cell) (away root k (s_pos (i_site e))) /\ @usable R_arith all_ok (fun x => x) [i_site (image root k e)]) /\
    forall r o, nth_error recv r = Some o -> delivers (fun x : R_arith => x) tight pa (image root) E (needed root doms E r) r o.
  Proof using HA Hq Hlim.
    set (deal := fun r => q_deal (q r)). assert (Hd : forall r own, nth_error E r = Some own -> Permutation (concat (deal r)) (seq 0 (length own))) by (intros r own Hr; exact (ac_deal _ _ _ _ _ (q_at r own Hr))).
    assert (HF0 : (9001 < Z.of_nat (Z.to_nat 9002))%Z) by lia. destruct (root_cell pa root doms E HA deal (Z.to_nat 9002) HF0 Hd) as (cell & C1 & C2).
    (* the cell does not depend on the fuel *)
    assert (Cell : forall fuel, (9001 < Z.of_nat fuel)%Z -> @setRootCell R_arith P deal fuel pa root E = Done cell).
    { intros fuel Hf. destruct (root_cell pa root doms E HA deal fuel Hf Hd) as (cell' & C1' & _). rewrite C1'. f_equal. revert C1 C1'. unfold setRootCell. destruct (omap _ _) as [boxes| |]; cbn [obind]; intros C1 C1'; try discriminate C1. 
      assert (Mono : forall my tmp sh f f' n x y, @shiftLoop R_arith f my tmp sh n = Done x -> @shiftLoop R_arith f' my tmp sh n = Done y -> x = y).
      { clear. intros my tmp sh f. revert tmp. induction f as [|f IH]; intros tmp [|f'] n x y; cbn [shiftLoop]; try discriminate. destruct (@overlapsBox R_arith my tmp); [|congruence]. destruct (PointsModel.as_int (n + 1)); cbn [obind]; try discriminate. apply IH. }
      assert (AS : forall b sh f f' x y, @axisShift R_arith f b root (@outerBox R_arith boxes) sh = Done x -> @axisShift R_arith f' b root (@outerBox R_arith boxes) sh = Done y -> x = y).
      { clear - Mono. intros b sh f f' x y. unfold axisShift, calcNumShift. destruct b; [|congruence]. destruct (@shiftLoop R_arith f _ _ sh _) as [u| |] eqn:A1; cbn [obind]; try discriminate. destruct (@shiftLoop R_arith f _ _ (vopp sh) _) as [v| |] eqn:A2; cbn [obind]; try discriminate.
        destruct (@shiftLoop R_arith f' _ _ sh _) as [u'| |] eqn:A3; cbn [obind]; try discriminate. destruct (@shiftLoop R_arith f' _ _ (vopp sh) _) as [v'| |] eqn:A4; cbn [obind]; try discriminate. rewrite (Mono _ _ _ _ _ _ _ _ A1 A3), (Mono _ _ _ _ _ _ _ _ A2 A4). congruence. }
      revert C1 C1'. unfold rootCell. cbv zeta.
      destruct (@axisShift R_arith (Z.to_nat 9002) (vx pa) root _ _) as [u| |] eqn:A1; cbn [obind]; intros C1; try discriminate C1. destruct (@axisShift R_arith fuel (vx pa) root _ _) as [u'| |] eqn:A1'; cbn [obind]; intros C1'; try discriminate C1'. rewrite <- (AS _ _ _ _ _ _ A1 A1') in C1'. revert C1 C1'.
      destruct (@axisShift R_arith (Z.to_nat 9002) (vy pa) root _ _) as [v| |] eqn:A2; cbn [obind]; intros C1; try discriminate C1. destruct (@axisShift R_arith fuel (vy pa) root _ _) as [v'| |] eqn:A2'; cbn [obind]; intros C1'; try discriminate C1'. rewrite <- (AS _ _ _ _ _ _ A2 A2') in C1'. revert C1 C1'.
      destruct (@axisShift R_arith (Z.to_nat 9002) (vz pa) root _ _) as [w| |] eqn:A3; cbn [obind]; intros C1; try discriminate C1. destruct (@axisShift R_arith fuel (vz pa) root _ _) as [w'| |] eqn:A3'; cbn [obind]; intros C1'; try discriminate C1'. rewrite <- (AS _ _ _ _ _ _ A3 A3') in C1'. congruence. }
    set (key := @cellKey R_arith Ztrunc cell) in *.
    assert (Hown : forall r own e, nth_error E r = Some own -> In e own -> keyed_at key (s_pos (i_site e)) /\ usable all_ok (fun x : R_arith => x) [i_site e]).
    { intros r own e Hr He. destruct (C2 0 r own e origin Hr He ltac:(repeat split) (or_introl eq_refl)) as (K & U). rewrite away_origin in K. rewrite image_origin in U. auto. }
    destruct (omap_seq (fun r => do ep <- mread E r; localTree key (q r) ep) (tree_ok key) (length E)) as (ls & L1 & L2 & L3).
    { intros r Hr. destruct (nth_error E r) as [own|] eqn:Er; [|apply nth_error_None in Er; lia]. unfold mread. rewrite Er. cbn [obind]. apply localTree_ok; [exact Er|]. intros e He. exact (Hown r own e Er He). }
    assert (HI : in_order ls) by (split; [exact L2|]; intros r l Hl; destruct (L3 r l Hl) as (A & B & _); auto).
    assert (Y : ready (fun r => q_let (q r)) key pa root doms (map l_own ls) (map l_tree ls) limit).
    { constructor.
      - apply along_c. intros b c Hbc Hb. pose proof (proj1 (along_c pa _) (a_box _ _ _ _ HA) b c Hbc Hb) as He. cbv beta in He. split; [exact He|]. destruct (proj1 (along_c pa _) (a_root _ _ _ _ HA) b c Hbc Hb) as (R1 & R2). apply Rabs_le_inv in R1, R2. unfold edge in *. lra.
      - exact (a_doms _ _ _ _ HA).
      - rewrite map_length, L2. exact (a_E _ _ _ _ HA).
      - rewrite map_length, L2. exact (a_E _ _ _ _ HA).
      - lia.
      - intros r own d e Hr Hdr He. destruct (order_nth ls r own HI Hr) as (w & W1 & W2). apply (a_homes _ _ _ _ HA r w d e W1 Hdr). apply W2. exact He.
      - intros r own t Hr Ht. apply nth_error_map_some in Hr. destruct Hr as (l & Hl & ->). rewrite (map_nth_error _ _ _ Hl) in Ht. injection Ht as <-. destruct (L3 r l Hl) as (T1 & T2 & T3 & T4 & T5 & T6). split; [exact T5|].
        destruct (ac_tree1 _ _ _ _ _ (q_at r _ T1) (map fst (l_tp l)) (map i_site (l_own l))) as (junk & jm & sched & sched' & tc & part & S1 & S2 & S3 & S4). destruct (shuffled_length _ _ _ T2) as (M1 & M2). rewrite map_length in M2.
        exists junk, jm, sched, sched', (map fst (l_tp l)), tc, part. split; [exact S1|]. split; [exact S2|]. split; [exact S3|]. split; [apply treeable_fits; [lia|rewrite map_length, M2; apply (a_few _ _ _ _ HA); apply nth_error_In in T1; exact T1|exact T3]|].
        split; [rewrite map_length; lia|]. rewrite <- S4. exact T6.
      - intros r. exact (ac_let _ _ _ _ _ (Hq r)).
      - pose proof (root_reachable pa root doms E HA deal (Z.to_nat 9002) cell HF0 Hd C1) as RR. intros own d k Ho Hdm Hk Hh. destruct (order_own ls own HI Ho) as (w & W1 & W2). destruct (RR w d k W1 Hdm Hk (hits_same w own d k W2 Hh)) as (A & B). split; [exact A|]. intros e He. apply B. apply W2. exact He. }
    destruct (exchange_reals _ _ _ _ _ _ _ _ Y) as (F & HF). exists (Nat.max F (Z.to_nat 9002)). intros fuel Hf. destruct (HF fuel ltac:(lia)) as (recv & R1 & R2 & R3). exists cell, ls, recv.
    split; [unfold makeTrees; fold deal; rewrite (Cell fuel) by lia; cbn [obind]; fold key; rewrite L1; cbn [obind]; rewrite R1; reflexivity|]. split; [exact L2|]. split; [rewrite R2; symmetry; exact (a_E _ _ _ _ HA)|]. split; [exact L3|]. split; [exact C2|].
    intros r o Ho. apply (delivers_shuffle _ _ _ _ E (map l_own ls) _ (needed root doms (map l_own ls) r) r o (fun s => match nth_error ls s with Some l => map snd (l_tp l) | None => [] end)).
    - rewrite map_length. exact L2.
    - intros s l Hs. destruct (order_at ls s l HI Hs) as (lo & A & B & C). exists (l_own lo). split; [apply map_nth_error; exact A|]. rewrite A. exact C.
    - intros s k. apply needed_order. exact HI.
    - apply R3. exact Ho.
  Qed.

  Hypothesis Hfunc : forall epi epj fs, length fs = length epi -> length (func epi epj fs) = length fs.
  Hypothesis HR : roomy pa root doms E.

  Theorem call_all : exists F, forall fuel, F <= fuel -> exists res, @calcForceAll R_arith P Fo func clear q Ztrunc fuel pa root doms limit grpLimit E = Done res /\ length res = length E /\
    forall r own x, nth_error E r = Some own -> nth_error res r = Some x -> served (fun v : R_arith => v) tight pa (image root) E func clear threads own x.
  Proof using HA Hq Hlim Hfunc HR.
    destruct makeTrees_ok as (F & HF). exists F. intros fuel Hf. destruct (HF fuel Hf) as (cell & ls & recv & M1 & M2 & M3 & M4 & M5 & M6). unfold calcForceAll. rewrite M1. cbn [obind].
    destruct (omap_seq (fun r => do l <- mread ls r; do x <- mread recv r; callRank func clear (q r) (@cellKey R_arith Ztrunc cell) limit grpLimit l x)
      (fun r x => forall own, nth_error E r = Some own -> served (fun v : R_arith => v) tight pa (image root) E func clear threads own x) (length E)) as (res & R1 & R2 & R3).
    2: { exists res. split; [exact R1|]. split; [exact R2|]. intros r own x Hr Hx. exact (R3 r x Hx own Hr). }
    intros r Hr. destruct (nth_error ls r) as [l|] eqn:El; [|apply nth_error_None in El; lia]. destruct (nth_error recv r) as [o|] eqn:Eo; [|apply nth_error_None in Eo; lia].
    unfold mread at 1. rewrite El. cbn [obind]. unfold mread at 1. rewrite Eo. cbn [obind]. destruct (M4 r l El) as (T1 & T2 & T3 & T4 & T5 & T6). pose proof (M6 r o Eo) as D. pose proof (q_at r _ T1) as Q. set (own := l_org l) in *.
    assert (Room : treeable (length own + length o)).
    { destruct D as (tags & D1 & D2 & _). rewrite <- (Forall2_len _ _ _ D2). apply (HR r own tags T1 D1). intros s j k Ht. destruct (Forall2_at' _ _ _ _ D2 Ht) as (e & _ & X1 & _ & X3 & l' & f & X4 & X5 & _). split; [exact X1|]. split; [exact X3|]. exists l', f. auto. }
    assert (Ko : forall e, In e o -> keyed_at (@cellKey R_arith Ztrunc cell) (s_pos (i_site e)) /\ usable all_ok (fun x : R_arith => x) [i_site e]).
    { intros e He. destruct D as (tags & _ & D2 & _). destruct (Forall2_at _ _ _ _ D2 He) as (((s & j) & k) & _ & X1 & _ & X3 & l' & f & X4 & (_ & X5) & ->). exact (M5 r s l' f k X4 (nth_error_In _ _ X5) X1 (or_intror X3)). }
    unfold callRank. fold own. destruct (sortGlobal_ok (@cellKey R_arith Ztrunc cell) (q_sort2 (q r) (length own + length o)) (l_tp l) own o) as (tp' & all & S1 & S2 & S3); [apply (ac_sort2 _ _ _ _ _ Q)|exact (proj1 T2)|exact T4|intros e He; exact (proj1 (Ko e He))|].
    rewrite S1. cbn [obind]. destruct (shuffled_length _ _ _ T2) as (L1 & L2). destruct (shuffled_length _ _ _ S2) as (L3 & L4). rewrite map_length in L2, L4. rewrite app_length in L3, L4.
    destruct (ac_tree1 _ _ _ _ _ Q (map fst (l_tp l)) (map i_site (l_own l))) as (j1 & m1 & s1 & s1' & c1 & p1 & A1 & A2 & A3 & A4). destruct (ac_tree2 _ _ _ _ _ Q (map fst tp') (map i_site all)) as (j2 & m2 & s2 & s2' & c2 & p2 & B1 & B2 & B3 & B4).
    assert (Ua : usable all_ok (fun x : R_arith => x) (map i_site all)).
    { intros x Hx. apply in_map_iff in Hx. destruct Hx as (e & <- & He). apply (shuffled_in _ _ _ _ S2) in He. apply in_app_or in He. destruct He as [He|He]; [|exact (proj2 (Ko e He) _ (or_introl eq_refl))]. apply T5. apply in_map. apply (shuffled_in _ _ _ _ T2). exact He. }
    destruct (search_reals j1 m1 s1 s1' c1 p1 j2 m2 s2 s2' c2 p2 (map fst (l_tp l)) (map i_site (l_own l)) (map fst tp') (map i_site all) limit grpLimit) as (lists & G1 & G2); try assumption.
    { apply treeable_fits; [lia|rewrite map_length, L2; apply (a_few _ _ _ _ HA); apply nth_error_In in T1; exact T1|exact T3]. } { apply treeable_fits; [lia|rewrite map_length, L4; exact Room|exact S3]. } { rewrite !map_length. lia. } { rewrite !map_length. lia. }
    assert (G1' : searchLists (fun _ _ => Done (l_tree l)) (q_tree2 (q r)) (map fst (l_tp l)) (map i_site (l_own l)) (map fst tp') (map i_site all) limit grpLimit = Done lists).
    { rewrite <- G1. unfold searchLists. rewrite <- A4, <- B4, T6. reflexivity. }
    rewrite G1'. cbn [obind].
    destruct (rank_served all_ok (fun v : R_arith => v) tight pa (image root) E (needed root doms E r) func clear Hfunc (image_origin root) r own o (l_own l) all (l_tp l) tp' (map fst (l_tp l)) grpLimit lists T1 T2 S2 G2 D threads
      (q_calls (q r) (length lists)) (q_copy (q r)) (map (q_sorted (q r)) (seq 0 (length own))) (map (q_org (q r)) (seq 0 (length own)))) as (x & X1 & X2).
    - apply (ac_calls _ _ _ _ _ Q).
    - apply (ac_calls _ _ _ _ _ Q).
    - apply (ac_copy _ _ _ _ _ Q).
    - rewrite map_length, seq_length. reflexivity.
    - rewrite map_length, seq_length. reflexivity.
    - exists x. split; [exact X1|]. intros own' Hr'. assert (own' = own) as -> by congruence. exact X2.
  Qed.
End Reals.
