(** The root cell of CallModel with exact numbers. *)
From Coq Require Import List Arith ZArith Lia Bool Permutation Reals Lra.
From Flocq Require Import Core.
From Verif Require Import Outcome ListUtil Arith ParticleModel VecModel PointsModel PointsProofs DomainModel MortonModel MortonSpec MortonProofs TreeModel TreeSpec TreeProofs TreeMoment TreeSearch LetModel LetSpec LetWalk LetImages LetProofs CallModel CallSpec.
Import ListNotations.

Section Boxes.
  Context {N : arith} (ok : N -> Prop) (val : N -> R) (HO : ordered N ok val) {P : Type}.
  Notation hullF := (hullF ok val).
  (** the box merged for a particle *)
  Definition fat (e : item N P) : ort N := ball (Site (s_pos (i_site e)) (s_rad (i_site e) * margin)%A).

  Lemma hullF_same bs cs o : (forall b, In b bs <-> In b cs) -> hullF bs o -> hullF cs o.
  Proof using HO.
    intros H F c Hc. destruct (F c Hc) as (L & G). split.
    - refine (least_sub ok val _ _ _ _ L). intros x. cbn [In]. rewrite !in_map_iff. split; (intros [X|(b & X & Y)]; [left; exact X|right; exists b; split; [exact X|apply H; exact Y]]).
    - refine (greatest_sub ok val _ _ _ _ G). intros x. cbn [In]. rewrite !in_map_iff. split; (intros [X|(b & X & Y)]; [left; exact X|right; exists b; split; [exact X|apply H; exact Y]]).
  Qed.

  Lemma threadBox_ok ep is : (forall e, In e ep -> okBox ok (fat e)) -> (forall i, In i is -> (i < length ep)%nat) ->
    exists b l, threadBox ep is = Done b /\ Forall2 (fun i e => nth_error ep i = Some e) is l /\ hullF (map fat l) b.
  Proof using HO.
    intros Hok Hi. unfold threadBox.
    assert (G : forall is l0 b0, (forall i, In i is -> (i < length ep)%nat) -> hullF (map fat l0) b0 ->
      exists b l, ofold (fun b i => do e <- mread ep i; Done (mergeBall b (s_pos (i_site e)) (s_rad (i_site e) * margin)%A)) is b0 = Done b /\ Forall2 (fun i e => nth_error ep i = Some e) is l /\ hullF (map fat (l0 ++ l)) b).
    { clear is Hi. intros is. induction is as [|i is IH]; intros l0 b0 Hi H0; [exists b0, []; rewrite app_nil_r; split; [reflexivity|split; [constructor|exact H0]]|].
      destruct (nth_error ep i) as [e|] eqn:Ee; [|apply nth_error_None in Ee; specialize (Hi i (or_introl eq_refl)); lia].
      destruct (IH (l0 ++ [e]) (mergeBox b0 (fat e))) as (b & l & E1 & E2 & E3); [intros j Hj; apply Hi; now right| |].
      - rewrite map_app. apply (hullF_snoc ok val HO); [apply Hok; apply nth_error_In in Ee; exact Ee|exact H0].
      - exists b, (e :: l). cbn [ofold]. unfold mread. rewrite Ee. cbn [obind]. split; [exact E1|]. split; [constructor; assumption|]. rewrite <- app_assoc in E3. exact E3. }
    destruct (G is [] emptyBox Hi (hullF_nil ok val HO)) as (b & l & E1 & E2 & E3). exists b, l. auto.
  Qed.

  Lemma rankBox_ok deal ep : (forall e, In e ep -> okBox ok (fat e)) -> Permutation (concat deal) (seq 0 (length ep)) -> exists b, rankBox deal ep = Done b /\ hullF (map fat ep) b.
  Proof using HO.
    intros Hok Hd. unfold rankBox.
    assert (G : forall deal l0 b0, (forall i, In i (concat deal) -> (i < length ep)%nat) -> hullF (map fat l0) b0 ->
      exists b l, ofold (fun b is => do t <- threadBox ep is; Done (mergeBox b t)) deal b0 = Done b /\ Forall2 (fun i e => nth_error ep i = Some e) (concat deal) l /\ hullF (map fat (l0 ++ l)) b).
    { clear deal Hd. intros deal. induction deal as [|is deal IH]; intros l0 b0 Hi H0; [exists b0, []; rewrite app_nil_r; split; [reflexivity|split; [constructor|exact H0]]|].
      cbn [concat] in Hi. destruct (threadBox_ok ep is Hok) as (t & lt & T1 & T2 & T3); [intros i Hin; apply Hi; apply in_or_app; now left|].
      destruct (IH (l0 ++ lt) (mergeBox b0 t)) as (b & l & E1 & E2 & E3); [intros i Hin; apply Hi; apply in_or_app; now right|rewrite map_app; apply (hullF_app ok val HO); assumption|].
      exists b, (lt ++ l). cbn [ofold]. rewrite T1. cbn [obind]. split; [exact E1|]. split; [cbn [concat]; apply Forall2_app; assumption|]. rewrite <- app_assoc in E3. exact E3. }
    destruct (G deal [] emptyBox) as (b & l & E1 & E2 & E3); [intros i Hi; apply (Permutation_in _ Hd) in Hi; apply in_seq in Hi; lia|exact (hullF_nil ok val HO)|].
    exists b. split; [exact E1|]. cbn [app] in E3. revert E3. apply hullF_same. intros x. rewrite !in_map_iff. split; intros (e & Ex & He); exists e; (split; [exact Ex|]).
    - destruct (Forall2_at _ _ _ _ E2 He) as (i & _ & Hi). apply nth_error_In in Hi. exact Hi.
    - apply In_nth_error in He. destruct He as (i & He). assert (Hi : In i (concat deal)) by (apply (Permutation_in _ (Permutation_sym Hd)); apply in_seq; split; [lia|]; cbn; apply nth_error_Some; congruence).
      destruct (Forall2_at' _ _ _ _ E2 Hi) as (e' & He' & Q). congruence.
  Qed.

  Lemma boxes_ok deal (E : list (list (item N P))) : (forall own e, In own E -> In e own -> okBox ok (fat e)) -> (forall r own, nth_error E r = Some own -> Permutation (concat (deal r)) (seq 0 (length own))) ->
    exists boxes, omap (fun r => do ep <- mread E r; rankBox (deal r) ep) (seq 0 (length E)) = Done boxes /\ hullF (map fat (concat E)) (outerBox boxes).
  Proof using HO.
    intros Hok Hd.
    assert (G : forall E a, (forall own e, In own E -> In e own -> okBox ok (fat e)) -> (forall r own, nth_error E r = Some own -> Permutation (concat (deal (a + r)%nat)) (seq 0 (length own))) ->
      forall pre, length pre = a -> exists boxes, omap (fun r => do ep <- mread (pre ++ E) r; rankBox (deal r) ep) (seq a (length E)) = Done boxes /\ Forall2 (fun own b => hullF (map fat own) b) E boxes).
    { clear E Hok Hd. intros E. induction E as [|own E IH]; intros a Hok Hd pre Lp; [exists []; split; [reflexivity|constructor]|].
      destruct (rankBox_ok (deal a) own) as (b & B1 & B2); [intros e He; apply (Hok own); [now left|exact He]|specialize (Hd 0%nat own eq_refl); rewrite Nat.add_0_r in Hd; exact Hd|].
      destruct (IH (S a) ltac:(intros o e Ho He; apply (Hok o); [now right|exact He]) ltac:(intros r o Ho; specialize (Hd (S r) o Ho); rewrite Nat.add_succ_r in Hd; exact Hd) (pre ++ [own])) as (bs & C1 & C2); [rewrite app_length; cbn; lia|].
      exists (b :: bs). rewrite <- app_assoc in C1. cbn [app] in C1. split; [|constructor; assumption]. cbn [length seq omap]. unfold mread at 1. rewrite nth_error_app2 by lia. rewrite Lp, Nat.sub_diag. cbn [nth_error obind]. rewrite B1. cbn [obind]. rewrite C1. reflexivity. }
    destruct (G E 0%nat Hok Hd [] eq_refl) as (boxes & B1 & B2). exists boxes. split; [exact B1|]. clear - HO B2. unfold outerBox. destruct B2 as [|own b E bs H F]; [apply (hullF_nil ok val HO)|]. cbn [concat].
    assert (X : forall bs E, Forall2 (fun own b => hullF (map fat own) b) E bs -> forall l b, hullF (map fat l) b -> hullF (map fat (l ++ concat E)) (fold_left mergeBox bs b)).
    { clear - HO. induction bs as [|b' bs IH]; intros E F l b H; inversion F; subst; [cbn; rewrite app_nil_r; exact H|]. cbn [fold_left concat]. rewrite app_assoc. apply IH; [assumption|]. rewrite map_app. apply (hullF_app ok val HO); assumption. }
    apply (X bs E F own b H).
  Qed.
End Boxes.

Local Open Scope R_scope.

Section Cell.
  Context (root my : ort R).
  (** the box root moved by k boxes along c meets the box my along c *)
  Definition meets1 (c : vec R -> R) (k : Z) : Prop := c (olow my) <= c (ohigh root) + IZR k * edge root c /\ c (olow root) + IZR k * edge root c <= c (ohigh my).
  Definition both (x : vec R) : Prop := forall c, In c coords -> c (olow root) <= c x <= c (ohigh root) /\ c (olow my) <= c x <= c (ohigh my).
  (** root moved j times by v *)
  Definition after (v : vec R) (j : Z) : ort R := 
    let m p := Vec (vx p + IZR j * vx v) (vy p + IZR j * vy v) (vz p + IZR j * vz v) in Ort (m (olow root)) (m (ohigh root)).
  Lemma after_0 v : after v 0 = root.
  Proof using. unfold after. destruct root as [[a b c] [d e f]]. cbn. rewrite !Rmult_0_l, !Rplus_0_r. reflexivity. Qed.
  Lemma after_S v j : @shiftBox R_arith (after v j) v = after v (j + 1).
  Proof using. unfold after, shiftBox, vadd. destruct root as [[a b c] [d e f]]. cbn. rewrite plus_IZR. f_equal; f_equal; ring. Qed.
  Lemma after_c v j c : In c coords -> c (olow (after v j)) = c (olow root) + IZR j * c v /\ c (ohigh (after v j)) = c (ohigh root) + IZR j * c v.
  Proof using. intros [<-|[<-|[<-|[]]]]; split; reflexivity. Qed.
  Lemma overlap_iff (o b : ort R) : @overlapsBox R_arith o b = true <-> forall c, In c coords -> c (olow o) <= c (ohigh b) /\ c (olow b) <= c (ohigh o).
  Proof using. apply (overlapsBox_iff all_ok (fun x => x) reals_ordered); intros c _; split; exact I. Qed.

  Lemma shiftLoop_ok v M : (0 <= M < 2 ^ 31 - 1)%Z -> (forall j, (M < j)%Z -> @overlapsBox R_arith my (after v j) = false) ->
    forall fuel n, (0 <= n <= M)%Z -> (Z.to_nat (M - n) < fuel)%nat ->
    exists m, @shiftLoop R_arith fuel my (after v (n + 1)) v n = Done m /\ (n <= m <= M)%Z /\ @overlapsBox R_arith my (after v (m + 1)) = false.
  Proof using.
    intros HM Hno. induction fuel as [|fuel IH]; intros n Hn Hf; [lia|]. cbn [shiftLoop]. destruct (@overlapsBox R_arith my (after v (n + 1))) eqn:E.
    - assert (n < M)%Z by (destruct (Z_lt_dec M (n + 1)) as [H|H]; [rewrite Hno in E by exact H; discriminate E|lia]).
      rewrite as_int_ok by (unfold INT_MIN, INT_MAX; lia). cbn [obind]. rewrite after_S. destruct (IH (n + 1)%Z) as (m & E1 & E2 & E3); [lia|lia|]. exists m. split; [exact E1|]. split; [lia|exact E3].
    - exists n. split; [reflexivity|]. split; [lia|exact E].
  Qed.

  Lemma calcNum_ok c v t fuel : In c coords -> (t = 1 \/ t = -1)%Z -> (forall c', In c' coords -> c' v = 0 \/ (c' = c /\ c' v = IZR t * edge root c)) -> (exists c', In c' coords /\ c' = c /\ c' v = IZR t * edge root c) ->
    0 < edge root c -> (forall k, meets1 c k -> (Z.abs k <= 9001)%Z) -> (9001 < Z.of_nat fuel)%Z ->
    exists m, @calcNumShift R_arith fuel root my v = Done m /\ (0 <= m <= 9001)%Z /\ forall x k, both x -> meets1 c k -> (0 <= t * k)%Z -> (t * k <= m)%Z.
  Proof using.
    intros Hc Ht Hv (c' & Hc' & -> & Ev) He Hk Hf.
    assert (Om : forall j, @overlapsBox R_arith my (after v j) = true -> meets1 c (t * j)).
    { intros j H. rewrite overlap_iff in H. specialize (H c Hc). destruct (after_c v j c Hc) as (A1 & A2). rewrite A1, A2, Ev in H. unfold meets1. rewrite mult_IZR. lra. }
    assert (Mo : forall x j, both x -> meets1 c (t * j) -> @overlapsBox R_arith my (after v j) = true).
    { intros x j Hx H. apply overlap_iff. intros d Hd. destruct (after_c v j d Hd) as (A1 & A2). rewrite A1, A2. destruct (Hv d Hd) as [E0|(-> & E1)].
      - specialize (Hx d Hd). rewrite E0, Rmult_0_r, !Rplus_0_r. lra.
      - rewrite E1. unfold meets1 in H. rewrite mult_IZR in H. lra. }
    unfold calcNumShift. replace (@shiftBox R_arith root v) with (after v (0 + 1)) by (rewrite <- after_S, after_0; reflexivity).
    destruct (shiftLoop_ok v 9001 ltac:(lia)) with (fuel := fuel) (n := 0%Z) as (m & E1 & E2 & E3).
    - intros j Hj. destruct (@overlapsBox R_arith my (after v j)) eqn:E; [|reflexivity]. exfalso. apply Om in E. apply Hk in E. destruct Ht as [-> | ->]; lia.
    - lia.
    - lia.
    - exists m. split; [exact E1|]. split; [lia|]. intros x k Hx Hm Hp. destruct (Z_le_dec (t * k) m) as [|H]; [assumption|]. exfalso.
      assert (Y : @overlapsBox R_arith my (after v (m + 1)) = true).
      { apply (Mo x); [exact Hx|]. pose proof (Hx c Hc) as Hxc. destruct Hm as (M1 & M2). assert (T : (t * (t * k) = k)%Z) by (destruct Ht as [-> | ->]; lia).
        assert (A : IZR (m + 1) * edge root c <= IZR (t * k) * edge root c) by (apply Rmult_le_compat_r; [lra|]; apply IZR_le; lia).
        assert (B : 0 <= IZR (m + 1) * edge root c) by (apply Rmult_le_pos; [apply IZR_le; lia|lra]).
        unfold meets1. rewrite mult_IZR in *. destruct Ht as [-> | ->]; unfold edge in *; lra. }
      rewrite Y in E3. discriminate E3.
  Qed.

  Lemma axisShift_ok c v fuel : In c coords -> (forall c', In c' coords -> c' v = 0 \/ (c' = c /\ c' v = edge root c)) -> c v = edge root c ->
    0 < edge root c -> (forall k, meets1 c k -> (Z.abs k <= 9001)%Z) -> (9001 < Z.of_nat fuel)%Z ->
    exists m, @axisShift R_arith fuel true root my v = Done m /\ (0 <= m <= 9001)%Z /\ forall x k, both x -> meets1 c k -> (Z.abs k <= m)%Z.
  Proof using.
    intros Hc Hv Ev He Hk Hf. unfold axisShift.
    destruct (calcNum_ok c v 1 fuel Hc ltac:(auto)) as (p & P1 & P2 & P3); try assumption.
    { intros c' Hc'. rewrite Rmult_1_l. auto. } { exists c. rewrite Rmult_1_l. auto. }
    assert (Ov : forall c', In c' coords -> c' (@vopp R_arith v) = - c' v) by (intros c' [<-|[<-|[<-|[]]]]; reflexivity).
    destruct (calcNum_ok c (@vopp R_arith v) (-1) fuel Hc ltac:(auto)) as (q & Q1 & Q2 & Q3); try assumption.
    { intros c' Hc'. rewrite (Ov c' Hc'). destruct (Hv c' Hc') as [E|(E1 & E2)]; [left; lra|right; split; [exact E1|lra]]. } { exists c. rewrite (Ov c Hc). split; [exact Hc|]. split; [reflexivity|]. lra. }
    rewrite P1. cbn [obind]. rewrite Q1. cbn [obind]. exists (Z.max p q). split; [reflexivity|]. split; [lia|]. intros x k Hx Hm. destruct (Z_le_dec 0 k) as [H|H]; [specialize (P3 x k Hx Hm ltac:(lia))|specialize (Q3 x k Hx Hm ltac:(lia))]; lia.
  Qed.

  (** length and centre of an axis *)
  Lemma axisCell_ok (b : bool) c m : In c coords -> (0 <= m <= 9001)%Z -> exists l, 
    @axisCell R_arith b c root my m = Done (l, (c (ohigh (if b then root else my)) + c (olow (if b then root else my))) / 2) /\ l = if b then IZR (2 * m + 1) * edge root c else c (ohigh my) - c (olow my).
  Proof using.
    intros Hc Hm. unfold axisCell. assert (H2 : bpow radix2 (-1) = / 2) by reflexivity. destruct b.
    - rewrite as_int_ok by (unfold INT_MIN, INT_MAX; lia). cbn [obind]. eexists. split; [|reflexivity]. rarith. rewrite H2. f_equal. f_equal. lra.
    - eexists. split; [|reflexivity]. rarith. rewrite H2. f_equal. f_equal. lra.
  Qed.
End Cell.

Lemma margin_R : 1 < @margin R_arith < 1.0000011.
Proof.
  unfold margin. rarith. change (bpow radix2 (-52)) with (/ IZR (2 ^ 52)). change (2 ^ 52)%Z with 4503599627370496%Z. lra.
Qed.

Definition longer (l x : R) : R := if @a_lt R_arith l x then x else l.
Lemma longest a b c : let L := longer (longer (longer 0 a) b) c in 0 <= L /\ a <= L /\ b <= L /\ c <= L.
Proof.
  intros L. assert (G : forall l x, l <= longer l x /\ x <= longer l x) by (intros l x; unfold longer; rarith; rcase; lra).
  pose proof (G (longer (longer 0 a) b) c). pose proof (G (longer 0 a) b). pose proof (G 0 a). unfold L. lra.
Qed.

Section Fit.
  Context (root my : ort R).
  (** the axis c is covered by a cell of the length L around m *)
  Definition covers (b : bool) (c : vec R -> R) (L m : R) : Prop := 
    if b then exists n, (0 <= n <= 9001)%Z /\ IZR (2 * n + 1) * edge root c <= L /\ m = (c (ohigh root) + c (olow root)) / 2 /\ forall x k, both root my x -> meets1 root my c k -> (Z.abs k <= n)%Z
    else c (ohigh my) - c (olow my) <= L /\ m = (c (ohigh my) + c (olow my)) / 2.

  Lemma rootCell_ok pa fuel : along pa (fun c => 0 < edge root c /\ forall k, meets1 root my c k -> (Z.abs k <= 9001)%Z) -> (9001 < Z.of_nat fuel)%Z ->
    exists mid L, @rootCell R_arith fuel pa root my = Done (mid, L * @margin R_arith) /\ 0 <= L /\ covers (vx pa) vx L (vx mid) /\ covers (vy pa) vy L (vy mid) /\ covers (vz pa) vz L (vz mid).
  Proof using.
    intros (Ax & Ay & Az) Hf. unfold rootCell.
    assert (G : forall (b : bool) c v, In c coords -> (forall c', In c' coords -> c' v = 0 \/ (c' = c /\ c' v = edge root c)) -> c v = edge root c -> (b = true -> 0 < edge root c /\ forall k, meets1 root my c k -> (Z.abs k <= 9001)%Z) ->
      exists n l m, @axisShift R_arith fuel b root my v = Done n /\ @axisCell R_arith b c root my n = Done (l, m) /\ forall L, l <= L -> covers b c L m).
    { intros b c v Hc Hv Ev Hb. destruct b.
      - destruct (Hb eq_refl) as (He & Hk). destruct (axisShift_ok root my c v fuel Hc Hv Ev He Hk Hf) as (n & E1 & E2 & E3). destruct (axisCell_ok root my true c n Hc E2) as (l & E4 & E5). exists n, l, ((c (ohigh root) + c (olow root)) / 2).
        split; [exact E1|]. split; [exact E4|]. intros L HL. exists n. rewrite <- E5. auto.
      - destruct (axisCell_ok root my false c 0 Hc ltac:(lia)) as (l & E4 & E5). exists 0%Z, l, ((c (ohigh my) + c (olow my)) / 2). split; [reflexivity|]. split; [exact E4|]. intros L HL. split; [rewrite <- E5; exact HL|reflexivity]. }
    destruct (G (vx pa) vx (Vec (edge root vx) 0 0)) as (nx & lx & mx & X1 & X2 & X3); [cbn; auto|intros c' [<-|[<-|[<-|[]]]]; cbn; auto|reflexivity|exact Ax|].
    destruct (G (vy pa) vy (Vec 0 (edge root vy) 0)) as (ny & ly & my' & Y1 & Y2 & Y3); [cbn; auto|intros c' [<-|[<-|[<-|[]]]]; cbn; auto|reflexivity|exact Ay|].
    destruct (G (vz pa) vz (Vec 0 0 (edge root vz))) as (nz & lz & mz & Z1 & Z2 & Z3); [cbn; auto|intros c' [<-|[<-|[<-|[]]]]; cbn; auto|reflexivity|exact Az|].
    clear G. pose proof (longest lx ly lz) as HL. cbv zeta in HL. set (L := longer _ lz) in HL. destruct HL as (L0 & Lx & Ly & Lz).
    exists (Vec mx my' mz), L. split; [|split; [exact L0|]; split; [exact (X3 L Lx)|]; split; [exact (Y3 L Ly)|exact (Z3 L Lz)]].
    cbv zeta. refine (eq_trans (f_equal (fun o => obind o _) X1) _). cbn [obind].
    refine (eq_trans (f_equal (fun o => obind o _) Y1) _). cbn [obind]. refine (eq_trans (f_equal (fun o => obind o _) Z1) _). cbn [obind].
    refine (eq_trans (f_equal (fun o => obind o _) X2) _). cbn [obind]. refine (eq_trans (f_equal (fun o => obind o _) Y2) _). cbn [obind].
    refine (eq_trans (f_equal (fun o => obind o _) Z2) _). reflexivity.
  Qed.

  (** a point with coordinates covered has a key *)
  Lemma covered_key mid L (q : vec R) : 0 < L -> (forall c, In c coords -> Rabs (c q - c mid) <= L / 2) -> keyed_at (@cellKey R_arith Ztrunc (mid, L * @margin R_arith)) q.
  Proof using.
    intros HL Hq. unfold keyed_at, cellKey. cbn [fst snd]. pose proof margin_R as HM. set (M := @margin R_arith) in *.
    assert (E : @a_mul R_arith (L * M) (@a_lit R_arith 1 (-1)) = L * M / 2) by (rarith; change (bpow radix2 (-1)) with (/ 2); lra). rewrite E.
    assert (LM : L < L * M) by nra.
    assert (G : forall c, In c coords -> exists n, @grid R_arith Ztrunc (L * M / 2) (c mid) (c q) = Done n /\ on_grid n).
    { intros c Hc. specialize (Hq c Hc). apply Rabs_le_inv in Hq. destruct (grid_ok (L * M / 2) (c mid) (c q)) as (n & G1 & G2 & _); [lra|lra|]. eauto. }
    destruct (G vx ltac:(cbn; auto)) as (x & X1 & X2). destruct (G vy ltac:(cbn; auto)) as (y & Y1 & Y2). destruct (G vz ltac:(cbn; auto)) as (z & Z1 & Z2).
    exists (key3 x y z). split; [|exact (key3_63 x y z X2 Y2 Z2)]. unfold getKey. refine (eq_trans (f_equal (fun o => obind o _) X1) _). cbn [obind].
    refine (eq_trans (f_equal (fun o => obind o _) Y1) _). cbn [obind]. refine (eq_trans (f_equal (fun o => obind o _) Z1) _). reflexivity.
  Qed.
End Fit.

Section Arena.
  Context {P : Type} (pa : vec bool) (root : ort R) (doms : list (ort R)) (E : list (list (item R_arith P))) (HA : arena pa root doms E).
  Notation site := (site R_arith).

  Lemma along_c (Q : (vec R -> R) -> Prop) : along pa Q <-> forall b c, In (b, c) [(vx pa, vx); (vy pa, vy); (vz pa, vz)] -> b = true -> Q c.
  Proof using. split; [intros (X & Y & Z) b c H Hb; destruct H as [H|[H|[H|[]]]]; injection H as <- <-; auto|]. intros H. split; [|split]; intros Hb; (eapply H; [|exact Hb]; cbn; auto). Qed.
  Lemma pair_c {B} (bs : vec B) b (c : vec R -> R) : In (b, c) [(vx bs, vx); (vy bs, vy); (vz bs, vz)] -> In c coords.
  Proof using. intros [H|[H|[H|[]]]]; injection H as _ <-; cbn; auto. Qed.

  Lemma home_in own e : In own E -> In e own -> inside root (s_pos (i_site e)).
  Proof using HA.
    intros Ho He. apply In_nth_error in Ho. destruct Ho as (r & Hr). assert (H : exists d, nth_error doms r = Some d).
    { destruct (nth_error doms r) eqn:X; [eauto|]. apply nth_error_None in X. assert (r < length E)%nat by (apply nth_error_Some; congruence). rewrite (a_E _ _ _ _ HA) in H. lia. }
    destruct H as (d & Hd). exact (proj2 (a_homes _ _ _ _ HA r own d e Hr Hd He)).
  Qed.

  Context (my : ort R) (HM : @hullF R_arith all_ok (fun x => x) (map fat (concat E)) my).

  Lemma my_holds own e c : In own E -> In e own -> In c coords -> c (olow my) <= c (s_pos (i_site e)) - s_rad (i_site e) * @margin R_arith /\ c (s_pos (i_site e)) + s_rad (i_site e) * @margin R_arith <= c (ohigh my).
  Proof using HM.
    intros Ho He Hc. destruct (HM c Hc) as ((_ & L & _) & (_ & G & _)). assert (Hin : In (fat e) (map fat (concat E))) by (apply in_map, in_concat; eauto). split.
    - specialize (L _ (or_intror (in_map (fun b => c (olow b)) _ _ Hin))). destruct Hc as [<-|[<-|[<-|[]]]]; exact L.
    - specialize (G _ (or_intror (in_map (fun b => c (ohigh b)) _ _ Hin))). destruct Hc as [<-|[<-|[<-|[]]]]; exact G.
  Qed.
  Lemma my_ball own e c : In own E -> In e own -> In c coords -> c (olow my) <= c (olow (ball (i_site e))) /\ c (ohigh (ball (i_site e))) <= c (ohigh my).
  Proof using HM HA.
    intros Ho He Hc. pose proof (my_holds own e c Ho He Hc) as H. destruct (a_rad _ _ _ _ HA own e Ho He) as (H0 & _). pose proof margin_R as M.
    assert (s_rad (i_site e) <= s_rad (i_site e) * @margin R_arith) by nra. destruct Hc as [<-|[<-|[<-|[]]]]; unfold ball; cbn; rarith; lra.
  Qed.

  Lemma shift_lim : along pa (fun c => 0 < edge root c /\ forall k, meets1 root my c k -> (Z.abs k <= 9001)%Z).
  Proof using HA HM.
    apply along_c. intros b c Hbc Hb. pose proof (pair_c _ _ _ Hbc) as Hc. pose proof (proj1 (along_c _) (a_box _ _ _ _ HA) b c Hbc Hb) as He. cbv beta in He. split; [exact He|]. intros k (K1 & K2).
    destruct (proj1 (along_c _) (a_root _ _ _ _ HA) b c Hbc Hb) as (R1 & R2). apply Rabs_le_inv in R1, R2. pose proof margin_R as M.
    destruct (HM c Hc) as ((_ & L & xl & Il & El) & (_ & G & xh & Ih & Eh)). change (@eq R (c (olow my)) xl) in El. change (@eq R (c (ohigh my)) xh) in Eh.
    destruct (concat E) as [|e0 es] eqn:CE.
    { exfalso. cbn [map In] in Il, Ih. destruct Il as [<-|[]], Ih as [<-|[]]. destruct (o_init _ _ _ reals_ordered) as (_ & _ & I1 & I2). change (@eq R (@boxInit R_arith) (16777215 * 2 ^ 97)) in I1. change (@eq R (@a_neg R_arith (@boxInit R_arith)) (- (16777215 * 2 ^ 97))) in I2. unfold edge in K1, K2. lra. }
    assert (HE : forall e, In e (e0 :: es) -> exists own, In own E /\ In e own) by (intros e H; rewrite <- CE in H; apply in_concat in H; destruct H as (own & A & B); eauto).
    assert (Near : forall e, In e (e0 :: es) -> c (olow root) <= c (s_pos (i_site e)) < c (ohigh root) /\ 0 <= s_rad (i_site e) * @margin R_arith <= 9000.01 * edge root c).
    { intros e H. destruct (HE e H) as (own & Ho & Hi). split; [exact (home_in own e Ho Hi c Hc)|]. destruct (a_rad _ _ _ _ HA own e Ho Hi) as (A & B & _). pose proof (proj1 (along_c _) B b c Hbc Hb) as B'. cbv beta in B'. split; [nra|]. assert (s_rad (i_site e) * @margin R_arith <= s_rad (i_site e) * 1.0000011) by nra. lra. }
    assert (Fat : forall e : item R_arith P, c (olow (fat e)) = c (s_pos (i_site e)) - s_rad (i_site e) * @margin R_arith /\ c (ohigh (fat e)) = c (s_pos (i_site e)) + s_rad (i_site e) * @margin R_arith) by (intros e; destruct Hc as [<-|[<-|[<-|[]]]]; split; reflexivity).
    assert (Big : @eq R (@boxInit R_arith) (16777215 * 2 ^ 97) /\ @eq R (@a_neg R_arith (@boxInit R_arith)) (- (16777215 * 2 ^ 97))) by (destruct (o_init _ _ _ reals_ordered) as (_ & _ & I1 & I2); auto).
    assert (A1 : c (olow root) - 9000.01 * edge root c <= c (olow my)).
    { rewrite El. destruct Il as [<-|Il]; [rewrite (proj1 Big); unfold edge in *; lra|]. apply in_map_iff in Il. destruct Il as (b' & <- & Il). apply in_map_iff in Il. destruct Il as (e & <- & Hi). rewrite (proj1 (Fat e)). specialize (Near e Hi). lra. }
    assert (A2 : c (ohigh my) <= c (ohigh root) + 9000.01 * edge root c).
    { rewrite Eh. destruct Ih as [<-|Ih]; [rewrite (proj2 Big); unfold edge in *; lra|]. apply in_map_iff in Ih. destruct Ih as (b' & <- & Ih). apply in_map_iff in Ih. destruct Ih as (e & <- & Hi). rewrite (proj2 (Fat e)). specialize (Near e Hi). lra. }
    assert (B1 : IZR k * edge root c < 9002 * edge root c) by (unfold edge in *; lra). assert (B2 : (- 9002) * edge root c < IZR k * edge root c) by (unfold edge in *; lra).
    apply Rmult_lt_reg_r in B1; [|exact He]. apply Rmult_lt_reg_r in B2; [|exact He]. apply lt_IZR in B1, B2. lia.
  Qed.

  (** along the periodic axes, domains are in the box *)
  Lemma hits_meets own d k b c i : In own E -> In d doms -> hits root own d k -> In (b, c) [(vx pa, vx); (vy pa, vy); (vz pa, vz)] -> In (c, i) [(vx, vx k); (vy, vy k); (vz, vz k)] -> b = true -> meets1 root my c i.
  Proof using HA HM.
    intros Ho Hd (o & Hh & Hm) Hbc Hci Hb. pose proof (pair_c _ _ _ Hbc) as Hc. specialize (Hm c i Hci). pose proof (proj1 (along_c _) (a_doms _ _ _ _ HA d Hd) b c Hbc Hb) as (D1 & D2 & D3). destruct Hh as (_ & _ & Hh). destruct (Hh c Hc) as ((bl & Il & El) & (bh & Ih & Eh)).
    apply in_map_iff in Il, Ih. destruct Il as (el & <- & Il), Ih as (eh & <- & Ih). pose proof (my_ball own el c Ho Il Hc) as (A & _). pose proof (my_ball own eh c Ho Ih Hc) as (_ & B). change (@eq R (c (olow o)) (c (olow (ball (i_site el))))) in El. change (@eq R (c (ohigh o)) (c (ohigh (ball (i_site eh))))) in Eh. split; lra.
  Qed.
  Lemma both_pos own e : In own E -> In e own -> both root my (s_pos (i_site e)).
  Proof using HA HM.
    intros Ho He c Hc. pose proof (home_in own e Ho He c Hc) as H. pose proof (my_holds own e c Ho He Hc) as H1. destruct (a_rad _ _ _ _ HA own e Ho He) as (H0 & _). pose proof margin_R as M. assert (0 <= s_rad (i_site e) * @margin R_arith) by nra. lra.
  Qed.

  (** image k may be reached *)
  Definition near (k : vec Z) : Prop := forall b c i, In (b, c) [(vx pa, vx); (vy pa, vy); (vz pa, vz)] -> In (c, i) [(vx, vx k); (vy, vy k); (vz, vz k)] -> b = true -> meets1 root my c i \/ meets1 root my c (- i).
  
  Lemma near_key fuel mid L own e k : @rootCell R_arith fuel pa root my = Done (mid, L * @margin R_arith) -> 0 <= L -> covers root my (vx pa) vx L (vx mid) -> covers root my (vy pa) vy L (vy mid) -> covers root my (vz pa) vz L (vz mid) ->
    In own E -> In e own -> lattice pa k -> near k -> keyed_at (@cellKey R_arith Ztrunc (mid, L * @margin R_arith)) (away root k (s_pos (i_site e))).
  Proof using HA HM.
    intros _ L0 Cx Cy Cz Ho He Hk Hn. pose proof (both_pos own e Ho He) as Hx.
    assert (C : forall b c, In (b, c) [(vx pa, vx); (vy pa, vy); (vz pa, vz)] -> covers root my b c L (c mid)) by (intros b c [H|[H|[H|[]]]]; injection H as <- <-; assumption).
    assert (K : forall c, In c coords -> exists b i, In (b, c) [(vx pa, vx); (vy pa, vy); (vz pa, vz)] /\ In (c, i) [(vx, vx k); (vy, vy k); (vz, vz k)] /\ (b = false -> i = 0%Z) /\ c (away root k (s_pos (i_site e))) = c (s_pos (i_site e)) - IZR i * edge root c).
    { destruct Hk as (K1 & K2 & K3). intros c [<-|[<-|[<-|[]]]]; [exists (vx pa), (vx k)|exists (vy pa), (vy k)|exists (vz pa), (vz k)]; (split; [cbn; auto|]; split; [cbn; auto|]; split; [assumption|reflexivity]). }
    assert (PL : 0 < L).
    { destruct (a_rad _ _ _ _ HA own e Ho He) as (_ & _ & [H|H]).
      - apply orb_true_iff in H. rewrite orb_true_iff in H. assert (X : exists b (c : vec R -> R), In (b, c) [(vx pa, vx); (vy pa, vy); (vz pa, vz)] /\ b = true) by (destruct H as [[H|H]|H]; [exists (vx pa), vx|exists (vy pa), vy|exists (vz pa), vz]; cbn; auto).
        destruct X as (b & c & Hbc & Hb). pose proof (proj1 (along_c _) (a_box _ _ _ _ HA) b c Hbc Hb) as Hed. cbv beta in Hed. specialize (C b c Hbc). rewrite Hb in C. destruct C as (n & N1 & N2 & _). assert (1 <= IZR (2 * n + 1)) by (apply IZR_le; lia). nra.
      - destruct (vx pa) eqn:Ex.
        + pose proof (proj1 (along_c _) (a_box _ _ _ _ HA) true vx ltac:(rewrite Ex; cbn; auto) eq_refl) as Hed. cbv beta in Hed. destruct Cx as (n & N1 & N2 & _). assert (1 <= IZR (2 * n + 1)) by (apply IZR_le; lia). nra.
        + destruct Cx as (Cx & _). pose proof (my_holds own e vx Ho He ltac:(cbn; auto)). pose proof margin_R. assert (0 < s_rad (i_site e) * @margin R_arith) by nra. lra. }
    apply covered_key; [exact PL|]. intros c Hc. destruct (K c Hc) as (b & i & Hbc & Hci & H0 & ->). specialize (C b c Hbc). destruct b.
    - destruct C as (n & N1 & N2 & Em & N3). pose proof (proj1 (along_c _) (a_box _ _ _ _ HA) true c Hbc eq_refl) as Hed. cbv beta in Hed.
      assert (Hi : (Z.abs i <= n)%Z) by (destruct (Hn true c i Hbc Hci eq_refl) as [H|H]; apply (N3 _ _ Hx) in H; lia).
      destruct (Hx c Hc) as (Hr & _). rewrite Em. rewrite plus_IZR, mult_IZR in N2. assert (I1 : IZR i <= IZR n) by (apply IZR_le; lia). assert (I2 : - IZR n <= IZR i) by (rewrite <- opp_IZR; apply IZR_le; lia).
      assert (IZR i * edge root c <= IZR n * edge root c) by nra. assert (- IZR n * edge root c <= IZR i * edge root c) by nra. apply Rabs_le. unfold edge in *. lra.
    - destruct C as (C1 & Em). rewrite (H0 eq_refl), Rmult_0_l, Rminus_0_r, Em. destruct (Hx c Hc) as (_ & Hr). apply Rabs_le. lra.
  Qed.
End Arena.

Section RootCell.
  Context {P : Type} (pa : vec bool) (root : ort R) (doms : list (ort R)) (E : list (list (item R_arith P))) (HA : arena pa root doms E).

  Lemma three_c (c : vec R -> R) (k : vec Z) : In c coords -> exists b i, In (b, c) [(vx pa, vx); (vy pa, vy); (vz pa, vz)] /\ In (c, i) [(vx, vx k); (vy, vy k); (vz, vz k)].
  Proof using. intros [<-|[<-|[<-|[]]]]; [exists (vx pa), (vx k)|exists (vy pa), (vy k)|exists (vz pa), (vz k)]; cbn; auto. Qed.

  Lemma three_l (c : vec R -> R) (k : vec Z) : lattice pa k -> In c coords -> exists b i, In (b, c) [(vx pa, vx); (vy pa, vy); (vz pa, vz)] /\ In (c, i) [(vx, vx k); (vy, vy k); (vz, vz k)] /\ (b = false -> i = 0%Z).
  Proof using. intros (K1 & K2 & K3) [<-|[<-|[<-|[]]]]; [exists (vx pa), (vx k)|exists (vy pa), (vy k)|exists (vz pa), (vz k)]; (split; [cbn; auto|split; [cbn; auto|assumption]]). Qed.

  Lemma root_cell_near deal fuel : (9001 < Z.of_nat fuel)%Z -> (forall r own, nth_error E r = Some own -> Permutation (concat (deal r)) (seq 0 (length own))) ->
    exists my cell, @setRootCell R_arith P deal fuel pa root E = Done cell /\ @hullF R_arith all_ok (fun x => x) (map fat (concat E)) my /\
      forall own e k, In own E -> In e own -> lattice pa k -> near pa root my k -> keyed_at (@cellKey R_arith Ztrunc cell) (away root k (s_pos (i_site e))).
  Proof using HA.
    intros Hf Hd. destruct (boxes_ok all_ok (fun x : R_arith => x) reals_ordered deal E) as (boxes & B1 & B2); [intros own e _ _ c Hc; split; exact I|exact Hd|].
    destruct (rootCell_ok root (outerBox boxes) pa fuel (shift_lim pa root doms E HA (outerBox boxes) B2) Hf) as (mid & L & R1 & R2 & R3 & R4 & R5).
    exists (outerBox boxes), (mid, L * @margin R_arith). split; [unfold setRootCell; rewrite B1; exact R1|]. split; [exact B2|]. intros own e k Ho He Hk Hn.
    exact (near_key pa root doms E HA (outerBox boxes) B2 fuel mid L own e k R1 R2 R3 R4 R5 Ho He Hk Hn).
  Qed.

  Lemma opposite_c (c : vec R -> R) i k : In (c, i) [(vx, vx k); (vy, vy k); (vz, vz k)] -> In (c, (- i)%Z) [(vx, vx (opposite k)); (vy, vy (opposite k)); (vz, vz (opposite k))].
  Proof using. intros [H|[H|[H|[]]]]; injection H as <- <-; cbn; auto. Qed.

  Lemma needed_near my r s k : @hullF R_arith all_ok (fun x => x) (map fat (concat E)) my -> needed root doms E r s k -> near pa root my k.
  Proof using HA.
    intros HM (d & d' & own & own' & Hd & Hd' & Ho & Ho' & [H|H]) b c i Hbc Hci Hb; apply nth_error_In in Hd, Hd', Ho, Ho'.
    - left. exact (hits_meets pa root doms E HA my HM own' d k b c i Ho' Hd H Hbc Hci Hb).
    - right. exact (hits_meets pa root doms E HA my HM own d' (opposite k) b c _ Ho Hd' H Hbc (opposite_c c i k Hci) Hb).
  Qed.
  Lemma origin_near my own e : @hullF R_arith all_ok (fun x => x) (map fat (concat E)) my -> In own E -> In e own -> near pa root my origin.
  Proof using HA.
    intros HM Ho He b c i Hbc Hci Hb. left. pose proof (both_pos pa root doms E HA my HM own e Ho He c (pair_c _ _ _ Hbc)) as H. assert (i = 0%Z) as -> by (destruct Hci as [X|[X|[X|[]]]]; injection X as _ <-; reflexivity). unfold meets1. rewrite Rmult_0_l, !Rplus_0_r. lra.
  Qed.
  Lemma near_small my k : @hullF R_arith all_ok (fun x => x) (map fat (concat E)) my -> lattice pa k -> near pa root my k -> (Z.abs (vx k) <= 9001 /\ Z.abs (vy k) <= 9001 /\ Z.abs (vz k) <= 9001)%Z.
  Proof using HA.
    intros HM (K1 & K2 & K3) Hn. pose proof (shift_lim pa root doms E HA my HM) as SL. rewrite along_c in SL.
    assert (G : forall b (c : vec R -> R) i, In (b, c) [(vx pa, vx); (vy pa, vy); (vz pa, vz)] -> In (c, i) [(vx, vx k); (vy, vy k); (vz, vz k)] -> (b = false -> i = 0%Z) -> (Z.abs i <= 9001)%Z).
    { intros b c i Hbc Hci H0. destruct b; [|rewrite H0 by reflexivity; lia]. destruct (SL true c Hbc eq_refl) as (_ & S). destruct (Hn true c i Hbc Hci eq_refl) as [H|H]; apply S in H; lia. }
    split; [|split]; [apply (G (vx pa) vx)|apply (G (vy pa) vy)|apply (G (vz pa) vz)]; cbn; auto.
  Qed.
  Lemma near_usable my own e k : @hullF R_arith all_ok (fun x => x) (map fat (concat E)) my -> In own E -> In e own -> lattice pa k -> near pa root my k -> @usable R_arith all_ok (fun x => x) [i_site (image root k e)].
  Proof using HA.
    intros HM Ho He Hk Hn x [<-|[]]. destruct (near_small my k HM Hk Hn) as (S1 & S2 & S3). destruct (a_rad _ _ _ _ HA own e Ho He) as (R0 & _).
    assert (G : forall c, In c coords -> Rabs (c (away root k (s_pos (i_site e)))) <= 18003 * 2 ^ 100).
    { intros c Hc. destruct (three_l c k Hk Hc) as (b & i & Hbc & Hci & Hb0). assert (Ei : c (away root k (s_pos (i_site e))) = c (s_pos (i_site e)) - IZR i * edge root c /\ (Z.abs i <= 9001)%Z).
      { destruct Hci as [X|[X|[X|[]]]]; injection X as <- <-; (split; [reflexivity|assumption]). }
      destruct Ei as (-> & Hi). pose proof (a_pos _ _ _ _ HA own e c Ho He Hc) as H. apply Rabs_le_inv in H. destruct b.
      2:{ rewrite (Hb0 eq_refl). rewrite Rmult_0_l. apply Rabs_le. lra. }
      destruct (proj1 (along_c pa _) (a_root _ _ _ _ HA) true c Hbc eq_refl) as (A & B). apply Rabs_le_inv in A, B.
      assert (I1 : Rabs (IZR i) <= 9001) by (rewrite <- abs_IZR; apply IZR_le; exact Hi). assert (I2 : Rabs (edge root c) <= 2 * 2 ^ 100) by (apply Rabs_le; unfold edge; lra).
      assert (I3 : Rabs (IZR i * edge root c) <= 9001 * (2 * 2 ^ 100)) by (rewrite Rabs_mult; apply Rmult_le_compat; try apply Rabs_pos; assumption). apply Rabs_le_inv in I3. apply Rabs_le. lra. }
    assert (G2 : forall c, In c coords -> Rabs (c (away root k (s_pos (i_site e))) - s_rad (i_site e)) <= 16777215 * 2 ^ 97 /\ Rabs (c (away root k (s_pos (i_site e))) + s_rad (i_site e)) <= 16777215 * 2 ^ 97 /\ Rabs (c (away root k (s_pos (i_site e)))) <= 16777215 * 2 ^ 97).
    { intros c Hc. specialize (G c Hc). apply Rabs_le_inv in G. split; [|split]; apply Rabs_le; lra. }
    split; [|split; [|split; [exact I|exact (proj1 R0)]]].
    - intros c Hc. destruct (G2 c Hc) as (_ & _ & X). split; [exact I|]. split; [exact I|]. split; exact X.
    - intros c Hc. destruct (G2 c Hc) as (X & Y & _). split; [exact I|]. split; [exact I|]. destruct Hc as [<-|[<-|[<-|[]]]]; split; [exact X|exact Y|exact X|exact Y|exact X|exact Y].
  Qed.

  (** the root cell gives all the particles and all the images that are sent keys *)
  Theorem root_cell deal fuel : (9001 < Z.of_nat fuel)%Z -> (forall r own, nth_error E r = Some own -> Permutation (concat (deal r)) (seq 0 (length own))) ->
    exists cell, @setRootCell R_arith P deal fuel pa root E = Done cell /\
      forall r s own e k, nth_error E s = Some own -> In e own -> lattice pa k -> k = origin \/ needed root doms E r s k ->
        keyed_at (@cellKey R_arith Ztrunc cell) (away root k (s_pos (i_site e))) /\ @usable R_arith all_ok (fun x => x) [i_site (image root k e)].
  Proof using HA.
    intros Hf Hd. destruct (root_cell_near deal fuel Hf Hd) as (my & cell & E1 & HM & E2). exists cell. split; [exact E1|]. intros r s own e k Ho He Hk H. apply nth_error_In in Ho.
    assert (Hn : near pa root my k) by (destruct H as [->|H]; [exact (origin_near my own e HM Ho He)|exact (needed_near my r s k HM H)]).
    split; [exact (E2 own e k Ho He Hk Hn)|exact (near_usable my own e k HM Ho He Hk Hn)].
  Qed.

  Lemma root_reachable deal fuel cell : (9001 < Z.of_nat fuel)%Z -> (forall r own, nth_error E r = Some own -> Permutation (concat (deal r)) (seq 0 (length own))) -> @setRootCell R_arith P deal fuel pa root E = Done cell ->
    reachable pa root (@cellKey R_arith Ztrunc cell) doms E.
  Proof using HA.
    intros Hf Hd Hc. destruct (root_cell_near deal fuel Hf Hd) as (my & cell' & E1 & HM & E2). assert (cell' = cell) as -> by congruence. intros own d k Ho Hdm Hk Hh.
    assert (Hn : near pa root my k) by (intros b c i Hbc Hci Hb; left; exact (hits_meets pa root doms E HA my HM own d k b c i Ho Hdm Hh Hbc Hci Hb)).
    split; [intros ->; destruct (near_small my _ HM Hk Hn) as (X & _); cbn in X; lia|]. intros e He. split; [exact (E2 own e k Ho He Hk Hn)|exact (near_usable my own e k HM Ho He Hk Hn)].
  Qed.
End RootCell.
