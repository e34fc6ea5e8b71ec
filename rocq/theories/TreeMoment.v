From Coq Require Import List Arith ZArith Lia Bool Permutation Reals Lra.
From Flocq Require Import Core BinarySingleNaN.
From Verif Require RngProofs.
From Verif Require Import Outcome ListUtil F64 Arith ParticleModel PointsModel MortonModel DomainModel MixProofs TreeModel TreeSpec TreeProofs TreeLink TreeLevels.
Import ListNotations.
Local Open Scope Z_scope.

Lemma range_nil {A} (l : list A) a : range l a 0 = []. Proof. reflexivity. Qed.
Lemma range_app {A} (l : list A) a n m : 0 <= a -> 0 <= n -> 0 <= m -> range l a (n + m) = range l a n ++ range l (a + n) m.
Proof.
  intros Ha Hn Hm. unfold range. rewrite !Z2Nat.inj_add by lia. generalize (Z.to_nat a) (Z.to_nat n) (Z.to_nat m). clear. intros a n m. rewrite Nat.add_comm with (n := a), <- skipn_skipn.
  generalize (skipn a l). clear. intros l. revert l. induction n as [|n IH]; intros [|x l]; try reflexivity.
  - cbn. rewrite firstn_nil. reflexivity.
  - cbn [Nat.add firstn skipn app]. f_equal. apply IH.
Qed.
Lemma range_one {A} (l : list A) a e : at_ l a e -> range l a 1 = [e].
Proof.
  intros (Ha & H). unfold range. revert H. generalize (Z.to_nat a). clear. intros a. revert l. induction a as [|a IH]; intros [|x l] H; try discriminate; [injection H as ->; reflexivity|]. apply IH. assumption.
Qed.
Lemma range_in {A} (l : list A) a n e : 0 <= a -> In e (range l a n) <-> exists k, a <= k < a + n /\ at_ l k e.
Proof.
  intros Ha. unfold range. split.
  - intros H. apply In_nth_error in H. destruct H as (i & Hi). assert (Hl : (i < Z.to_nat n)%nat). { assert (i < length (firstn (Z.to_nat n) (skipn (Z.to_nat a) l)))%nat by (apply nth_error_Some; congruence). rewrite firstn_length in H. lia. }
    rewrite RngProofs.nth_error_firstn_lt in Hi by lia. rewrite RngProofs.nth_error_skipn_add in Hi. exists (a + Z.of_nat i). split; [lia|]. split; [lia|]. replace (Z.to_nat (a + Z.of_nat i)) with (Z.to_nat a + i)%nat by lia. assumption.
  - intros (k & Hk & H0 & H). apply nth_error_In with (n := (Z.to_nat k - Z.to_nat a)%nat). rewrite RngProofs.nth_error_firstn_lt by lia. rewrite RngProofs.nth_error_skipn_add. replace (Z.to_nat a + (Z.to_nat k - Z.to_nat a))%nat with (Z.to_nat k) by lia. assumption.
Qed.

  Lemma octree_cell tc keys limit i l a n : octree tc keys limit i l a n -> exists c, at_ tc i c /\ n_ptcl c = n /\ level c = l /\ 0 <= n /\ (0 < n -> adr_ptcl c = a /\ 0 <= a /\ a + n <= Z.of_nat (length keys)).
  Proof.
    intros H. inversion H as [? ? ? ? c C1 C2 C3 C4 C5 C6|? ? ? ? c cut C1 C2 C3 C4 C5 C6 C7 C8 C9 C10 C11 C12 C13 C14]; subst; exists c.
    - auto 10.
    - assert (0 <= n_ptcl c). { assert (forall j, (j <= 8)%nat -> cut 0 <= cut (Z.of_nat j)). { induction j as [|j IHj]; intros Hj; [reflexivity|]. specialize (IHj ltac:(lia)). specialize (C11 (Z.of_nat j) ltac:(lia)). replace (Z.of_nat (S j)) with (Z.of_nat j + 1) by lia. lia. } specialize (H0 8%nat (le_n 8)). change (Z.of_nat 8) with 8 in H0. lia. }
      auto 10.
  Qed.
  Lemma octree_fun tc keys limit i l a a' n n' : octree tc keys limit i l a n -> octree tc keys limit i l a' n' -> n = n' /\ (0 < n -> a = a').
  Proof.
    intros H1 H2. apply octree_cell in H1, H2. destruct H1 as (c & C1 & C2 & _ & _ & C5). destruct H2 as (d & D1 & D2 & _ & _ & D5). assert (c = d) by (apply (at_fun tc i); assumption). subst d. split; [lia|]. intros Hp. destruct C5 as (C5 & _); [lia|]. destruct D5 as (D5 & _); [lia|]. lia.
  Qed.

Section Moments.
  Context {N : arith} (ok : N -> Prop) (val : N -> R) (HO : ordered N ok val).
  Local Open Scope R_scope.

  Definition least (xs : list N) (r : N) : Prop := ok r /\ (forall x, In x xs -> val r <= val x) /\ exists x, In x xs /\ val r = val x.
  Definition greatest (xs : list N) (r : N) : Prop := ok r /\ (forall x, In x xs -> val x <= val r) /\ exists x, In x xs /\ val r = val x.
  Lemma least_lo xs ys (r s : N) : least xs r -> least ys s -> least (xs ++ ys) (lo r s).
  Proof using HO.
    intros (O1 & L1 & x & X1 & X2) (O2 & L2 & y & Y1 & Y2). unfold lo. destruct (r <=? s)%A eqn:E.
    - apply (o_le _ _ _ HO) in E; try assumption. split; [assumption|]. split; [|exists x; split; [apply in_or_app; auto|assumption]]. intros z Hz. apply in_app_or in Hz. destruct Hz as [Hz|Hz]; [auto|]. specialize (L2 z Hz). lra.
    - assert (H : ~ val r <= val s) by (intros H; apply (o_le _ _ _ HO) in H; try assumption; congruence). split; [assumption|]. split; [|exists y; split; [apply in_or_app; auto|assumption]]. intros z Hz. apply in_app_or in Hz. destruct Hz as [Hz|Hz]; [specialize (L1 z Hz); lra|auto].
  Qed.
  Lemma greatest_hi xs ys (r s : N) : greatest xs r -> greatest ys s -> greatest (xs ++ ys) (hi r s).
  Proof using HO.
    intros (O1 & L1 & x & X1 & X2) (O2 & L2 & y & Y1 & Y2). unfold hi. destruct (s <? r)%A eqn:E.
    - apply (o_lt _ _ _ HO) in E; try assumption. split; [assumption|]. split; [|exists x; split; [apply in_or_app; auto|assumption]]. intros z Hz. apply in_app_or in Hz. destruct Hz as [Hz|Hz]; [auto|]. specialize (L2 z Hz). lra.
    - assert (H : ~ val s < val r) by (intros H; apply (o_lt _ _ _ HO) in H; try assumption; congruence). split; [assumption|]. split; [|exists y; split; [apply in_or_app; auto|assumption]]. intros z Hz. apply in_app_or in Hz. destruct Hz as [Hz|Hz]; [specialize (L1 z Hz); lra|auto].
  Qed.
  Lemma least_sub xs ys r : (forall x, In x xs <-> In x ys) -> least xs r -> least ys r.
  Proof using. intros H (O & L & x & X1 & X2). split; [assumption|]. split; [intros y Hy; apply L, H; assumption|]. exists x. split; [apply H; assumption|assumption]. Qed.
  Lemma greatest_sub xs ys r : (forall x, In x xs <-> In x ys) -> greatest xs r -> greatest ys r.
  Proof using. intros H (O & L & x & X1 & X2). split; [assumption|]. split; [intros y Hy; apply L, H; assumption|]. exists x. split; [apply H; assumption|assumption]. Qed.

  (** the smallest box that contains the boxes and reaches the initial faces *)
  Definition hullF (bs : list (ort N)) (o : ort N) : Prop := forall c, In c coords -> least (boxInit :: map (fun b => c (olow b)) bs) (c (olow o)) /\ greatest ((- boxInit)%A :: map (fun b => c (ohigh b)) bs) (c (ohigh o)).
  Definition okBox (b : ort N) : Prop := forall c, In c coords -> ok (c (olow b)) /\ ok (c (ohigh b)).
  Lemma merge_low c (o b : ort N) : In c coords -> c (olow (mergeBox o b)) = lo (c (olow o)) (c (olow b)).
  Proof using. intros [<-|[<-|[<-|[]]]]; reflexivity. Qed.
  Lemma merge_high c (o b : ort N) : In c coords -> c (ohigh (mergeBox o b)) = hi (c (ohigh o)) (c (ohigh b)).
  Proof using. intros [<-|[<-|[<-|[]]]]; reflexivity. Qed.
  Lemma hullF_nil : hullF [] emptyBox.
  Proof using HO.
    destruct (o_init _ _ _ HO) as (I1 & I2 & _). intros c Hc. assert (E : c (olow emptyBox) = boxInit /\ c (ohigh emptyBox) = (- boxInit)%A) by (destruct Hc as [<-|[<-|[<-|[]]]]; split; reflexivity). destruct E as (-> & ->).
    split; (split; [assumption|]; split; [intros x [<-|[]]; lra|eexists; split; [left; reflexivity|reflexivity]]).
  Qed.
  Lemma hullF_snoc bs o b : okBox b -> hullF bs o -> hullF (bs ++ [b]) (mergeBox o b).
  Proof using HO.
    intros Hb H c Hc. rewrite merge_low, merge_high by assumption. destruct (H c Hc) as (L & G). destruct (Hb c Hc) as (B1 & B2). rewrite !map_app. cbn [map]. rewrite !app_comm_cons. split.
    - apply least_lo; [assumption|]. split; [assumption|]. split; [intros x [<-|[]]; lra|eexists; split; [left; reflexivity|reflexivity]].
    - apply greatest_hi; [assumption|]. split; [assumption|]. split; [intros x [<-|[]]; lra|eexists; split; [left; reflexivity|reflexivity]].
  Qed.
  Lemma hullF_app bs cs o b : hullF bs o -> hullF cs b -> hullF (bs ++ cs) (mergeBox o b).
  Proof using HO.
    intros H1 H2 c Hc. rewrite merge_low, merge_high by assumption. destruct (H1 c Hc) as (L & G). destruct (H2 c Hc) as (L2 & G2). split.
    - apply (least_sub ((boxInit :: map (fun b => c (olow b)) bs) ++ boxInit :: map (fun b => c (olow b)) cs)); [|apply least_lo; assumption]. intros x. rewrite !map_app. cbn. rewrite !in_app_iff. cbn. tauto.
    - apply (greatest_sub (((- boxInit)%A :: map (fun b => c (ohigh b)) bs) ++ (- boxInit)%A :: map (fun b => c (ohigh b)) cs)); [|apply greatest_hi; assumption]. intros x. rewrite !map_app. cbn. rewrite !in_app_iff. cbn. tauto.
  Qed.
  Lemma hullF_hull bs o : bs <> [] -> (forall b, In b bs -> proper ok val b) -> hullF bs o -> hull ok val bs o.
  Proof using HO.
    intros Hne Hp H. destruct (o_init _ _ _ HO) as (_ & _ & I1 & I2). split; [intros c Hc; destruct (H c Hc) as ((O1 & _) & (O2 & _)); auto|]. split.
    - intros b Hb c Hc. destruct (H c Hc) as ((_ & L & _) & (_ & G & _)). split; [apply L; right; apply (in_map (fun b => c (olow b))); assumption|apply G; right; apply (in_map (fun b => c (ohigh b))); assumption].
    - intros c Hc. destruct (H c Hc) as ((_ & L & x & X1 & X2) & (_ & G & y & Y1 & Y2)). destruct bs as [|b0 bs]; [contradiction|]. destruct (Hp b0 (or_introl eq_refl) c Hc) as (_ & _ & P1 & P2). apply Rabs_le_inv in P1, P2. split.
      + destruct X1 as [<-|X1].
        * exists b0. split; [left; reflexivity|]. specialize (L (c (olow b0)) (or_intror (or_introl eq_refl))). lra.
        * apply in_map_iff in X1. destruct X1 as (b & <- & Hb). exists b. auto.
      + destruct Y1 as [<-|Y1].
        * exists b0. split; [left; reflexivity|]. specialize (G (c (ohigh b0)) (or_intror (or_introl eq_refl))). lra.
        * apply in_map_iff in Y1. destruct Y1 as (b & <- & Hb). exists b. auto.
  Qed.
  Local Open Scope Z_scope.

  Variables (keys : list Z) (limit : Z) (tc : list cell) (eps : list (site N)) (HN : 2 * Z.of_nat (length keys) <= 2 ^ 31) (Hlen : length eps = length keys).
  Hypothesis (Hok : forall e, In e eps -> okBox (point e) /\ okBox (ball e)).

  Definition measF (moms : list (moment N)) (i a n : Z) : Prop :=
    exists m, at_ moms i m /\ (n = 0 -> m = initMoment) /\ (0 < n -> hullF (map point (range eps a n)) (v_in m) /\ hullF (map ball (range eps a n)) (v_out m)).
  Definition momF a n (m : moment N) : Prop := hullF (map point (range eps a n)) (v_in m) /\ hullF (map ball (range eps a n)) (v_out m).

  Lemma momF_0 a : momF a 0 initMoment.
  Proof using HO. split; apply hullF_nil. Qed.
  Lemma leaf_ok a n : 0 <= a -> 0 <= n -> a + n <= Z.of_nat (length keys) -> exists m, ofold (fun m k => do e <- zread eps k; Done (accumulateAtLeaf m e)) (zrange a (a + n)) initMoment = Done m /\ momF a n m.
  Proof using HO Hlen Hok.
    intros Ha Hn. revert n Hn. refine (natlike_ind _ _ _).
    - intros _. exists initMoment. rewrite Z.add_0_r, zrange_nil by lia. split; [reflexivity|apply momF_0].
    - intros n Hn IH Hb. destruct IH as (m & E & H1 & H2); [lia|]. replace (a + Z.succ n) with (a + n + 1) by lia. rewrite zrange_snoc by lia. rewrite ofold_app, E. cbn [obind ofold].
      destruct (at_ex eps (a + n)) as (e & He); [lia|]. rewrite (zread_at _ _ _ He). cbn [obind]. eexists. split; [reflexivity|]. unfold Z.succ. unfold momF. rewrite range_app by lia. rewrite (range_one _ _ _ He), !map_app. cbn [map].
      destruct (Hok e) as (K1 & K2); [destruct He as (_ & He); apply nth_error_In in He; assumption|]. split; [apply (hullF_snoc _ _ (point e)); assumption|apply (hullF_snoc _ _ (ball e)); assumption].
  Qed.


  Lemma kids_ok moms (c : cell) lev a cut : 0 <= a -> cut 0 = a -> (forall j, 0 <= j < 8 -> cut j <= cut (j + 1)) ->
    (forall j, 0 <= j < 8 -> octree tc keys limit (adr_tc c + j) lev (cut j) (cut (j + 1) - cut j)) ->
    (forall j, 0 <= j < 8 -> measF moms (adr_tc c + j) (cut j) (cut (j + 1) - cut j)) ->
    forall m, (m <= 8)%nat -> exists mm, ofold (fun m k => do d <- zread tc (adr_tc c + k); if (n_ptcl d =? 0)%Z then Done m else do a <- zread moms (adr_tc c + k); Done (accumulate m a)) (zrange 0 (Z.of_nat m)) initMoment = Done mm
      /\ momF a (cut (Z.of_nat m) - a) mm /\ a <= cut (Z.of_nat m).
  Proof using HO Hlen.
    intros Ha C0 Cm Ct Cmeas. induction m as [|m IH]; intros Hm.
    - exists initMoment. split; [reflexivity|]. change (Z.of_nat 0) with 0. rewrite C0, Z.sub_diag. split; [apply momF_0|lia].
    - destruct IH as (mm & E & (M1 & M2) & Hle); [lia|]. replace (Z.of_nat (S m)) with (Z.of_nat m + 1) by lia. rewrite zrange_snoc by lia. rewrite ofold_app, E. cbn [obind ofold].
      set (j := Z.of_nat m) in *. assert (Hj : 0 <= j < 8) by lia. destruct (octree_cell _ _ _ _ _ _ _ (Ct j Hj)) as (d & D1 & D2 & D3 & D4 & D5). rewrite (zread_at _ _ _ D1). cbn [obind]. specialize (Cm j Hj).
      destruct (Cmeas j Hj) as (md & Md & Mz & Mp). destruct (Z.eqb_spec (n_ptcl d) 0) as [Hz|Hz].
      + exists mm. split; [reflexivity|]. replace (cut (j + 1)) with (cut j) by lia. split; [split; assumption|assumption].
      + rewrite (zread_at _ _ _ Md). cbn [obind]. eexists. split; [reflexivity|]. split; [|lia]. destruct (Mp ltac:(lia)) as (Q1 & Q2). replace (cut (j + 1) - a) with (cut j - a + (cut (j + 1) - cut j)) by lia. unfold momF. rewrite range_app by lia.
        replace (a + (cut j - a)) with (cut j) by lia. rewrite !map_app. split; apply hullF_app; assumption.
  Qed.


  Lemma cellMoment_ok moms i l a n : l <= 21 -> octree tc keys limit i l a n -> i < Z.of_nat (length moms) ->
    (forall c j a' n', at_ tc i c -> limit < n -> l < 21 -> 0 <= j < 8 -> octree tc keys limit (adr_tc c + j) (l + 1) a' n' -> measF moms (adr_tc c + j) a' n') ->
    exists moms', cellMoment tc eps limit moms i = Done moms' /\ length moms' = length moms /\ (forall k m, k <> i -> at_ moms' k m <-> at_ moms k m) /\ measF moms' i a n.
  Proof using HO HN Hlen Hok.
    intros Hl21 Ho Hi Hk. assert (Ho' := Ho). apply octree_cell in Ho'. destruct Ho' as (c & C1 & C2 & C3 & C4 & C5). unfold cellMoment. rewrite (zread_at _ _ _ C1). cbn [obind].
    match goal with |- exists moms', obind ?X _ = _ /\ _ => assert (Hm : exists m, X = Done m /\ (n = 0 -> m = initMoment) /\ (0 < n -> momF a n m)) end.
    { destruct (Z.eqb_spec (n_ptcl c) 0) as [Hz|Hz]; [exists initMoment; split; [reflexivity|]; split; [reflexivity|lia]|]. destruct C5 as (C5 & C6 & C7); [lia|]. unfold isLeaf. rewrite C3, C2.
      inversion Ho as [? ? ? ? c' L1 L2 L3 L4 L5 L6|? ? ? ? c' cut L1 L2 L3 L4 L5 L6 L7 L8 L9 L10 L11 L12 L13 L14]; assert (c' = c) by (apply (at_fun tc i); assumption); subst c'.
      - replace ((n <=? limit) || (l =? levelLimit)) with true by (symmetry; apply orb_true_iff; destruct L6; [left; apply Z.leb_le; assumption|right; apply Z.eqb_eq; assumption]). rewrite C5, toS32_id by lia. cbv zeta. destruct (leaf_ok a n) as (m & E & Hf); try lia. exists m. split; [assumption|]. split; [lia|auto].
      - replace ((n <=? limit) || (l =? levelLimit)) with false by (symmetry; apply orb_false_iff; split; [apply Z.leb_gt; assumption|apply Z.eqb_neq; unfold levelLimit; lia]).
        destruct (kids_ok moms c (l + 1) a cut C6 L9 L11 L14) with (m := 8%nat) as (m & E & Hf & _); [intros j Hj; apply (Hk c); try assumption; apply L14; assumption|lia|]. exists m. split; [exact E|]. split; [lia|]. intros _. change (Z.of_nat 8) with 8 in Hf. rewrite L10 in Hf. replace (a + n - a) with n in Hf by lia. assumption. }
    destruct Hm as (m & E & M1 & M2). rewrite E. cbn [obind]. assert (0 <= i) by (destruct C1; assumption). destruct (zwrite_at moms i m) as (moms' & -> & W1 & W2 & W3); [lia|]. exists moms'. split; [reflexivity|]. split; [assumption|].
    split; [intros k mk Hne; apply W3; congruence|]. exists m. auto.
  Qed.

  Lemma measF_at moms moms' i a n : (forall m, at_ moms i m -> at_ moms' i m) -> measF moms i a n -> measF moms' i a n.
  Proof using. clear HN Hlen. intros H (m & M & R). exists m. split; [apply H; assumption|assumption]. Qed.
  Lemma measF_fun moms i l a n a' n' : octree tc keys limit i l a n -> octree tc keys limit i l a' n' -> measF moms i a n -> measF moms i a' n'.
  Proof using.
    clear HN Hlen. intros H1 H2 (m & M & Z0 & P). destruct (octree_fun _ _ _ _ _ _ _ _ _ H1 H2) as (<- & E). exists m. split; [assumption|]. split; [assumption|]. intros Hp. rewrite <- (E Hp). apply P. assumption.
  Qed.

  Section Calc.
    Variables (p : Z -> Z) (lev_max : Z) (Hlm : 0 <= lev_max <= 21) (P3 : forall l, 0 <= l <= lev_max -> p l <= p (l + 1)) (P4 : p (lev_max + 1) <= Z.of_nat (length tc)).
    Hypothesis P5 : forall l i, 0 <= l <= lev_max -> p l <= i < p (l + 1) ->
      exists c a, at_ tc i c /\ octree tc keys limit i l a (n_ptcl c) /\ (limit < n_ptcl c -> l < 21 -> l < lev_max /\ p (l + 1) <= adr_tc c /\ adr_tc c + 8 <= p (l + 2)).
    Lemma p_mono l l' : 0 <= l <= l' -> l' <= lev_max + 1 -> p l <= p l'.
    Proof using P3.
      clear - P3. intros H H'. replace l' with (l + Z.of_nat (Z.to_nat (l' - l))) in * by lia. revert H'. generalize (Z.to_nat (l' - l)). intros m. induction m as [|m IH]; intros Hm; [rewrite Z.add_0_r; lia|]. specialize (IH ltac:(lia)).
      replace (l + Z.of_nat (S m)) with (l + Z.of_nat m + 1) by lia. assert (p (l + Z.of_nat m) <= p (l + Z.of_nat m + 1)) by (apply P3; lia). lia.
    Qed.
    Definition below (l : Z) (moms : list (moment N)) : Prop := forall l' i a n, l <= l' <= lev_max -> p l' <= i < p (l' + 1) -> octree tc keys limit i l' a n -> measF moms i a n.

    Lemma level_ok l order : 0 <= l <= lev_max -> forall moms, length moms = length tc -> (forall i, In i order -> p l <= i < p (l + 1)) -> below (l + 1) moms ->
      exists moms', ofold (cellMoment tc eps limit) order moms = Done moms' /\ length moms' = length tc /\ below (l + 1) moms' /\
        forall i, p l <= i < p (l + 1) -> In i order \/ (forall a n, octree tc keys limit i l a n -> measF moms i a n) -> forall a n, octree tc keys limit i l a n -> measF moms' i a n.
    Proof using HO HN Hlen Hok Hlm P3 P4 P5.
      intros Hl. induction order as [|j order IH]; intros moms Hm Hin Hb.
      - exists moms. split; [reflexivity|]. split; [assumption|]. split; [assumption|]. intros i Hi [[]|H]. assumption.
      - assert (Hj := Hin j (or_introl eq_refl)). destruct (P5 l j Hl Hj) as (c & a & C1 & C2 & C3). assert (Hlast : p (l + 1) <= p (lev_max + 1)) by (apply p_mono; lia).
        destruct (cellMoment_ok moms j l a (n_ptcl c)) as (moms1 & E & L1 & K1 & M1); [lia|assumption|lia| |].
        { intros c' k a' n' Hc' Hn Hl' Hk' Ho. assert (c' = c) by (apply (at_fun tc j); assumption). subst c'. destruct (C3 Hn Hl') as (D1 & D2 & D3). apply (Hb (l + 1)); [lia| |assumption]. replace (l + 1 + 1) with (l + 2) by lia. lia. }
        assert (Hb1 : below (l + 1) moms1). { intros l' i a' n' Hl' Hi Ho. apply (measF_at moms); [|apply (Hb l'); assumption]. intros m Hm'. apply K1; [|assumption]. assert (p (l + 1) <= p l') by (apply p_mono; lia). lia. }
        destruct (IH moms1) as (moms' & E' & L' & B' & M'); [lia|intros i Hi; apply Hin; right; assumption|assumption|]. cbn [ofold]. rewrite E. cbn [obind]. exists moms'. split; [assumption|]. split; [assumption|]. split; [assumption|].
        intros i Hi Hor. apply M'; [assumption|]. destruct (Z.eq_dec i j) as [->|Hne]; [right; intros a' n' Ho; apply (measF_fun _ j l a (n_ptcl c)); assumption|].
        destruct Hor as [[Hx|Hx]|Hx]; [congruence|left; assumption|]. right. intros a' n' Ho. apply (measF_at moms); [|apply Hx; assumption]. intros m Hm'. apply K1; assumption.
    Qed.
  End Calc.

  Lemma calcMoment_ok sched part lev_max moms : (forall l n, Permutation (sched l n) (seq 0 n)) -> layered tc keys limit part lev_max -> length moms = length tc ->
    exists moms', calcMoment sched tc part lev_max eps limit moms = Done moms' /\ length moms' = length tc /\
      forall l h t i a n, 0 <= l <= lev_max -> at_ part l h -> at_ part (l + 1) t -> h <= i < t -> octree tc keys limit i l a n -> measF moms' i a n.
  Proof using HO HN Hlen Hok.
    intros Hs (Hlm & p & P1 & _ & P2 & P3 & P4 & P5) Hm. unfold calcMoment. match goal with |- context [ofold ?F _ _] => set (G := F) end.
    assert (H : forall k, Z.of_nat k <= lev_max + 1 -> exists moms', ofold G (rev (zrange (lev_max + 1 - Z.of_nat k) (lev_max + 1))) moms = Done moms' /\ length moms' = length tc /\ below p lev_max (lev_max + 1 - Z.of_nat k) moms').
    { induction k as [|k IH]; intros Hk.
      - exists moms. rewrite zrange_nil by lia. split; [reflexivity|]. split; [assumption|]. intros l' i a n Hl'. lia.
      - destruct IH as (moms1 & E & L & B); [lia|]. set (l := lev_max + 1 - Z.of_nat (S k)). rewrite zrange_cons by lia. cbn [rev]. replace (l + 1) with (lev_max + 1 - Z.of_nat k) by lia. rewrite ofold_app, E. cbn [obind ofold]. unfold G at 1.
        rewrite (zread_at _ _ _ (P2 l ltac:(lia))). cbn [obind]. rewrite (zread_at _ _ _ (P2 (l + 1) ltac:(lia))). cbn [obind]. replace (lev_max + 1 - Z.of_nat k) with (l + 1) in B by lia.
        destruct (level_ok p lev_max Hlm P3 P4 P5 l (map (fun k => p l + Z.of_nat k) (sched l (Z.to_nat (p (l + 1) - p l))))) with (moms := moms1) as (moms2 & E2 & L2 & B2 & M2); try assumption; try lia.
        { intros i Hi. apply in_map_iff in Hi. destruct Hi as (x & <- & Hx). apply (Permutation_in _ (Hs _ _)), in_seq in Hx. lia. }
        rewrite E2. cbn [obind]. exists moms2. split; [reflexivity|]. split; [assumption|]. intros l' i a n Hl' Hi Ho. destruct (Z.eq_dec l' l) as [->|Hne]; [|apply (B2 l'); try assumption; lia].
        apply M2; try assumption. left. apply in_map_iff. exists (Z.to_nat (i - p l)). split; [lia|]. apply (Permutation_in _ (Permutation_sym (Hs _ _))), in_seq. lia. }
    destruct (H (Z.to_nat (lev_max + 1)) ltac:(lia)) as (moms' & E & L & B). replace (lev_max + 1 - Z.of_nat (Z.to_nat (lev_max + 1))) with 0 in * by lia. exists moms'. split; [assumption|]. split; [assumption|].
    intros l h t i a n Hl Hh Ht Hi Ho. rewrite (at_fun _ _ _ _ Hh (P2 l ltac:(lia))) in Hi. rewrite (at_fun _ _ _ _ Ht (P2 (l + 1) ltac:(lia))) in Hi. apply (B l); assumption.
  Qed.
End Moments.
