From Coq Require Import List Arith ZArith Lia Bool Permutation.
From Verif Require Import Outcome ListUtil Arith ParticleModel PointsModel MortonModel DomainModel MixProofs TreeModel TreeSpec.
Import ListNotations.
Local Open Scope Z_scope.

Lemma zread_at {A} (l : list A) i a : at_ l i a -> zread l i = Done a.
Proof. intros [H E]. unfold zread. destruct (Z.ltb_spec i 0); [lia|]. unfold mread. now rewrite E. Qed.
Lemma at_fun {A} (l : list A) i a b : at_ l i a -> at_ l i b -> a = b.
Proof. intros [_ E] [_ E']. congruence. Qed.
Lemma at_ex {A} (l : list A) i : 0 <= i < Z.of_nat (length l) -> exists a, at_ l i a.
Proof. intros H. destruct (nth_error l (Z.to_nat i)) eqn:E; [exists a; split; [lia|assumption]|]. apply nth_error_None in E. lia. Qed.
Lemma at_lt {A} (l : list A) i a : at_ l i a -> 0 <= i < Z.of_nat (length l).
Proof. intros [H E]. assert (Z.to_nat i < length l)%nat by (apply nth_error_Some; congruence). lia. Qed.
Lemma zwrite_at {A} (l : list A) i v : 0 <= i < Z.of_nat (length l) -> exists l', zwrite l i v = Done l' /\ length l' = length l /\ at_ l' i v /\
  (forall k a, k <> i -> at_ l' k a <-> at_ l k a).
Proof.
  intros H. unfold zwrite. destruct (Z.ltb_spec i 0); [lia|]. destruct (mwrite_ok l (Z.to_nat i) v) as [l' E]; [lia|]. exists l'. rewrite E. destruct (nth_mwrite _ _ _ _ E) as [E1 E2].
  split; [reflexivity|]. split; [assumption|]. split; [split; [lia|]; rewrite E2, Nat.eqb_refl; reflexivity|]. intros k a Hk. unfold at_.
  split; intros [H1 H2]; (split; [assumption|]); [rewrite E2 in H2|rewrite E2]; destruct (Nat.eqb_spec (Z.to_nat k) (Z.to_nat i)); try assumption; lia.
Qed.

Section Keys.
  Variables (keys : list Z) (Hk : sorted_keys keys).
  Notation N := (Z.of_nat (length keys)).
  Notation K := (keyAt keys).

  Definition pre (lev k : Z) : Z := K k / 8 ^ (21 - lev).

  Lemma keyAt_read i : 0 <= i < N -> zread keys i = Done (K i).
  Proof. intros H. apply zread_at. split; [lia|]. unfold keyAt. apply nth_error_nth'. lia. Qed.
  Lemma cellOf_ok i lev : 0 <= i < N -> 0 <= lev <= 21 -> cellOf keys lev i = Done (digit keys lev i).
  Proof.
    intros H Hl. unfold cellOf. rewrite keyAt_read by assumption. cbn [obind]. unfold getCellID3. destruct (Z.leb_spec 0 ((21 - lev) * 3)); [|lia].
    destruct (Z.ltb_spec ((21 - lev) * 3) 64); [|lia]. cbn [andb]. f_equal. unfold digit.
    change 7 with (Z.ones 3). rewrite Z.land_ones by lia. rewrite Z.shiftr_div_pow2 by lia. change 8 with (2 ^ 3) at 2. f_equal. f_equal.
    change 8 with (2 ^ 3). rewrite <- Z.pow_mul_r by lia. f_equal. lia.
  Qed.
  Lemma digit_bound lev k : 0 <= digit keys lev k < 8.
  Proof. unfold digit. apply Z.mod_pos_bound. lia. Qed.
  Lemma pre_succ lev k : 0 <= lev < 21 -> pre (lev + 1) k = 8 * pre lev k + digit keys (lev + 1) k.
  Proof.
    intros H. unfold pre, digit. replace (21 - lev) with (1 + (21 - (lev + 1))) by lia. rewrite Z.pow_add_r by lia. change (8 ^ 1) with 8.
    rewrite (Z.mul_comm 8 (8 ^ _)), <- Z.div_div by (try apply Z.pow_nonzero; try (apply Z.pow_pos_nonneg); lia). apply Z.div_mod. lia.
  Qed.
  Lemma pre_mono lev i j : 0 <= lev <= 21 -> 0 <= i <= j -> j < N -> pre lev i <= pre lev j.
  Proof. intros Hl Hi Hj. unfold pre. apply Z.div_le_mono; [apply Z.pow_pos_nonneg; lia|]. apply Hk; lia. Qed.

  (** all keys of a range agree up to level lev *)
  Definition shared (lev a n : Z) : Prop := 0 <= a /\ a + n <= N /\ forall k, a <= k < a + n -> pre lev k = pre lev a.
  Lemma shared_mono lev a n i j : 0 <= lev < 21 -> shared lev a n -> a <= i <= j -> j < a + n -> digit keys (lev + 1) i <= digit keys (lev + 1) j.
  Proof.
    intros Hl (H0 & H1 & Hs) Hi Hj. assert (H2 := pre_mono (lev + 1) i j ltac:(lia) ltac:(lia) ltac:(lia)). rewrite !pre_succ in H2 by lia.
    rewrite (Hs i) in H2 by lia. rewrite (Hs j) in H2 by lia. lia.
  Qed.

  Section Partition.
    Variables (lev a n ref : Z) (Hl : 0 <= lev < 21) (Hs : shared lev a n) (Hn : 2 <= n) (HN : 2 * N <= 2 ^ 31) (Hr : 0 <= ref < 8).
    Notation d := (digit keys (lev + 1)).

    Lemma partitionLoop_ok fuel : forall l r, (Z.to_nat (r - l) < fuel)%nat -> a <= l -> l <= r -> r < a + n -> (forall k, a <= k < l -> d k < ref) -> ref <= d r ->
      (l < r \/ d l <> ref) -> exists p, partitionLoop fuel keys ref (lev + 1) l r = Done p /\
      ((p = -1 /\ forall k, a <= k < a + n -> d k <> ref) \/ (a <= p < a + n /\ d p = ref /\ forall k, a <= k < p -> d k < ref)).
    Proof.
      destruct Hs as (H0 & H1 & _). induction fuel as [|f IH]; intros l r Hf Hla Hlr Hra Hlow Hhigh Hne; [lia|]. cbn [partitionLoop].
      destruct (Z.ltb_spec l r) as [Hlt|Hge].
      - unfold as_int. destruct (Z.leb_spec INT_MIN (l + r)); [|unfold INT_MIN in *; lia]. destruct (Z.leb_spec (l + r) INT_MAX); [|unfold INT_MAX in *; lia].
        cbn [andb obind]. rewrite Z.quot_div_nonneg by lia. set (cen := (l + r) / 2). assert (Hc : l <= cen < r) by (subst cen; split; [apply Z.div_le_lower_bound; lia|apply Z.div_lt_upper_bound; lia]).
        rewrite cellOf_ok by lia. cbn [obind]. rewrite Z.gtb_ltb. destruct (Z.ltb_spec (d cen) ref) as [Hv|Hv].
        + rewrite cellOf_ok by lia. cbn [obind].
          assert (Hlow' : forall k, a <= k < cen + 1 -> d k < ref). { intros k Hk'. assert (d k <= d cen) by (apply (shared_mono lev a n); try assumption; lia). lia. }
          destruct (Z.eqb_spec (d (cen + 1)) ref) as [E|E].
          * exists (cen + 1). split; [reflexivity|]. right. split; [lia|]. split; assumption.
          * apply IH; try lia; try assumption.
        + rewrite cellOf_ok by lia. cbn [obind]. destruct (Z.eqb_spec (d l) ref) as [E|E].
          * exists l. split; [reflexivity|]. right. split; [lia|]. split; assumption.
          * apply IH; try lia; try assumption.
      - exists (-1). split; [reflexivity|]. left. split; [reflexivity|]. intros k Hk'. assert (l = r) by lia. subst r. destruct Hne as [Hne|Hne]; [lia|].
        destruct (Z.lt_ge_cases k l) as [Hkl|Hkl]; [specialize (Hlow k ltac:(lia)); lia|]. assert (d l <= d k) by (apply (shared_mono lev a n); try assumption; lia). lia.
    Qed.
    Lemma getPartitionID_ok : exists p, getPartitionID keys a (a + n - 1) ref (lev + 1) = Done p /\
      ((p = -1 /\ forall k, a <= k < a + n -> d k <> ref) \/ (a <= p < a + n /\ d p = ref /\ forall k, a <= k < p -> d k < ref)).
    Proof.
      destruct Hs as (H0 & H1 & _). unfold getPartitionID. rewrite cellOf_ok by lia. cbn [obind]. destruct (Z.ltb_spec (d (a + n - 1)) ref) as [Hv|Hv].
      - exists (-1). split; [reflexivity|]. left. split; [reflexivity|]. intros k Hk'. assert (d k <= d (a + n - 1)) by (apply (shared_mono lev a n); try assumption; lia). lia.
      - rewrite cellOf_ok by lia. cbn [obind]. rewrite Z.gtb_ltb. destruct (Z.ltb_spec ref (d a)) as [Hw|Hw].
        + exists (-1). split; [reflexivity|]. left. split; [reflexivity|]. intros k Hk'. assert (d a <= d k) by (apply (shared_mono lev a n); try assumption; lia). lia.
        + apply partitionLoop_ok; try lia.
    Qed.
  End Partition.

  (** first particle of a range whose digit is at least j *)
  Fixpoint cutF (m : nat) (lev a j : Z) : Z :=
    match m with O => a | S m' => if digit keys (lev + 1) a <? j then cutF m' lev (a + 1) j else a end.
  Definition cut (lev a n j : Z) : Z := cutF (Z.to_nat n) lev a j.

  Lemma cutF_ok lev : 0 <= lev < 21 -> forall m a j, (forall x y, a <= x <= y -> y < a + Z.of_nat m -> digit keys (lev + 1) x <= digit keys (lev + 1) y) ->
    a <= cutF m lev a j <= a + Z.of_nat m /\ forall k, a <= k < a + Z.of_nat m -> k < cutF m lev a j <-> digit keys (lev + 1) k < j.
  Proof.
    intros Hl. induction m as [|m IH]; intros a j Hm; cbn [cutF]; [split; [lia|]; intros; lia|].
    destruct (Z.ltb_spec (digit keys (lev + 1) a) j) as [H|H].
    - destruct (IH (a + 1) j) as [H1 H2]; [intros; apply Hm; lia|]. split; [lia|]. intros k Hk'. destruct (Z.eq_dec k a) as [->|]; [lia|]. apply H2. lia.
    - split; [lia|]. intros k Hk'. split; [lia|]. intros Hd. assert (digit keys (lev + 1) a <= digit keys (lev + 1) k) by (apply Hm; lia). lia.
  Qed.
  Lemma cut_ok lev a n j : 0 <= lev < 21 -> shared lev a n -> 0 <= n -> a <= cut lev a n j <= a + n /\ forall k, a <= k < a + n -> k < cut lev a n j <-> digit keys (lev + 1) k < j.
  Proof.
    intros Hl Hs Hn. destruct (cutF_ok lev Hl (Z.to_nat n) a j) as [H1 H2].
    { intros x y Hx Hy. apply (shared_mono lev a n); try assumption; lia. }
    unfold cut. rewrite Z2Nat.id in * by lia. split; assumption.
  Qed.
  Lemma cut_0 lev a n : 0 <= lev < 21 -> shared lev a n -> 0 <= n -> cut lev a n 0 = a.
  Proof.
    intros Hl Hs Hn. destruct (cut_ok lev a n 0 Hl Hs Hn) as [H1 H2]. destruct (Z.eq_dec (cut lev a n 0) a) as [|Hne]; [assumption|].
    assert (H3 := proj1 (H2 a ltac:(lia)) ltac:(lia)). assert (H4 := digit_bound (lev + 1) a). lia.
  Qed.
  Lemma cut_8 lev a n : 0 <= lev < 21 -> shared lev a n -> 0 <= n -> cut lev a n 8 = a + n.
  Proof.
    intros Hl Hs Hn. destruct (cut_ok lev a n 8 Hl Hs Hn) as [H1 H2]. destruct (Z.eq_dec (cut lev a n 8) (a + n)) as [|Hne]; [assumption|].
    assert (H3 := proj2 (H2 (cut lev a n 8) ltac:(lia)) ltac:(apply digit_bound)). lia.
  Qed.
  Lemma cut_mono lev a n i j : 0 <= lev < 21 -> shared lev a n -> 0 <= n -> i <= j -> cut lev a n i <= cut lev a n j.
  Proof.
    intros Hl Hs Hn Hij. destruct (cut_ok lev a n i Hl Hs Hn) as [H1 H2]. destruct (cut_ok lev a n j Hl Hs Hn) as [H3 H4].
    destruct (Z.le_gt_cases (cut lev a n i) (cut lev a n j)) as [|Hgt]; [assumption|]. set (k := cut lev a n j) in *.
    assert (H5 := proj1 (H2 k ltac:(lia)) ltac:(lia)). assert (H6 := proj2 (H4 k ltac:(lia)) ltac:(lia)). lia.
  Qed.
  Lemma cut_digit lev a n j k : 0 <= lev < 21 -> shared lev a n -> 0 <= n -> cut lev a n j <= k < cut lev a n (j + 1) -> digit keys (lev + 1) k = j.
  Proof.
    intros Hl Hs Hn Hkc. destruct (cut_ok lev a n j Hl Hs Hn) as [H1 H2]. destruct (cut_ok lev a n (j + 1) Hl Hs Hn) as [H3 H4].
    assert (H5 := proj1 (H4 k ltac:(lia)) ltac:(lia)). assert (~ digit keys (lev + 1) k < j) by (intros H; apply H2 in H; lia). lia.
  Qed.
  (** the child range shares one digit more *)
  Lemma cut_shared lev a n j : 0 <= lev < 21 -> shared lev a n -> 0 <= n -> 0 <= j < 8 -> shared (lev + 1) (cut lev a n j) (cut lev a n (j + 1) - cut lev a n j).
  Proof.
    intros Hl Hs Hn Hj. assert (H1 := proj1 (cut_ok lev a n j Hl Hs Hn)). assert (H2 := proj1 (cut_ok lev a n (j + 1) Hl Hs Hn)). destruct Hs as (H3 & H4 & H5) eqn:EE. clear EE.
    split; [lia|]. split; [lia|]. intros k Hk'. rewrite !pre_succ by lia. rewrite (cut_digit lev a n j k) by (try assumption; lia).
    rewrite (cut_digit lev a n j (cut lev a n j)) by (try assumption; lia). rewrite (H5 k) by lia. rewrite (H5 (cut lev a n j)) by lia. reflexivity.
  Qed.

  Definition present (lev a n j : Z) : bool := cut lev a n j <? cut lev a n (j + 1).
  Lemma partition_cut lev a n j : 0 <= lev < 21 -> shared lev a n -> 2 <= n -> 2 * N <= 2 ^ 31 -> 0 <= j < 8 ->
    getPartitionID keys a (a + n - 1) j (lev + 1) = Done (if present lev a n j then cut lev a n j else -1).
  Proof.
    intros Hl Hs Hn HN Hj. destruct (getPartitionID_ok lev a n j Hl Hs Hn HN) as (p & -> & Hp). f_equal.
    destruct (cut_ok lev a n j Hl Hs ltac:(lia)) as [H1 H2]. destruct (cut_ok lev a n (j + 1) Hl Hs ltac:(lia)) as [H3 H4]. unfold present.
    destruct Hp as [[-> Hno]|(Hp & Hd & Hlow)].
    - destruct (Z.ltb_spec (cut lev a n j) (cut lev a n (j + 1))) as [H|H]; [|reflexivity].
      exfalso. apply (Hno (cut lev a n j)); [lia|]. apply (cut_digit lev a n); try assumption; lia.
    - assert (p < cut lev a n (j + 1)) by (apply H4; lia). assert (~ p < cut lev a n j) by (intros H'; apply H2 in H'; lia).
      destruct (Z.ltb_spec (cut lev a n j) (cut lev a n (j + 1))) as [H'|H']; [|lia].
      destruct (Z.eq_dec p (cut lev a n j)) as [|Hne]; [assumption|]. specialize (Hlow (cut lev a n j) ltac:(lia)). apply H2 in Hlow; lia.
  Qed.
End Keys.
