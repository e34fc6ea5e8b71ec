(** Proofs about PointsModel. *)
From Coq Require Import List Arith ZArith Reals Lia Lra Bool.
From Flocq Require Import Core BinarySingleNaN.
From Verif Require Import Outcome ListUtil MPIModel MPIProofs CommModel CommProofs F64 PointsModel.
Import ListNotations.
Local Open Scope Z_scope.

Lemma as_int_ok z : INT_MIN <= z <= INT_MAX -> as_int z = Done z.
Proof.
  intros H. unfold as_int. destruct (Z.leb_spec INT_MIN z), (Z.leb_spec z INT_MAX); cbn; lia || reflexivity.
Qed.
Lemma as_int_UB z : INT_MAX < z -> as_int z = UB.
Proof.
  intros H. unfold as_int. destruct (Z.leb_spec INT_MIN z), (Z.leb_spec z INT_MAX); cbn; lia || reflexivity.
Qed.

Lemma blockIndex_exact dim k nPts nProcs :
  0 < dim <= INT_MAX -> 0 <= k <= nProcs -> 0 < nProcs <= INT_MAX -> 0 <= nPts -> dim * nPts <= INT_MAX ->
  nProcs * nPts <= INT_MAX ->
  blockIndex dim k nPts nProcs = Done (dim * (k * nPts / nProcs)).
Proof.
  unfold INT_MAX. intros Hd Hk Hn Hp Hs Hov. unfold blockIndex.
  assert (Hkp : 0 <= k * nPts <= nProcs * nPts) by nia.
  rewrite as_int_ok by (unfold INT_MIN, INT_MAX; lia). cbn [obind].
  destruct (div_floor_exact (k * nPts) nProcs) as (Q1 & Q2); [lia|lia|].
  set (q := ffloor (fdiv (f_ofZ (k * nPts)) (f_ofZ nProcs))) in *.
  assert (QB : 0 <= k * nPts / nProcs <= nPts).
  { split; [apply Z.div_pos; lia|]. apply Z.div_le_upper_bound; nia. }
  set (w := k * nPts / nProcs) in *.
  assert (HD : 0 <= dim * w <= 2147483647) by nia.
  destruct (f_ofZ_exact dim) as (D1 & D2); [lia|].
  assert (RW : rnd64 (B2R (f_ofZ dim) * B2R q) = IZR (dim * w)).
  { rewrite D1, Q1, <- mult_IZR. apply rnd64_int. lia. }
  destruct (fmul_R (f_ofZ dim) q D2 Q2) as (M1 & M2).
  { rewrite RW. apply bpow_emax_big. lia. }
  unfold double_to_int, f_finite. rewrite M2, f_trunc_R, M1, RW, Ztrunc_IZR.
  apply as_int_ok. unfold INT_MIN, INT_MAX. lia.
Qed.

Section Distribute.
  Context {A : Type}.

  (** the boundary of block r: dim * floor(r*nPts/n), the last one is the size *)
  Definition bound (pts : list A) (dim n : nat) (r : nat) : nat :=
    if (r =? n)%nat then length pts else (dim * (r * (length pts / dim) / n))%nat.

  Lemma of_nat_div a b : (b <> 0)%nat -> Z.of_nat (a / b) = Z.of_nat a / Z.of_nat b.
  Proof. intros. apply Nat2Z.inj_div. Qed.

  Lemma bound_mono pts dim n r : (0 < dim)%nat -> (0 < n)%nat -> (r < n)%nat ->
    (bound pts dim n r <= bound pts dim n (S r) <= length pts)%nat.
  Proof.
    intros Hd Hn Hr. unfold bound.
    destruct (Nat.eqb_spec r n); [lia|].
    assert (L : forall k, (k <= n -> dim * (k * (length pts / dim) / n) <= length pts)%nat).
    { intros k Hk. transitivity (dim * (length pts / dim))%nat.
      - apply Nat.mul_le_mono_l. apply Nat.div_le_upper_bound; [lia|].
        apply Nat.mul_le_mono_r. assumption.
      - apply Nat.mul_div_le. lia. }
    destruct (Nat.eqb_spec (S r) n) as [E|E].
    - split; [|lia]. apply L. lia.
    - split; [|apply L; lia]. apply Nat.mul_le_mono_l. apply Nat.div_le_mono; [lia|].
      apply Nat.mul_le_mono_r. lia.
  Qed.

  Lemma takePortion_spec (pts : list A) dim r n :
    (0 < dim)%nat -> Z.of_nat dim <= INT_MAX -> (r < n)%nat -> Z.of_nat n <= INT_MAX ->
    Z.of_nat (length pts) <= INT_MAX ->
    Z.of_nat n * (Z.of_nat (length pts) / Z.of_nat dim) <= INT_MAX ->
    takePortion pts (Z.of_nat dim) (Z.of_nat r) (Z.of_nat n)
    = Done (slice (bound pts dim n r) (bound pts dim n (S r) - bound pts dim n r) pts).
  Proof.
    intros Hd Hdi Hr Hn Hs Hov. unfold takePortion.
    destruct (Z.eqb_spec (Z.of_nat dim) 0) as [E|_]; [lia|].
    set (nP := Z.quot (Z.of_nat (length pts)) (Z.of_nat dim)).
    assert (EnP : nP = Z.of_nat (length pts) / Z.of_nat dim) by (apply Z.quot_div_nonneg; lia).
    assert (EnP2 : nP = Z.of_nat (length pts / dim)) by (rewrite EnP, of_nat_div by lia; reflexivity).
    assert (HnP : 0 <= nP) by lia.
    assert (HnPs : Z.of_nat dim * nP <= Z.of_nat (length pts)).
    { rewrite EnP. apply Z.mul_div_le. lia. }
    assert (BI : forall k, (k <= n)%nat -> blockIndex (Z.of_nat dim) (Z.of_nat k) nP (Z.of_nat n)
              = Done (Z.of_nat (dim * (k * (length pts / dim) / n)))).
    { intros k Hk. rewrite blockIndex_exact by (unfold INT_MAX in *; lia).
      f_equal. rewrite Nat2Z.inj_mul, of_nat_div, Nat2Z.inj_mul, <- EnP2 by lia. reflexivity. }
    rewrite BI by lia. cbn [obind].
    rewrite as_int_ok by (unfold INT_MIN, INT_MAX in *; lia). cbn [obind].
    replace (Z.of_nat r + 1) with (Z.of_nat (S r)) by lia.
    rewrite BI by lia. cbn [obind].
    pose proof (bound_mono pts dim n r Hd ltac:(lia) Hr) as BM.
    assert (EL : Z.of_nat (dim * (r * (length pts / dim) / n)) = Z.of_nat (bound pts dim n r)).
    { unfold bound. destruct (Nat.eqb_spec r n); [lia|reflexivity]. }
    assert (EH : (if Z.of_nat r =? Z.of_nat n - 1 then Z.of_nat (length pts)
                  else Z.of_nat (dim * (S r * (length pts / dim) / n))) = Z.of_nat (bound pts dim n (S r))).
    { unfold bound. destruct (Nat.eqb_spec (S r) n), (Z.eqb_spec (Z.of_nat r) (Z.of_nat n - 1)); try lia; reflexivity. }
    rewrite EL, EH.
    destruct (Z.leb_spec 0 (Z.of_nat (bound pts dim n r))), (Z.leb_spec (Z.of_nat (bound pts dim n r)) (Z.of_nat (bound pts dim n (S r)))),
      (Z.leb_spec (Z.of_nat (bound pts dim n (S r))) (Z.of_nat (length pts))); try lia. cbn [andb].
    f_equal. f_equal; lia.
  Qed.

  Lemma distribute_spec (ranks : list (list A)) root rest dim :
    ranks = root :: rest -> rest <> [] ->
    (0 < dim)%nat -> Z.of_nat dim <= INT_MAX -> Z.of_nat (length ranks) <= INT_MAX ->
    Z.of_nat (length root) <= INT_MAX ->
    Z.of_nat (length ranks) * (Z.of_nat (length root) / Z.of_nat dim) <= INT_MAX ->
    distributePts (Z.of_nat dim) ranks
    = Done (map (fun r => slice (bound root dim (length ranks) r)
                   (bound root dim (length ranks) (S r) - bound root dim (length ranks) r) root)
                (seq 0 (length ranks))).
  Proof.
    intros -> Hr Hd Hdi Hn Hs Hov. unfold distributePts.
    destruct rest as [|p1 rest]; [congruence|].
    rewrite as_int_ok by (unfold INT_MIN, INT_MAX in *; lia). cbn [obind].
    apply omap_pure. intros r Hr'. apply in_seq in Hr'.
    apply takePortion_spec; try assumption. lia.
  Qed.

  Lemma slice_app_next (l : list A) a b c : (a <= b)%nat -> (b <= c)%nat -> (c <= length l)%nat ->
    slice a (b - a) l ++ slice b (c - b) l = slice a (c - a) l.
  Proof.
    intros Hab Hbc Hc. unfold slice.
    replace (skipn b l) with (skipn (b - a) (skipn a l)) by (rewrite skipn_skipn; f_equal; lia).
    set (m := skipn a l).
    replace (c - a)%nat with ((b - a) + (c - b))%nat by lia.
    rewrite <- (firstn_skipn (b - a) (firstn ((b - a) + (c - b)) m)).
    rewrite firstn_firstn. replace (Nat.min (b - a) ((b - a) + (c - b))) with (b - a)%nat by lia.
    f_equal. rewrite skipn_firstn_comm. f_equal. lia.
  Qed.

  Lemma slices_concat (l : list A) (b : nat -> nat) n :
    b 0%nat = 0%nat -> b n = length l -> (forall r, (r < n)%nat -> (b r <= b (S r) <= length l)%nat) ->
    concat (map (fun r => slice (b r) (b (S r) - b r) l) (seq 0 n)) = l.
  Proof.
    intros H0 Hn Hm.
    assert (G : forall k, (k <= n)%nat ->
      concat (map (fun r => slice (b r) (b (S r) - b r) l) (seq 0 k)) = slice 0 (b k) l).
    { induction k as [|k IH]; intros Hk.
      - cbn. rewrite H0. reflexivity.
      - rewrite seq_S, map_app, concat_app, IH by lia. cbn [map concat Nat.add].
        rewrite app_nil_r.
        pose proof (slice_app_next l 0 (b k) (b (S k))) as S.
        rewrite !Nat.sub_0_r in S. apply S; pose proof (Hm k ltac:(lia)); lia. }
    rewrite G by lia. unfold slice. rewrite Hn. cbn [skipn]. apply firstn_all.
  Qed.

  Lemma bound_0 (root : list A) dim n : (0 < n)%nat -> bound root dim n 0 = 0%nat.
  Proof.
    intros H. unfold bound. destruct (Nat.eqb_spec 0 n); [lia|].
    rewrite Nat.mul_0_l, Nat.div_0_l by lia. lia.
  Qed.
  Lemma bound_n (root : list A) dim n : bound root dim n n = length root.
  Proof. unfold bound. rewrite Nat.eqb_refl. reflexivity. Qed.

  Lemma distribute_concat (root : list A) dim n : (0 < dim)%nat -> (0 < n)%nat ->
    concat (map (fun r => slice (bound root dim n r) (bound root dim n (S r) - bound root dim n r) root)
                (seq 0 n)) = root.
  Proof.
    intros Hd Hn. apply slices_concat; [apply bound_0; lia | apply bound_n | intros r Hr; apply bound_mono; lia].
  Qed.
End Distribute.

Section Collect.
  Context {A : Type} (d0 : A).

  Lemma sumSizes_spec sizes : Z.of_nat (sum_list sizes) <= INT_MAX ->
    sumSizes sizes = Done (Z.of_nat (sum_list sizes)).
  Proof.
    intros H. unfold sumSizes.
    assert (G : forall acc, 0 <= acc -> acc + Z.of_nat (sum_list sizes) <= INT_MAX ->
      ofold (fun acc p => as_int (acc + Z.of_nat p)) sizes acc = Done (acc + Z.of_nat (sum_list sizes))).
    { clear H. induction sizes as [|a r IH]; intros acc Ha H; cbn [ofold].
      - f_equal. cbn. lia.
      - rewrite sum_list_cons in *. rewrite as_int_ok by (unfold INT_MIN; lia). cbn [obind].
        rewrite IH by lia. f_equal. lia. }
    rewrite G; [f_equal|lia|]; lia.
  Qed.

  Lemma collectDispls_spec sizes :
    collectDispls sizes = Done (map (fun i => sum_list (firstn i sizes)) (seq 0 (length sizes))).
  Proof.
    unfold collectDispls. set (n := length sizes).
    rewrite (repeat_map_seq 0%nat n 0).
    assert (G : forall k, (k <= n - 1)%nat ->
      ofold (fun d i => do a <- mread sizes (i - 1); do b <- mread d (i - 1); mwrite d i (a + b)%nat)
        (seq 1 k) (map (fun _ => 0%nat) (seq 0 n))
      = Done (map (fun i => if (i <=? k)%nat then sum_list (firstn i sizes) else 0%nat) (seq 0 n))).
    { induction k as [|k IH]; intros Hk.
      - cbn [seq ofold]. f_equal. apply map_ext. intros i. destruct i; reflexivity.
      - rewrite seq_S, ofold_app, IH by lia. cbn [obind ofold Nat.add].
        replace (S k - 1)%nat with k by lia.
        destruct (nth_error sizes k) as [a|] eqn:E.
        2:{ apply nth_error_None in E. fold n in E. lia. }
        unfold mread at 1. rewrite E. cbn [obind].
        rewrite mread_map_seq by lia. cbn [obind].
        rewrite Nat.leb_refl. rewrite mwrite_map_seq by lia. cbn [obind]. f_equal.
        apply map_ext. intros i.
        destruct (Nat.eqb_spec i (S k)) as [->|Ei].
        + rewrite Nat.leb_refl. rewrite (sum_firstn_S _ _ _ E). lia.
        + destruct (Nat.leb_spec i k), (Nat.leb_spec i (S k)); try reflexivity; lia. }
    rewrite G by lia. f_equal. apply map_ext_in. intros i Hi. apply in_seq in Hi.
    destruct (Nat.leb_spec i (n - 1)); [reflexivity | lia].
  Qed.

  Lemma gatherv_spec (ranks : list (list A)) displs junk :
    displs = map (fun i => sum_list (firstn i (map (@length A) ranks))) (seq 0 (length ranks)) ->
    length junk = sum_list (map (@length A) ranks) ->
    MPI_Gatherv_root ranks (Build_vbuf junk (map (@length A) ranks) displs) = Done (concat ranks).
  Proof.
    intros -> HJ. unfold MPI_Gatherv_root. cbn [vcounts vdispls vdata].
    pose proof (place_blocks [] ranks junk HJ) as PB. cbn [app length] in PB. rewrite <- PB.
    apply ofold_ext_in. intros s buf Hs. apply in_seq in Hs.
    destruct (mread ranks s); cbn [obind]; try reflexivity.
    destruct (mread (map (@length A) ranks) s); cbn [obind]; try reflexivity.
    rewrite mread_map_seq by lia. unfold mread.
    rewrite nth_error_map, psum_nth by (rewrite map_length; lia). reflexivity.
  Qed.

  Lemma collect_spec (ranks : list (list A)) :
    Z.of_nat (sum_list (map (@length A) ranks)) <= INT_MAX ->
    collectPts d0 ranks
    = Done (match ranks with [] => [] | _ => concat ranks :: map (fun _ => []) (tl ranks) end).
  Proof.
    intros H. destruct ranks as [|p [|q rest]].
    - reflexivity.
    - cbn. rewrite app_nil_r. reflexivity.
    - unfold collectPts. set (ranks := p :: q :: rest) in *.
      rewrite sumSizes_spec by assumption. cbn [obind].
      rewrite collectDispls_spec. cbn [obind].
      rewrite gatherv_spec.
      + reflexivity.
      + rewrite map_length. reflexivity.
      + rewrite repeat_length. lia.
  Qed.

  Lemma collectAll_spec (ranks : list (list A)) :
    Z.of_nat (sum_list (map (@length A) ranks)) <= INT_MAX ->
    collectPtsAll d0 ranks = Done (map (fun _ => concat ranks) ranks).
  Proof.
    intros H. unfold collectPtsAll. rewrite collect_spec by assumption. cbn [obind].
    destruct ranks as [|p rest]; [reflexivity|].
    rewrite as_int_ok.
    2:{ rewrite concat_length. unfold INT_MIN. lia. }
    cbn [obind tl map]. rewrite map_map. reflexivity.
  Qed.
End Collect.

(** ** The int overflow of distributePts *)

Lemma omap_UB {A B} (f : A -> outcome B) l :
  (forall a, In a l -> f a <> NoFuel) -> (exists a, In a l /\ f a = UB) -> omap f l = UB.
Proof.
  induction l as [|a r IH]; intros H (x & Hx & E); [destruct Hx|]. cbn [omap].
  destruct (f a) eqn:Ea; cbn [obind].
  - rewrite IH; [reflexivity | intros b Hb; apply H; now right |].
    destruct Hx as [->|Hx]; [congruence | eauto].
  - reflexivity.
  - exfalso. apply (H a); [now left | assumption].
Qed.

Lemma blockIndex_total d k p n : blockIndex d k p n <> NoFuel.
Proof.
  unfold blockIndex, as_int. destruct (_ && _); cbn [obind]; [|discriminate].
  unfold double_to_int, as_int. destruct (f_finite _); [destruct (_ && _)|]; discriminate.
Qed.

Lemma takePortion_total {A} (pts : list A) d r n : takePortion pts d r n <> NoFuel.
Proof.
  unfold takePortion. destruct (d =? 0); [discriminate|].
  pose proof (blockIndex_total d r (Z.quot (Z.of_nat (length pts)) d) n) as H1.
  destruct (blockIndex d r _ n); cbn [obind]; try congruence.
  unfold as_int. destruct (_ && _); cbn [obind]; [|discriminate].
  pose proof (blockIndex_total d (r + 1) (Z.quot (Z.of_nat (length pts)) d) n) as H2.
  destruct (blockIndex d (r + 1) _ n); cbn [obind]; try congruence.
  destruct (_ && _); discriminate.
Qed.

Lemma distribute_overflow {A} (root : list A) rest dim :
  rest <> [] -> (0 < dim)%nat -> Z.of_nat (length (root :: rest)) <= INT_MAX ->
  Z.of_nat (length root) <= INT_MAX ->
  INT_MAX < Z.of_nat (length (root :: rest)) * (Z.of_nat (length root) / Z.of_nat dim) ->
  distributePts (Z.of_nat dim) (root :: rest) = UB.
Proof.
  intros Hr Hd Hn Hs Hov. unfold distributePts. destruct rest as [|q rest]; [congruence|].
  rewrite as_int_ok by (unfold INT_MIN, INT_MAX in *; lia). cbn [obind].
  set (n := length (root :: q :: rest)) in *.
  apply omap_UB; [intros; apply takePortion_total|].
  exists (n - 1)%nat. split; [apply in_seq; cbn in n; lia|].
  unfold takePortion. destruct (Z.eqb_spec (Z.of_nat dim) 0); [lia|].
  rewrite (Z.quot_div_nonneg (Z.of_nat (length root)) (Z.of_nat dim)) by lia.
  pose proof (blockIndex_total (Z.of_nat dim) (Z.of_nat (n - 1)) (Z.of_nat (length root) / Z.of_nat dim) (Z.of_nat n)) as T.
  destruct (blockIndex _ (Z.of_nat (n - 1)) _ _); cbn [obind]; try congruence.
  rewrite as_int_ok by (unfold INT_MIN, INT_MAX in *; lia). cbn [obind].
  unfold blockIndex at 1.
  replace (Z.of_nat (n - 1) + 1) with (Z.of_nat n) by (subst n; cbn [length] in *; lia).
  rewrite as_int_UB by assumption. reflexivity.
Qed.

(** evenness: every block boundary is a whole number of points and the number of
    points per block is floor or ceiling of the average *)
Lemma blocks_even N n r : (0 < n)%nat ->
  let c := (S r * N / n - r * N / n)%nat in (N / n <= c <= N / n + 1)%nat.
Proof.
  intros Hn. cbv zeta.
  pose proof (Nat.div_mod N n ltac:(lia)) as D1. pose proof (Nat.mod_upper_bound N n ltac:(lia)).
  pose proof (Nat.div_mod (r * N) n ltac:(lia)) as D2. pose proof (Nat.mod_upper_bound (r * N) n ltac:(lia)).
  set (q := (N / n)%nat) in *. set (a := (r * N / n)%nat) in *.
  assert (L : (a + q <= S r * N / n)%nat).
  { apply Nat.div_le_lower_bound; [lia|]. nia. }
  assert (U : (S r * N / n < a + q + 2)%nat).
  { apply Nat.div_lt_upper_bound; [lia|]. nia. }
  lia.
Qed.
