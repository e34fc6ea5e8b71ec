From Coq Require Import List Arith ZArith Reals Lia Lra Bool Permutation Sorted.
From Flocq Require Import Core.
From Verif Require Import Outcome ListUtil MPIProofs RngProofs SortModel SortProofs PointsModel ParticleModel ParticleProofs IndexModel IndexProofs
  Arith ConModel ConSpec Overlay.
Import ListNotations.

(** ** reading and writing stress, reversing a block *)
Section Any.
  Context {N : arith}.

  Lemma list9 (s : list N) : length s = 9%nat -> exists a b c d e f g h i, s = [a; b; c; d; e; f; g; h; i].
  Proof. do 9 (destruct s as [|? s]; [discriminate|]). destruct s; [|discriminate]. intros _. repeat eexists. Qed.

  Lemma set_get_stress (b : block N) (m : mat3 N) : length (stress b) = 9%nat ->
    exists b', setStressMat b m = Done b' /\ getStressMat b' = Done m /\ length (stress b') = 9%nat /\
      b' = withGammaStress b (gamma b) (stress b').
  Proof.
    intros L. destruct (list9 _ L) as (a0 & a1 & a2 & a3 & a4 & a5 & a6 & a7 & a8 & E).
    destruct m as [[? ? ?] [? ? ?] [? ? ?]]. unfold setStressMat. rewrite E. eexists. split; [reflexivity|].
    split; [reflexivity|]. split; reflexivity.
  Qed.

  Lemma set_ptr_stress (b : block N) (s : list N) : length (stress b) = 9%nat -> length s = 9%nat ->
    setStressPtr b s = Done (withGammaStress b (gamma b) s).
  Proof.
    intros L L'. destruct (list9 _ L) as (a0 & a1 & a2 & a3 & a4 & a5 & a6 & a7 & a8 & E).
    destruct (list9 _ L') as (b0 & b1 & b2 & b3 & b4 & b5 & b6 & b7 & b8 & E').
    unfold setStressPtr. rewrite E, E'. reflexivity.
  Qed.

  Lemma get_stress (b : block N) : length (stress b) = 9%nat ->
    getStressMat b = Done (mkmat (fun i j => nth (i * 3 + j) (stress b) (a_Z 0))).
  Proof.
    intros L. destruct (list9 _ L) as (a0 & a1 & a2 & a3 & a4 & a5 & a6 & a7 & a8 & E).
    unfold getStressMat. rewrite E. reflexivity.
  Qed.

  (** ** assembly *)
  Definition six (g : Z) (n p : vec N) : list (Z * N) :=
    let c := (6 * g)%Z in
    [(c, vx n); ((c + 1)%Z, vy n); ((c + 2)%Z, vz n);
     ((c + 3)%Z, a_sub (a_mul (vz n) (vy p)) (a_mul (vy n) (vz p)));
     ((c + 4)%Z, a_sub (a_mul (vx n) (vz p)) (a_mul (vz n) (vx p)));
     ((c + 5)%Z, a_sub (a_mul (vy n) (vx p)) (a_mul (vx n) (vy p)))].
  Definition bent (b : block N) : list (Z * N) :=
    six (globalIndexI b) (normI b) (posI b) ++
    if oneSide b then [] else six (globalIndexJ b) (normJ b) (posJ b).
  Notation idx_ok := index_fits.
  Notation block_ok := block_fits.

  Lemma as_int_ok z : (0 <= z <= INT_MAX)%Z -> as_int z = Done z.
  Proof.
    intros H. unfold as_int. unfold INT_MIN, INT_MAX in *.
    repeat match goal with |- context [(?a <=? ?b)%Z] => destruct (Z.leb_spec a b) | |- context [(?a <? ?b)%Z] => destruct (Z.ltb_spec a b) end; cbn; try reflexivity; lia.
  Qed.

  Lemma sixEntries_ok g n p : idx_ok g -> sixEntries g n p = Done (six g n p).
  Proof.
    unfold index_fits. intros H. unfold sixEntries. rewrite as_int_ok by (unfold INT_MAX; lia). cbn [obind].
    rewrite as_int_ok by (unfold INT_MAX; lia). reflexivity.
  Qed.

  Lemma bent_length b : length (bent b) = cBlockNNZ b.
  Proof. unfold bent, cBlockNNZ. destruct (oneSide b); reflexivity. Qed.

  Lemma fillBlock_ok m kk b : block_ok b ->
    fillBlock (m, kk) b = (do m' <- splice m kk (bent b); Done (m', kk + length (bent b))%nat).
  Proof.
    intros (HI & HJ). unfold fillBlock. rewrite sixEntries_ok by exact HI. cbn [obind]. unfold bent.
    destruct (oneSide b) eqn:EO.
    - rewrite app_nil_r. reflexivity.
    - rewrite sixEntries_ok by (apply HJ; reflexivity). cbn [obind].
      rewrite <- splice_splice. change (length (six (globalIndexI b) (normI b) (posI b))) with 6%nat.
      destruct (splice m kk (six (globalIndexI b) (normI b) (posI b))); cbn [obind]; try reflexivity.
      destruct (splice a (kk + 6) (six (globalIndexJ b) (normJ b) (posJ b))); cbn [obind]; try reflexivity.
      do 2 f_equal. cbn [app length six]. lia.
  Qed.

  Lemma fillQueue_ok q : forall m kk, Forall block_ok q -> (kk <= length m)%nat ->
    ofold fillBlock q (m, kk) =
    (do m' <- splice m kk (concat (map bent q)); Done (m', kk + length (concat (map bent q)))%nat).
  Proof.
    induction q as [|b q IH]; intros m kk HF H.
    - cbn [map concat ofold]. rewrite splice_nil by exact H. cbn. rewrite Nat.add_0_r. reflexivity.
    - inversion HF as [|? ? Hb HF']; subst. cbn [ofold map concat]. rewrite fillBlock_ok by exact Hb.
      rewrite <- splice_splice. destruct (splice m kk (bent b)) as [m1| |] eqn:E1; cbn [obind]; try reflexivity.
      destruct (splice_nth _ _ _ _ E1) as (L1 & _).
      rewrite IH; [|exact HF'|].
      + destruct (splice m1 (kk + length (bent b)) (concat (map bent q))); cbn [obind]; try reflexivity.
        rewrite app_length. do 2 f_equal. lia.
      + unfold splice in E1. destruct (Nat.leb_spec (kk + length (bent b)) (length m)); [lia|discriminate].
  Qed.

  Definition qent (q : list (block N)) := concat (map bent q).

  Lemma qent_length q : length (qent q) = sum_list (map cBlockNNZ q).
  Proof. unfold qent. rewrite concat_length, map_map. f_equal. apply map_ext. apply bent_length. Qed.

  Lemma concat_qent (p : pool N) : concat (map qent p) = concat (map bent (concat p)).
  Proof.
    induction p as [|q p IH]; [reflexivity|]. cbn [map concat]. rewrite IH, map_app, concat_app. reflexivity.
  Qed.

  Lemma perm_in order n : Permutation order (seq 0 n) -> forall t, In t order <-> t < n.
  Proof.
    intros Hp t. split; intros H.
    - apply (Permutation_in _ Hp) in H. apply in_seq in H. lia.
    - apply (Permutation_in _ (Permutation_sym Hp)). apply in_seq. lia.
  Qed.

  Lemma ofold_ext_inv {A S} (P : S -> Prop) (f g : S -> A -> outcome S) l :
    (forall a s, In a l -> P s -> f s a = g s a) ->
    (forall a s s', In a l -> P s -> g s a = Done s' -> P s') ->
    forall s, P s -> ofold f l s = ofold g l s.
  Proof.
    induction l as [|a l IH]; intros He Hs s HP; [reflexivity|]. cbn [ofold].
    rewrite He by (auto; left; reflexivity). destruct (g s a) eqn:E; cbn [obind]; try reflexivity.
    apply IH.
    - intros a' s' Ha. apply He. right. exact Ha.
    - intros a' s' s'' Ha. apply Hs. right. exact Ha.
    - eapply Hs; [left; reflexivity|exact HP|exact E].
  Qed.

  Lemma fillMatrix_ok order junk (p : pool N) :
    Permutation order (seq 0 (length p)) -> Forall (Forall block_ok) p ->
    fillMatrix order junk p = Done (psum (map cBlockNNZ (concat p)), concat (map bent (concat p))).
  Proof.
    intros Hp HF. unfold fillMatrix. set (Qs := map qent p).
    assert (Et : last (psum (map cBlockNNZ (concat p))) 0%nat = length (concat Qs)).
    { rewrite psum_last. unfold Qs. rewrite concat_qent, concat_length, map_map. f_equal. apply map_ext. intros b. symmetry. apply bent_length. }
    rewrite Et.
    rewrite (ofold_ext_inv (fun m => length m = length (concat Qs)) _ (fun m t => splice m (off Qs t) (nth t Qs []))).
    - rewrite splice_order.
      + cbn [obind]. unfold Qs. rewrite concat_qent. reflexivity.
      + intros t. unfold Qs. rewrite map_length. apply perm_in, Hp.
      + intros t. unfold Qs. rewrite map_length. apply perm_in, Hp.
      + apply repeat_length.
    - intros t m Ht Hm. apply (perm_in _ _ Hp) in Ht.
      destruct (nth_error p t) as [q|] eqn:Eq; [|apply nth_error_None in Eq; lia].
      unfold mread at 1. rewrite Eq. cbn [obind].
      assert (Eo : off Qs t = sum_list (firstn t (map (fun q => sum_list (map cBlockNNZ q)) p))).
      { unfold off, Qs. rewrite firstn_map, map_map, firstn_map. f_equal. apply map_ext. intros. apply qent_length. }
      rewrite mread_psum by (rewrite map_length; lia). cbn [obind]. rewrite <- Eo.
      assert (EQ : nth_error Qs t = Some (qent q)) by (unfold Qs; rewrite nth_error_map, Eq; reflexivity).
      pose proof (off_bound Qs t _ EQ) as HB.
      rewrite fillQueue_ok; [|rewrite Forall_forall in HF; apply HF; eapply nth_error_In; exact Eq|lia].
      rewrite (nth_error_nth _ _ [] EQ). unfold qent. destruct (splice m (off Qs t) (concat (map bent q))); reflexivity.
    - intros t m m' _ Hm E. destruct (splice_nth _ _ _ _ E). congruence.
    - apply repeat_length.
  Qed.

  Lemma getLocalElement_in m c : In c m -> exists l, getLocalElement m c = Some l /\ nth l m (-1)%Z = c /\ (l < length m)%nat.
  Proof.
    induction m as [|x m IH]; intros H; [destruct H|]. cbn [getLocalElement].
    destruct (Z.eqb_spec x c) as [->|C].
    - exists 0%nat. cbn. split; [reflexivity|]. split; [reflexivity|lia].
    - destruct H as [|H]; [contradiction|]. destruct (IH H) as (l & -> & E & L). exists (S l). cbn. split; [reflexivity|]. split; [exact E|lia].
  Qed.

  Lemma columnMap_ok lo hi cols : (hi - lo + 1 <= INT_MAX)%Z -> (lo <= hi + 1)%Z ->
    exists cm, columnMap lo hi cols = Done cm /\ NoDup cm /\ forall c, In c cm <-> In c cols \/ (lo <= c <= hi)%Z.
  Proof.
    intros H1 H2. unfold columnMap, zrange. rewrite as_int_ok by lia. cbn [obind].
    destruct (Z.ltb_spec (hi - lo + 1) 0); [lia|]. cbn [obind]. eexists. split; [reflexivity|]. split.
    - pose proof (unique_sorted _ (stable_sort_Z_sorted (map (fun i : nat => (lo + Z.of_nat i)%Z) (seq 0 (Z.to_nat (hi - lo + 1)))
         ++ filter (fun c => (c <? lo)%Z || (hi <? c)%Z) cols))) as HS.
      revert HS. generalize (unique (stable_sort Z.ltb (map (fun i : nat => (lo + Z.of_nat i)%Z) (seq 0 (Z.to_nat (hi - lo + 1)))
         ++ filter (fun c => (c <? lo)%Z || (hi <? c)%Z) cols))).
      intros l HS. induction HS as [|a l HS IH HF]; constructor; [|exact IH].
      intros C. rewrite Forall_forall in HF. specialize (HF a C). lia.
    - intros c. rewrite unique_in.
      assert (PI : forall l, In c (stable_sort Z.ltb l) <-> In c l).
      { intros l. pose proof (stable_sort_perm Z.ltb l) as P. split; apply Permutation_in; [symmetry|]; exact P. }
      rewrite PI, in_app_iff, in_map_iff, filter_In.
      split.
      + intros [(i & <- & Hi)|(Hc & _)]; [|left; exact Hc]. apply in_seq in Hi. right. lia.
      + intros [Hc|Hc].
        * destruct (Z.ltb_spec c lo) as [C|C]; [right; auto|]. destruct (Z.ltb_spec hi c) as [D|D]; [right; auto|].
          left. exists (Z.to_nat (c - lo)). split; [lia|]. apply in_seq. lia.
        * left. exists (Z.to_nat (c - lo)). split; [lia|]. apply in_seq. lia.
  Qed.

  (** ** the row vectors *)
  Definition rowOf (b : block N) : conRow N :=
    fillRow b (ConRow (a_Z 0) (a_Z 0) (a_Z 0) (a_Z 0)).

  Lemma perm_map_concat {A} (f : nat -> list A) order n :
    Permutation order (seq 0 n) -> Permutation (concat (map f order)) (concat (map f (seq 0 n))).
  Proof. intros H. apply concat_perm, Permutation_map, H. Qed.

  Lemma map_const_repeat {A} (x : A) n : repeat x n = map (fun _ => x) (seq 0 n).
  Proof. generalize 0%nat. induction n as [|n IH]; intros s; cbn; [reflexivity|]. f_equal. apply IH. Qed.

  Lemma fillVectors_ok order (p : pool N) :
    Permutation order (seq 0 (length p)) -> fillVectors order p = Done (map rowOf (concat p)).
  Proof.
    intros Hp. unfold fillVectors, buildConIndex. cbn [snd].
    set (z := ConRow (a_Z 0) (a_Z 0) (a_Z 0) (a_Z 0)).
    rewrite psum_last, <- concat_length.
    destruct (concat p) as [|b0 bs] eqn:EC.
    { (* no block at all *)
      cbn [length repeat map].
      assert (Hnil : forall q, In q p -> q = []).
      { intros q Hq. destruct q as [|b q]; [reflexivity|]. exfalso. apply (in_nil (a := b)). rewrite <- EC. apply in_concat. exists (b :: q). split; [exact Hq|left; reflexivity]. }
      assert (HH : forall t, In t order -> t < length p) by (apply perm_in; exact Hp).
      clear Hp. induction order as [|t order IH]; [reflexivity|]. cbn [ofold].
      assert (Ht : t < length p) by (apply HH; left; reflexivity).
      destruct (nth_error p t) as [q|] eqn:Eq; [|apply nth_error_None in Eq; lia].
      unfold mread at 1. rewrite Eq. cbn [obind]. rewrite mread_psum by (rewrite map_length; lia). cbn [obind].
      rewrite (Hnil q) by (eapply nth_error_In; exact Eq). cbn [length seq ofold obind]. apply IH. intros t' H'. apply HH. right. exact H'. }
    rewrite <- EC. clear EC bs. rewrite (map_const_repeat z).
    transitivity (ofold (fun v t => ofold (fun v idx => do old <- mread v idx; do w <- Done (fillRow (nth idx (concat p) b0) old); mwrite v idx w)
       (map (fun j => off p t + j)%nat (seq 0 (length (nth t p [])))) v) order (map (fun _ => z) (seq 0 (length (concat p))))).
    { apply ofold_ext_in. intros t v Ht. apply (perm_in _ _ Hp) in Ht.
      destruct (nth_error p t) as [q|] eqn:Eq; [|apply nth_error_None in Eq; lia].
      unfold mread at 1. rewrite Eq. cbn [obind]. rewrite mread_psum by (rewrite map_length; lia). cbn [obind].
      rewrite (nth_error_nth _ _ [] Eq), ofold_map, firstn_map. apply ofold_ext_in. intros j w Hj. apply in_seq in Hj.
      fold (off p t). pose proof (nth_error_concat p t q j Eq ltac:(lia)) as EN.
      destruct (nth_error q j) as [b|] eqn:Eb; [|apply nth_error_None in Eb; lia].
      unfold mread at 1. rewrite Eb. cbn [obind]. rewrite (nth_error_nth _ _ b0 EN). reflexivity. }
    rewrite <- ofold_map with (g := fun t => map (fun j => (off p t + j)%nat) (seq 0 (length (nth t p []))))
       (f := fun v l => ofold (fun v idx => do old <- mread v idx; do w <- Done (fillRow (nth idx (concat p) b0) old); mwrite v idx w) l v).
    rewrite <- ofold_concat.
    rewrite inplace_all with (h := fun idx => rowOf (nth idx (concat p) b0)).
    - f_equal. rewrite <- (map_map (fun idx => nth idx (concat p) b0) rowOf). rewrite nth_seq_id. reflexivity.
    - rewrite <- positions. apply perm_map_concat, Hp.
    - intros j Hj. reflexivity.
  Qed.

  (** ** write back *)
  Definition written (b : block N) (g : N) : block N := withGammaStress b g (map (fun s => a_mul s g) (stress b)).

  Lemma writeBack_queue (q : list (block N)) (g : list N) base : (base + length q <= length g)%nat ->
    ofold (fun q j => do b <- mread q j; do x <- mread g (base + j);
          mwrite q j (withGammaStress b x (map (fun s => a_mul s x) (stress b)))) (seq 0 (length q)) q
    = Done (map (fun bg => written (fst bg) (snd bg)) (combine q (slice base (length q) g))).
  Proof.
    intros H. destruct q as [|b0 q0]; [reflexivity|]. set (q := b0 :: q0) in *.
    destruct g as [|x0 g0]; [cbn in H; lia|]. set (g := x0 :: g0) in *.
    transitivity (ofold (fun q j => do b <- mread q j; do v <- (do x <- mread g (base + j); Done (written b x)); mwrite q j v)
      (seq 0 (length q)) q).
    { apply ofold_ext_in. intros j s _. destruct (mread s j); cbn [obind]; try reflexivity.
      destruct (mread g (base + j)); reflexivity. }
    rewrite (inplace_list b0) with (h := fun j => written (nth j q b0) (nth (base + j) g x0)); [|reflexivity|].
    - f_equal. apply nth_error_ext. intros i. destruct (Nat.lt_ge_cases i (length q)) as [C|C].
      + rewrite nth_error_map_seq by exact C. rewrite nth_error_map.
        assert (EG : nth_error (slice base (length q) g) i = Some (nth (base + i) g x0)).
        { unfold slice. rewrite nth_error_firstn_lt by exact C. rewrite nth_error_skipn_add. apply nth_error_nth'. lia. }
        assert (EQ : nth_error q i = Some (nth i q b0)) by (apply nth_error_nth'; exact C).
        revert EG EQ. generalize (slice base (length q) g) as s. generalize q as l. generalize (nth (base + i) g x0) as y. generalize (nth i q b0) as b.
        clear. intros b y l. revert i. induction l as [|a l IH]; intros [|i] [|s0 s]; cbn; try discriminate; intros E1 E2.
        * congruence.
        * apply IH; assumption.
      + transitivity (@None (block N)); [|symmetry]; apply nth_error_None.
        * rewrite map_length, seq_length. exact C.
        * rewrite map_length, combine_length. lia.
    - intros j Hj. unfold mread. rewrite (nth_error_nth' _ x0) by lia. reflexivity.
  Qed.

  Lemma writeBack_ok order (g : list N) (p : pool N) :
    Permutation order (seq 0 (length p)) -> length g = length (concat p) ->
    writeBackGamma order g p = Done (map (fun t => map (fun bg => written (fst bg) (snd bg))
      (combine (nth t p []) (slice (off p t) (length (nth t p [])) g))) (seq 0 (length p))).
  Proof.
    intros Hp Hg. unfold writeBackGamma, buildConIndex. cbn [snd].
    transitivity (ofold (fun s i => do q <- mread s i;
        do v <- (do base <- mread (psum (map (@length _) p)) i;
          ofold (fun q j => do b <- mread q j; do x <- mread g (base + j);
             mwrite q j (withGammaStress b x (map (fun s => a_mul s x) (stress b)))) (seq 0 (length q)) q);
        mwrite s i v) order p).
    { apply ofold_ext_in. intros i s _. destruct (mread s i); cbn [obind]; try reflexivity.
      destruct (mread (psum (map (@length _) p)) i); reflexivity. }
    apply (inplace_list []); [exact Hp|]. intros t Ht.
    rewrite mread_psum by (rewrite map_length; lia). cbn [obind]. rewrite firstn_map. fold (off p t).
    apply writeBack_queue. rewrite Hg. apply off_bound. apply nth_error_nth'. exact Ht.
  Qed.

  Lemma combine_app_same {A B} (a1 a2 : list A) (b1 b2 : list B) : length a1 = length b1 ->
    combine (a1 ++ a2) (b1 ++ b2) = combine a1 b1 ++ combine a2 b2.
  Proof. revert b1. induction a1 as [|a a1 IH]; intros [|b b1] H; try discriminate; [reflexivity|]. cbn. f_equal. apply IH. cbn in H. lia. Qed.

  Lemma combine_queues {A B} (p : list (list A)) (g : list B) : length g = length (concat p) ->
    concat (map (fun t => combine (nth t p []) (slice (off p t) (length (nth t p [])) g)) (seq 0 (length p)))
    = combine (concat p) g.
  Proof.
    revert g. induction p as [|q p IH]; intros g H; [destruct g; reflexivity|].
    cbn [length seq map concat]. cbn [concat] in H. rewrite app_length in H.
    transitivity (combine (q ++ concat p) (firstn (length q) g ++ skipn (length q) g)); [|rewrite firstn_skipn; reflexivity].
    rewrite combine_app_same by (rewrite firstn_length; lia). apply (f_equal2 (@app _)).
    - reflexivity.
    - rewrite <- IH by (rewrite skipn_length; lia). rewrite <- seq_shift, map_map. f_equal. apply map_ext. intros t. cbn [nth].
      f_equal. unfold off. rewrite firstn_cons. cbn [map]. rewrite sum_list_cons. unfold slice.
      f_equal. generalize (sum_list (map (length (A:=A)) (firstn t p))) as k. generalize (length q) as n. clear. 
      intros n. revert g. induction n as [|n IHn]; intros g k; [reflexivity|]. destruct g; cbn [skipn plus]; [destruct k; reflexivity|]. apply IHn.
  Qed.
End Any.

Lemma build_ok {N : arith} order1 order2 junk lo hi (p : pool N) :
  Permutation order1 (seq 0 (length p)) -> Permutation order2 (seq 0 (length p)) ->
  Forall (Forall block_fits) p -> (lo <= hi + 1)%Z -> (hi - lo + 1 <= INT_MAX)%Z ->
  exists m, buildConstraintMatrixVector order1 order2 junk lo hi p = Done (m, map rowOf (concat p)) /\
    rowPtr m = psum (map cBlockNNZ (concat p)) /\ NoDup (colMap m) /\ length (entries m) = last (rowPtr m) 0%nat /\
    (forall c, In c (colMap m) <-> In c (map fst (concat (map bent (concat p)))) \/ (lo <= c <= hi)%Z) /\
    Forall (fun e => (fst e < length (colMap m))%nat) (entries m) /\
    forall i b, nth_error (concat p) i = Some b -> crsRow m i = bent b.
Proof.
  intros H1 H2 HF Hlo Hn. unfold buildConstraintMatrixVector. rewrite fillMatrix_ok by assumption. cbn [obind fst snd].
  set (T := concat (map bent (concat p))).
  destruct (columnMap_ok lo hi (map fst T) Hn Hlo) as (cm & Ec & Nd & Hin). rewrite Ec. cbn [obind].
  set (f := fun e : Z * N => match getLocalElement cm (fst e) with Some l => (l, snd e) | None => (0%nat, snd e) end).
  assert (Hf : forall e, In e T -> match getLocalElement cm (fst e) with Some l => Done (l, snd e) | None => UB end = Done (f e)
             /\ (nth (fst (f e)) cm (-1)%Z, snd (f e)) = e /\ (fst (f e) < length cm)%nat).
  { intros e He. destruct (getLocalElement_in cm (fst e)) as (l & El & Enl & Ll).
    { apply Hin. left. apply in_map, He. }
    unfold f. rewrite El. cbn [fst snd]. split; [reflexivity|]. split; [rewrite Enl; destruct e; reflexivity|exact Ll]. }
  rewrite (omap_ext_in _ (fun e => Done (f e))) by (intros e He; apply Hf, He).
  rewrite (omap_pure (fun e => Done (f e)) f) by reflexivity. cbn [obind]. rewrite fillVectors_ok by assumption. cbn [obind].
  eexists. split; [reflexivity|]. cbn [rowPtr entries colMap]. split; [reflexivity|]. split; [exact Nd|].
  split. { rewrite map_length, psum_last. unfold T. rewrite concat_length, map_map. f_equal. apply map_ext. apply bent_length. }
  split; [exact Hin|]. split.
  { apply Forall_forall. intros e He. apply in_map_iff in He. destruct He as (e0 & <- & He0). apply Hf, He0. }
  intros i b Ei. assert (Hi : (i < length (concat p))%nat) by (apply nth_error_Some; congruence).
  unfold crsRow. cbn [rowPtr entries colMap].
  rewrite (nth_error_nth _ _ 0%nat (psum_nth (map cBlockNNZ (concat p)) i ltac:(rewrite map_length; lia))).
  rewrite (nth_error_nth _ _ 0%nat (psum_nth (map cBlockNNZ (concat p)) (S i) ltac:(rewrite map_length; lia))).
  rewrite (sum_firstn_S _ i (cBlockNNZ b)) by (rewrite nth_error_map, Ei; reflexivity).
  rewrite (Nat.add_comm _ (cBlockNNZ b)), Nat.add_sub.
  rewrite <- bent_length.
  assert (Eo : sum_list (firstn i (map cBlockNNZ (concat p))) = sum_list (map (@length _) (firstn i (map bent (concat p))))).
  { rewrite !firstn_map, map_map. f_equal. apply map_ext. intros. symmetry. apply bent_length. }
  rewrite Eo. unfold slice. rewrite skipn_map, firstn_map, map_map. fold (slice (sum_list (map (@length _) (firstn i (map bent (concat p))))) (length (bent b)) T).
  unfold T. rewrite slice_concat by (rewrite nth_error_map, Ei; reflexivity).
  rewrite <- (map_id (bent b)) at 2. apply map_ext_in. intros e He. apply Hf.
  unfold T. apply in_concat. exists (bent b). split; [|exact He]. apply in_map. eapply nth_error_In. exact Ei.
Qed.

(** ** sums over the reals *)
Local Open Scope R_scope.

Lemma fold_left_Rplus l : forall a, fold_left Rplus l a = a + Rsum l.
Proof. induction l as [|x l IH]; intros a; cbn [fold_left Rsum fold_right]; [lra|]. rewrite IH. unfold Rsum. lra. Qed.

Lemma Rsum_app l1 l2 : Rsum (l1 ++ l2) = Rsum l1 + Rsum l2.
Proof. unfold Rsum. induction l1 as [|x l IH]; cbn; [lra|]. rewrite IH. lra. Qed.

Lemma Rsum_concat ls : Rsum (concat ls) = Rsum (map Rsum ls).
Proof. induction ls as [|l ls IH]; cbn [concat map]; [reflexivity|]. rewrite Rsum_app, IH. reflexivity. Qed.

Lemma Rsum_perm l1 l2 : Permutation l1 l2 -> Rsum l1 = Rsum l2.
Proof. unfold Rsum. intros P. induction P; cbn; lra. Qed.

Lemma six_load g (n p : vec R) x body d : (d < 6)%nat ->
  Rsum (map (fun e : Z * R => if (fst e =? 6 * body + Z.of_nat d)%Z then snd e * x else 0) (@six R_arith g n p)) =
  if (g =? body)%Z then load n p x d else 0.
Proof.
  intros Hd. unfold six. cbn [map Rsum fold_right fst snd]. rarith.
  destruct (Z.eqb_spec g body) as [->|C].
  - do 6 (destruct d as [|d]; [
      repeat match goal with |- context [(?a =? ?b)%Z] => destruct (Z.eqb_spec a b); try lia end;
      cbn; unfold Rsum; cbn; ring|]). lia.
  - repeat match goal with |- context [(?a =? ?b)%Z] => destruct (Z.eqb_spec a b); [lia|] end. lra.
Qed.

Lemma bent_load (b : block R_arith) x body d : (d < 6)%nat ->
  Rsum (map (fun e : Z * R => if (fst e =? 6 * body + Z.of_nat d)%Z then snd e * x else 0) (bent b)) = block_load b x body d.
Proof.
  intros Hd. unfold bent, block_load. rewrite map_app, Rsum_app. rewrite six_load by exact Hd. f_equal.
  destruct (oneSide b); cbn [negb andb]; [reflexivity|]. apply six_load, Hd.
Qed.

Lemma force_ok (m : crs R_arith) (bs : list (block R_arith)) xs body d : (d < 6)%nat -> length xs = length bs ->
  (forall i b, nth_error bs i = Some b -> crsRow m i = bent b) ->
  crsTransApply m xs (6 * body + Z.of_nat d) = total_load bs xs body d.
Proof.
  intros Hd HL Hr. unfold crsTransApply, total_load. rarith. rewrite fold_left_Rplus, Rplus_0_l, Rsum_concat, map_map.
  assert (G : forall s bs, length xs = length bs -> (forall i b, nth_error bs i = Some b -> crsRow m (s + i) = bent b) ->
    Rsum (map (fun x : nat * R => Rsum (map (fun e : Z * R => if (fst e =? 6 * body + Z.of_nat d)%Z then snd e * snd x else 0) (crsRow m (fst x))))
      (combine (seq s (length xs)) xs)) =
    Rsum (map (fun bg => block_load (fst bg) (snd bg) body d) (combine bs xs))).
  { clear bs HL Hr. induction xs as [|x xs IH]; intros s [|b bs] HL Hr; try discriminate; [reflexivity|].
    cbn [length seq combine map Rsum fold_right fst snd]. f_equal.
    - pose proof (Hr 0%nat b eq_refl) as E. rewrite Nat.add_0_r in E. rewrite E. apply bent_load, Hd.
    - apply (IH (S s) bs); [cbn in HL; lia|]. intros i b' Eb. rewrite <- (Hr (S i) b' Eb). f_equal. lia. }
  apply G; [exact HL|exact Hr].
Qed.

(** ** virial stress *)
Lemma mget_mkmat {C} (f : nat -> nat -> C) i j : (i < 3)%nat -> (j < 3)%nat -> mget (mkmat f) i j = f i j.
Proof. intros Hi Hj. do 3 (destruct i as [|i]; [do 3 (destruct j as [|j]; [reflexivity|]); lia|]). lia. Qed.

Lemma mkmat_mget {C} (m : mat3 C) : mkmat (mget m) = m.
Proof. destruct m as [[? ? ?] [? ? ?] [? ? ?]]. reflexivity. Qed.

Lemma mkmat_ext {C} (f g : nat -> nat -> C) : (forall i j, (i < 3)%nat -> (j < 3)%nat -> f i j = g i j) -> mkmat f = mkmat g.
Proof. intros H. unfold mkmat. rewrite !H by lia. reflexivity. Qed.

Lemma queue_stress w (q : list (block R_arith)) : Forall (fun b => length (stress b) = 9%nat) q -> forall (u v : nat -> nat -> R),
  ofold (stressStep w) q (mkmat u : mat3 R_arith, mkmat v : mat3 R_arith) =
  Done (mkmat (fun i j => u i j + stress_sum w false q i j), mkmat (fun i j => v i j + stress_sum w true q i j)).
Proof.
  induction 1 as [|b q Hb _ IH]; intros u v.
  - cbn [ofold]. do 2 f_equal; apply mkmat_ext; intros i j _ _; unfold stress_sum; cbn; lra.
  - cbn [ofold]. unfold stressStep at 1. rewrite get_stress by exact Hb.
    assert (HS : forall bi i j, stress_sum w bi (b :: q) i j =
      (if counted w b && Bool.eqb (bilateral b) bi then comp i j b else 0) + stress_sum w bi q i j).
    { intros bi i j. unfold stress_sum. cbn [filter]. unfold Rsum. destruct (counted w b && Bool.eqb (bilateral b) bi); cbn [map fold_right]; lra. }
    unfold counted in HS. destruct (oneSide b), w; cbn [negb andb orb] in *; cbn [obind fst snd].
    all: try (rewrite IH; do 2 f_equal; apply mkmat_ext; intros i j Hi Hj; rewrite HS; lra).
    all: destruct (bilateral b); cbn [Bool.eqb] in HS; unfold madd;
      match goal with |- ofold _ _ (?a, ?b) = _ =>
        match a with mkmat ?x => match b with mkmat ?y => etransitivity; [exact (IH x y)|] end end end;
      do 2 f_equal; apply mkmat_ext; intros i j Hi Hj; rewrite HS; rarith; rewrite ?mget_mkmat by assumption; unfold comp; cbn [andb Bool.eqb]; first [lra | exact (Rplus_assoc _ _ _)].
Qed.

Lemma stress_ok order (p : pool R_arith) w :
  Permutation order (seq 0 (length p)) -> Forall (Forall (fun b => length (stress b) = 9%nat)) p ->
  sumLocalConstraintStress order p w =
  Done (mkmat (stress_sum w false (concat p)), mkmat (stress_sum w true (concat p))).
Proof.
  intros Hp HF. unfold sumLocalConstraintStress, mzero.
  assert (G : forall l (u v : nat -> nat -> R), (forall t, In t l -> (t < length p)%nat) ->
    ofold (fun tot que => do q <- mread p que; do s <- ofold (stressStep w) q (mkmat (fun _ _ => a_Z 0), mkmat (fun _ _ => a_Z 0));
      Done (madd (fst tot) (fst s), madd (snd tot) (snd s))) l (mkmat u : mat3 R_arith, mkmat v : mat3 R_arith) =
    Done (mkmat (fun i j => u i j + stress_sum w false (concat (map (fun t => nth t p []) l)) i j),
          mkmat (fun i j => v i j + stress_sum w true (concat (map (fun t => nth t p []) l)) i j))).
  { induction l as [|t l IH]; intros u v Hl.
    - cbn [ofold]. do 2 f_equal; apply mkmat_ext; intros; unfold stress_sum; cbn; lra.
    - assert (Ht : (t < length p)%nat) by (apply Hl; left; reflexivity). cbn [ofold].
      unfold mread at 1. rewrite (nth_error_nth' p []) by exact Ht. cbn [obind]. rewrite queue_stress.
      + cbn [obind fst snd]. unfold madd. 
        match goal with |- ofold _ _ (mkmat ?x, mkmat ?y) = _ => etransitivity; [exact (IH x y ltac:(intros t' Ht'; apply Hl; right; exact Ht'))|] end.
        assert (HA : forall bi i j, stress_sum w bi (concat (map (fun t0 => nth t0 p []) (t :: l))) i j =
          stress_sum w bi (nth t p []) i j + stress_sum w bi (concat (map (fun t0 => nth t0 p []) l)) i j).
        { intros bi i j. unfold stress_sum. cbn [map concat]. rewrite filter_app_, map_app, Rsum_app. reflexivity. }
        do 2 f_equal; apply mkmat_ext; intros i j Hi Hj; rewrite HA, ?mget_mkmat by assumption; rarith; lra.
      + rewrite Forall_forall in HF. apply HF. apply nth_In, Ht. }
  etransitivity; [exact (G order (fun _ _ => 0) (fun _ _ => 0) (fun t Ht => proj1 (perm_in _ _ Hp t) Ht))|].
  assert (HP : forall bi i j, stress_sum w bi (concat (map (fun t => nth t p []) order)) i j = stress_sum w bi (concat p) i j).
  { intros bi i j. transitivity (stress_sum w bi (concat (map (fun t => nth t p []) (seq 0 (length p)))) i j); [|rewrite <- map_seq_nth; reflexivity].
    unfold stress_sum. apply Rsum_perm. apply Permutation_map.
    assert (PC : Permutation (concat (map (fun t => nth t p []) order)) (concat (map (fun t => nth t p []) (seq 0 (length p))))) by (apply perm_map_concat, Hp).
    revert PC. generalize (concat (map (fun t => nth t p []) order)) (concat (map (fun t => nth t p []) (seq 0 (length p)))).
    intros l1 l2 PC. clear -PC. induction PC; cbn [filter].
    - constructor.
    - destruct (_ && _); [constructor|]; assumption.
    - destruct (counted w x && Bool.eqb (bilateral x) bi), (counted w y && Bool.eqb (bilateral y) bi); try reflexivity. constructor.
    - eapply Permutation_trans; eassumption. }
  do 2 f_equal; apply mkmat_ext; intros i j _ _; rewrite HP; lra.
Qed.

(** ** all ranks *)
Lemma map_range_slice {A} (g : list A) d k n : (k + n <= length g)%nat ->
  map (fun i => nth (Z.to_nat i) g d) (map Z.of_nat (seq k n)) = slice k n g.
Proof.
  intros H. rewrite map_map. apply nth_error_ext. intros i. destruct (Nat.lt_ge_cases i n) as [C|C].
  - rewrite nth_error_map, nth_error_seq by exact C. cbn [option_map]. rewrite Nat2Z.id.
    unfold slice. rewrite nth_error_firstn_lt by exact C. rewrite nth_error_skipn_add. symmetry. apply nth_error_nth'. lia.
  - transitivity (@None A); [|symmetry]; apply nth_error_None.
    + rewrite map_length, seq_length. exact C.
    + unfold slice. rewrite firstn_length. lia.
Qed.

Lemma global_force (pools : list (pool R_arith)) (mats : list (crs R_arith)) rows d0 gs body d :
  (forall r p, nth_error pools r = Some p -> forall i b, nth_error (concat p) i = Some b -> crsRow (nth r mats d0) i = bent b) ->
  getTMAPFromLocalSize (map (fun p => length (concat p)) pools) = Done rows ->
  length gs = length (concat (map (@concat _) pools)) -> (d < 6)%nat ->
  Rsum (map (fun r => crsTransApply (nth r mats d0) (map (fun i => nth (Z.to_nat i) gs 0) (nth r rows [])) (6 * body + Z.of_nat d)%Z)
            (seq 0 (length pools)))
  = total_load (concat (map (@concat _) pools)) gs body d.
Proof.
  intros Hm Hr Hg Hd. unfold getTMAPFromLocalSize in Hr. destruct (_ <? _)%Z in Hr; [discriminate|].
  assert (Er : rows = map (fun r => map Z.of_nat (seq (sum_list (firstn r (map (fun p => length (concat p)) pools)))
      (nth r (map (fun p => length (concat p)) pools) 0%nat))) (seq 0 (length pools))).
  { injection Hr as Hr. rewrite <- Hr, map_length. reflexivity. }
  clear Hr. set (Qs := map (@concat _) pools) in *.
  unfold total_load. rewrite <- (combine_queues Qs gs Hg), concat_map, Rsum_concat, !map_map.
  assert (LQ : length Qs = length pools) by apply map_length. rewrite LQ. f_equal. apply map_ext_in. intros r Hr. apply in_seq in Hr.
  destruct (nth_error pools r) as [p|] eqn:Ep; [|apply nth_error_None in Ep; lia].
  assert (EQ : nth_error Qs r = Some (concat p)) by exact (map_nth_error (@concat _) r pools Ep).
  rewrite (nth_error_nth _ _ [] EQ).
  assert (Eo : sum_list (firstn r (map (fun p => length (concat p)) pools)) = off Qs r).
  { unfold off, Qs. rewrite !firstn_map, map_map. reflexivity. }
  assert (Erow : nth r rows [] = map Z.of_nat (seq (off Qs r) (length (concat p)))).
  { rewrite Er. erewrite nth_error_nth; [|apply nth_error_map_seq; lia]. rewrite Eo. do 2 f_equal.
    apply nth_error_nth. exact (map_nth_error (fun p => length (concat p)) r pools Ep). }
  rewrite Erow, map_range_slice by (rewrite Hg; apply off_bound, EQ).
  rewrite (force_ok _ (concat p)); [reflexivity|exact Hd| |].
  - unfold slice. rewrite firstn_length, skipn_length. pose proof (off_bound Qs r _ EQ). lia.
  - intros i b Eb. apply (Hm r p Ep i b Eb).
Qed.

Lemma row_load {N : arith} (p : pool N) i x : nth_error (map rowOf (concat p)) i = Some x ->
  exists b, nth_error (concat p) i = Some b /\ x = rowOf b.
Proof. rewrite nth_error_map. destruct (nth_error (concat p) i) as [b|]; [|discriminate]. intros E. exists b. split; [reflexivity|]. cbn in E. congruence. Qed.

Lemma nth_error_combine {A B} (l1 : list A) : forall (l2 : list B) i a b,
  nth_error l1 i = Some a -> nth_error l2 i = Some b -> nth_error (combine l1 l2) i = Some (a, b).
Proof. induction l1 as [|x l1 IH]; intros [|y l2] [|i] a b; cbn; try discriminate; [congruence|apply IH]. Qed.

Lemma writeBack_spec {N : arith} order (g : list N) (p : pool N) :
  Permutation order (seq 0 (length p)) -> length g = length (concat p) ->
  exists p', writeBackGamma order g p = Done p' /\ map (@length _) p' = map (@length _) p /\
    forall i b x, nth_error (concat p) i = Some b -> nth_error g i = Some x ->
      exists b', nth_error (concat p') i = Some b' /\ scaled b x b'.
Proof.
  intros Hp Hg. eexists. split; [apply writeBack_ok; assumption|]. split.
  - rewrite map_map. apply nth_error_ext. intros t. destruct (Nat.lt_ge_cases t (length p)) as [C|C].
    + rewrite nth_error_map_seq by exact C. rewrite nth_error_map.
      pose proof (nth_error_nth' p [] C) as E. rewrite E. cbn [option_map]. f_equal.
      rewrite map_length, combine_length. unfold slice. rewrite firstn_length, skipn_length.
      pose proof (off_bound p t _ E). lia.
    + transitivity (@None nat); [|symmetry]; apply nth_error_None; rewrite map_length, ?seq_length; exact C.
  - intros i b x Eb Ex.
    rewrite <- (map_map (fun t => combine (nth t p []) (slice (off p t) (length (nth t p [])) g))
                        (map (fun bg => written (fst bg) (snd bg)))).
    rewrite <- concat_map, combine_queues by exact Hg. rewrite nth_error_map, (nth_error_combine _ _ _ _ _ Eb Ex).
    eexists. split; [reflexivity|]. cbn [fst snd]. unfold scaled. repeat split; reflexivity.
Qed.

Lemma rows_ok order1 order2 junk lo hi (p : pool R_arith) :
  Permutation order1 (seq 0 (length p)) -> Permutation order2 (seq 0 (length p)) ->
  Forall (Forall block_fits) p -> (lo <= hi + 1)%Z -> (hi - lo + 1 <= 2147483647)%Z ->
  exists m v, buildConstraintMatrixVector order1 order2 junk lo hi p = Done (m, v) /\
    length (rowPtr m) = S (length (concat p)) /\ length v = length (concat p) /\
    NoDup (colMap m) /\ (forall c, (lo <= c <= hi)%Z -> In c (colMap m)) /\
    Forall (fun e => (fst e < length (colMap m))%nat) (entries m) /\
    forall i b, nth_error (concat p) i = Some b ->
      (forall x body d, (d < 6)%nat ->
        Rsum (map (fun e : Z * R => if (fst e =? 6 * body + Z.of_nat d)%Z then (snd e * x)%R else 0%R) (crsRow m i))
        = block_load b x body d) /\
      exists row, nth_error v i = Some row /\ r_delta0 row = delta0 b /\ r_gammaGuess row = gamma b /\
        r_invKappa row = (if bilateral b then if Rlt_dec 0 (kappa b) then / kappa b else 0 else 0)%R /\
        r_biFlag row = (if bilateral b then 1 else 0)%R.
Proof.
  intros H1 H2 HF Hlo Hn. destruct (build_ok order1 order2 junk lo hi p H1 H2 HF Hlo Hn) as (m & E & Erp & Nd & _ & Hin & Hc & Hr).
  exists m, (map rowOf (concat p)). split; [exact E|]. split; [rewrite Erp, psum_length, map_length; reflexivity|].
  split; [apply map_length|]. split; [exact Nd|]. split; [intros c Hcc; apply Hin; right; exact Hcc|]. split; [exact Hc|].
  intros i b Eb. split.
  - intros x body d Hd. rewrite (Hr i b Eb). apply bent_load, Hd.
  - exists (rowOf b). split; [rewrite nth_error_map, Eb; reflexivity|]. unfold rowOf, fillRow. cbn [r_delta0 r_gammaGuess r_invKappa r_biFlag].
    split; [reflexivity|]. split; [reflexivity|]. split; [|reflexivity]. destruct (bilateral b); [|reflexivity]. rarith.
    destruct (Rlt_bool_spec 0 (kappa b)) as [H|H]; destruct (Rlt_dec 0 (kappa b)); lra.
Qed.

Lemma list_of_choice {A B} (P : nat -> A -> B -> Prop) (l : list A) :
  (forall r a, nth_error l r = Some a -> exists b, P r a b) ->
  exists bs, length bs = length l /\ forall r a, nth_error l r = Some a -> exists b, nth_error bs r = Some b /\ P r a b.
Proof.
  revert P. induction l as [|a l IH]; intros P H.
  - exists []. split; [reflexivity|]. intros [|r] a; discriminate.
  - destruct (H 0%nat a eq_refl) as (b & Hb). destruct (IH (fun r => P (S r))) as (bs & L & Hbs).
    { intros r a' E. apply (H (S r) a' E). }
    exists (b :: bs). split; [cbn; congruence|]. intros [|r] a' E; cbn [nth_error] in *.
    + exists b. split; [reflexivity|]. congruence.
    + apply Hbs, E.
Qed.

Lemma all_ranks_force (pools : list (pool R_arith)) order1 order2 junk lo hi :
  (forall r p, nth_error pools r = Some p ->
     Permutation (order1 r) (seq 0 (length p)) /\ Permutation (order2 r) (seq 0 (length p)) /\
     Forall (Forall block_fits) p /\ (lo r <= hi r + 1)%Z /\ (hi r - lo r + 1 <= 2147483647)%Z) ->
  (Z.of_nat (length (concat (map (@concat _) pools))) <= 2147483647)%Z ->
  exists mats rows, length mats = length pools /\
    (forall r p, nth_error pools r = Some p -> exists m v, nth_error mats r = Some m /\
       buildConstraintMatrixVector (order1 r) (order2 r) junk (lo r) (hi r) p = Done (m, v)) /\
    getTMAPFromLocalSize (map (fun p => length (concat p)) pools) = Done rows /\
    forall gs body d, length gs = length (concat (map (@concat _) pools)) -> (d < 6)%nat ->
      Rsum (map (fun mr : crs R_arith * list Z => crsTransApply (fst mr) (map (fun i => nth (Z.to_nat i) gs 0%R) (snd mr)) (6 * body + Z.of_nat d)%Z)
                (combine mats rows))
      = total_load (concat (map (@concat _) pools)) gs body d.
Proof.
  intros H HT.
  destruct (list_of_choice (fun r p m => buildConstraintMatrixVector (order1 r) (order2 r) junk (lo r) (hi r) p = Done (m, map rowOf (concat p)) /\
      forall i b, nth_error (concat p) i = Some b -> crsRow m i = bent b) pools) as (mats & L & Hm).
  { intros r p Ep. destruct (H r p Ep) as (A & B & C & D & F).
    destruct (build_ok _ _ junk _ _ p A B C D F) as (m & E & _ & _ & _ & _ & _ & Hr). exists m. split; assumption. }
  assert (HM : exists rows, getTMAPFromLocalSize (map (fun p : pool R_arith => length (concat p)) pools) = Done rows /\ length rows = length pools).
  { unfold getTMAPFromLocalSize. rewrite concat_length, map_map in HT. 
    destruct (Z.ltb_spec INT_MAX (Z.of_nat (sum_list (map (fun p : pool R_arith => length (concat p)) pools)))) as [C|C].
    - exfalso. apply (Zlt_not_le _ _ C). exact HT.
    - eexists. split; [reflexivity|]. rewrite map_length, seq_length, map_length. reflexivity. }
  destruct HM as (rows & ER & LR).
  exists mats, rows. split; [exact L|]. split.
  { intros r p Ep. destruct (Hm r p Ep) as (m & Em & Eb & _). exists m. eexists. split; [exact Em|exact Eb]. }
  split; [exact ER|]. intros gs body d Hg Hd.
  set (d0 := @Crs R_arith [] [] []).
  rewrite <- (global_force pools mats rows d0 gs body d); [| |exact ER|exact Hg|exact Hd].
  - f_equal. rewrite (map_seq_nth mats d0) at 1. rewrite (map_seq_nth rows []) at 1. rewrite L, LR.
    rewrite combine_map_same, map_map. reflexivity.
  - intros r p Ep i b Eb. destruct (Hm r p Ep) as (m & Em & _ & Hr). rewrite (nth_error_nth _ _ d0 Em). apply Hr, Eb.
Qed.

Lemma stress_spec order (p : pool R_arith) w :
  Permutation order (seq 0 (length p)) -> Forall (Forall (fun b => length (stress b) = 9%nat)) p ->
  exists uni bi, sumLocalConstraintStress order p w = Done (uni, bi) /\
    forall i j, (i < 3)%nat -> (j < 3)%nat ->
      mget uni i j = stress_sum w false (concat p) i j /\ mget bi i j = stress_sum w true (concat p) i j.
Proof.
  intros Hp HF. eexists _, _. split; [exact (stress_ok order p w Hp HF)|]. intros i j Hi Hj.
  split; apply mget_mkmat; assumption.
Qed.

Lemma filter_perm {A} (f : A -> bool) l1 l2 : Permutation l1 l2 -> Permutation (filter f l1) (filter f l2).
Proof.
  induction 1; cbn [filter].
  - constructor.
  - destruct (f x); [constructor|]; assumption.
  - destruct (f x), (f y); try reflexivity. constructor.
  - eapply Permutation_trans; eassumption.
Qed.

Lemma stress_split o1 o2 (p1 p2 : pool R_arith) w :
  Permutation o1 (seq 0 (length p1)) -> Permutation o2 (seq 0 (length p2)) ->
  Forall (Forall (fun b => length (stress b) = 9%nat)) p1 -> Forall (Forall (fun b => length (stress b) = 9%nat)) p2 ->
  Permutation (concat p1) (concat p2) ->
  sumLocalConstraintStress o1 p1 w = sumLocalConstraintStress o2 p2 w.
Proof.
  intros A B C D P. rewrite (stress_ok o1 p1 w A C), (stress_ok o2 p2 w B D).
  assert (HP : forall bi i j, stress_sum w bi (concat p1) i j = stress_sum w bi (concat p2) i j).
  { intros. unfold stress_sum. apply Rsum_perm, Permutation_map, filter_perm, P. }
  do 2 f_equal; apply mkmat_ext; intros; apply HP.
Qed.

Lemma reverse_ok {N : arith} (b : block N) :
  reverseIJ (reverseIJ b) = b /\
  let r := reverseIJ b in
  (gidI r, gidJ r, globalIndexI r, globalIndexJ r) = (gidJ b, gidI b, globalIndexJ b, globalIndexI b) /\
  (normI r, normJ r, posI r, posJ r, labI r, labJ r) = (normJ b, normI b, posJ b, posI b, labJ b, labI b) /\
  (delta0 r, gamma r, gammaLB r, kappa r, oneSide r, bilateral r, stress r) =
  (delta0 b, gamma b, gammaLB b, kappa b, oneSide b, bilateral b, stress b).
Proof. destruct b. repeat split. Qed.

Lemma stress_roundtrip {N : arith} (b : block N) (m : mat3 N) s : length (stress b) = 9%nat -> length s = 9%nat ->
  (exists b', setStressMat b m = Done b' /\ getStressMat b' = Done m /\ stress b' =
     [mget m 0 0; mget m 0 1; mget m 0 2; mget m 1 0; mget m 1 1; mget m 1 2; mget m 2 0; mget m 2 1; mget m 2 2]) /\
  (exists b', setStressPtr b s = Done b' /\ stress b' = s).
Proof.
  intros L Ls. split.
  - destruct (list9 _ L) as (a0 & a1 & a2 & a3 & a4 & a5 & a6 & a7 & a8 & E).
    destruct m as [[? ? ?] [? ? ?] [? ? ?]]. unfold setStressMat. rewrite E. eexists. split; [reflexivity|]. split; reflexivity.
  - exists (withGammaStress b (gamma b) s). split; [apply set_ptr_stress; assumption|reflexivity].
Qed.

Lemma reverse_load (b : block R_arith) x body d : oneSide b = false ->
  block_load (reverseIJ b) x body d = block_load b x body d.
Proof. intros H. unfold block_load. cbn [reverseIJ oneSide globalIndexI globalIndexJ normI normJ posI posJ]. rewrite H. cbn [negb andb]. apply Rplus_comm. Qed.

Lemma clear_ok {N : arith} (p : pool N) threads : clear p threads = repeat [] threads.
Proof.
  unfold clear. rewrite map_length.
  assert (E : map (fun _ : list (block N) => @nil (block N)) p = repeat [] (length p)) by (induction p; cbn; congruence). rewrite E.
  destruct (Nat.le_ge_cases threads (length p)) as [H|H].
  - replace (length p) with (threads + (length p - threads))%nat at 1 by lia. rewrite repeat_app, firstn_app, repeat_length, Nat.sub_diag, firstn_O, app_nil_r.
    replace (threads - length p)%nat with 0%nat by lia. cbn [repeat]. rewrite app_nil_r. rewrite <- (repeat_length (@nil (block N)) threads) at 1. apply firstn_all.
  - rewrite firstn_all2 by (rewrite repeat_length; exact H). rewrite <- repeat_app. f_equal. lia.
Qed.
