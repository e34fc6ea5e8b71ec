(** Proofs about the domain decomposition. *)
From Coq Require Import List Arith ZArith Lia Bool Permutation Sorted.
From Verif Require Import Outcome ListUtil MPIProofs SortModel SortSpec SortProofs ParticleModel ParticleSpec
  ExchangeProofs DomainModel DomainSpec.
Import ListNotations.

(** ** The process grid *)

Lemma lowerToDivisor_spec np : (0 < np)%Z -> forall fuel tmp, (1 <= tmp)%Z -> Z.to_nat tmp <= fuel ->
  exists t, lowerToDivisor fuel np tmp = Done t /\ (1 <= t <= tmp)%Z /\ (Z.rem np t = 0)%Z.
Proof.
  intros Hnp. induction fuel as [|f IH]; intros tmp Ht Hf; [lia|]. cbn [lowerToDivisor].
  destruct (Z.eqb_spec tmp 0); [lia|].
  destruct (Z.eqb_spec (Z.rem np tmp) 0) as [E|E].
  - exists tmp. split; [reflexivity|]. split; [lia|exact E].
  - destruct (Z.eq_dec tmp 1) as [->|N1]; [exfalso; apply E, Z.rem_1_r|].
    destruct (IH (tmp - 1)%Z) as (t & E' & H & R); [lia|lia|].
    exists t. split; [exact E'|]. split; [lia|exact R].
Qed.

Lemma quot_divide np t : (0 < np)%Z -> (1 <= t)%Z -> (Z.rem np t = 0)%Z ->
  (np = t * Z.quot np t)%Z /\ (0 < Z.quot np t)%Z.
Proof.
  intros Hn Ht HR. pose proof (Z.quot_rem' np t) as E. rewrite HR in E.
  split; [lia|]. nia.
Qed.

Lemma factorThree_spec guess nproc : (0 < nproc)%Z ->
  (forall d n, (0 < n)%Z -> (1 <= guess d n)%Z) ->
  exists a b c, factorThree guess nproc = Done (a, b, c) /\ (a * b * c = nproc)%Z /\
    (1 <= a)%Z /\ (1 <= b)%Z /\ (1 <= c)%Z.
Proof.
  intros Hn HG. unfold factorThree.
  destruct (lowerToDivisor_spec nproc Hn (S (Z.to_nat (guess 3 nproc)%Z)) (guess 3 nproc)%Z) as (a & Ea & Ha & Ra);
    [apply HG; lia|lia|].
  rewrite Ea. cbn [obind].
  destruct (quot_divide nproc a Hn ltac:(lia) Ra) as (E1 & P1).
  destruct (lowerToDivisor_spec (Z.quot nproc a) P1 (S (Z.to_nat (guess 2 (Z.quot nproc a))%Z)) (guess 2 (Z.quot nproc a))%Z)
    as (b & Eb & Hb & Rb); [apply HG; lia|lia|].
  rewrite Eb. cbn [obind].
  destruct (quot_divide _ b P1 ltac:(lia) Rb) as (E2 & P2).
  exists a, b, (Z.quot (Z.quot nproc a) b). split; [reflexivity|].
  split; [rewrite E1 at 2; rewrite E2 at 2; ring|]. lia.
Qed.

Lemma Zgtb_swo : strict_weak_order Z.gtb.
Proof. split; intros; rewrite ?Z.gtb_ltb, ?Z.ltb_lt, ?Z.ltb_ge in *; lia. Qed.

Definition prod3 (l : list Z) : Z := fold_right Z.mul 1%Z l.
Lemma prod3_perm l l' : Permutation l l' -> prod3 l = prod3 l'.
Proof. induction 1 as [|x l l1 H IH|x y l|l1 l2 l3 H1 IH1 H2 IH2]; unfold prod3 in *; cbn [fold_right]; [reflexivity | rewrite IH; reflexivity | ring | congruence]. Qed.

Lemma setNumberOfDomain_spec guess nproc : (0 < nproc)%Z ->
  (forall d n, (0 < n)%Z -> (1 <= guess d n)%Z) ->
  exists nx ny nz, (nx * ny * nz = nproc)%Z /\ (1 <= nz <= ny)%Z /\ (ny <= nx)%Z /\
    forall rank, (0 <= rank < nproc)%Z ->
    exists rx ry rz, setNumberOfDomain guess nproc rank = Done ([nx; ny; nz], [rx; ry; rz]) /\
      (0 <= rx < nx)%Z /\ (0 <= ry < ny)%Z /\ (0 <= rz < nz)%Z /\ (rank = (rx * ny + ry) * nz + rz)%Z.
Proof.
  intros Hn HG. destruct (factorThree_spec guess nproc Hn HG) as (a & b & c & E & EP & Ha & Hb & Hc).
  unfold setNumberOfDomain. rewrite E. cbn [obind].
  assert (PS : Permutation (stable_sort Z.gtb [a; b; c]) [a; b; c] /\
               StronglySorted (fun p q => (q <= p)%Z) (stable_sort Z.gtb [a; b; c])).
  { clear. cbn [stable_sort insert]. split.
    - repeat (match goal with |- context [Z.gtb ?x ?y] => destruct (Z.gtb x y) end; cbn [insert]);
      first [ apply Permutation_refl | idtac ];
      repeat match goal with |- Permutation _ _ => idtac end;
      try (etransitivity; [|apply perm_swap]; apply Permutation_refl);
      try (apply perm_skip; apply perm_swap);
      try (etransitivity; [apply perm_swap|]; apply perm_skip, perm_swap);
      try (etransitivity; [apply perm_skip, perm_swap|]; apply perm_swap);
      try (etransitivity; [apply perm_swap|]; etransitivity; [apply perm_skip, perm_swap|]; apply perm_swap).
    - repeat (match goal with |- context [Z.gtb ?x ?y] => rewrite (Z.gtb_ltb x y); destruct (Z.ltb_spec y x) end; cbn [insert]);
      repeat constructor; lia. }
  destruct PS as (PP & SS). revert PP SS.
  destruct (stable_sort Z.gtb [a; b; c]) as [|nx [|ny [|nz [|? ?]]]]; intros PP SS;
    pose proof (Permutation_length PP) as PL; cbn in PL; try lia.
  exists nx, ny, nz.
  pose proof (prod3_perm _ _ PP) as PR. unfold prod3 in PR. cbn in PR.
  assert (Pos : forall z, In z [nx; ny; nz] -> (1 <= z)%Z).
  { intros z Hz. apply (Permutation_in _ PP) in Hz. cbn in Hz. lia. }
  assert (1 <= nx)%Z by (apply Pos; cbn; tauto). assert (1 <= ny)%Z by (apply Pos; cbn; tauto).
  assert (1 <= nz)%Z by (apply Pos; cbn; tauto).
  inversion SS as [|? ? S1 F1]; subst. inversion S1 as [|? ? S2 F2]; subst.
  inversion F1; subst. inversion F2; subst.
  assert (EQ : (nx * ny * nz = a * b * c)%Z) by nia.
  split; [exact EQ|]. split; [lia|]. split; [lia|].
  intros rank Hr. eexists _, _, _. split; [reflexivity|].
  rewrite !Z.quot_div_nonneg, !Z.rem_mod_nonneg by
    (try apply Z.quot_pos; rewrite ?Z.quot_div_nonneg by lia; try apply Z.div_pos; try apply Z.div_pos; lia).
  pose proof (Z.mod_pos_bound rank nz ltac:(lia)). pose proof (Z.mod_pos_bound (rank / nz) ny ltac:(lia)).
  assert (Hq : (0 <= rank / nz / ny < nx)%Z).
  { split; [repeat apply Z.div_pos; lia|]. apply Z.div_lt_upper_bound; [lia|]. apply Z.div_lt_upper_bound; [lia|]. nia. }
  rewrite (Z.mod_small (rank / nz / ny) nx Hq).
  split; [lia|]. split; [lia|]. split; [lia|].
  pose proof (Z.div_mod rank nz ltac:(lia)). pose proof (Z.div_mod (rank / nz) ny ltac:(lia)).
  nia.
Qed.

(** ** Cut indices *)

Lemma istart_0 ntot p : istart ntot p 0 = 0.
Proof. unfold istart. destruct p as [|p]; [reflexivity|]. apply Nat.div_0_l. lia. Qed.
Lemma istart_p ntot p : 0 < p -> istart ntot p p = ntot.
Proof. intros H. unfold istart. rewrite Nat.mul_comm. apply Nat.div_mul. lia. Qed.
Lemma istart_S ntot p i : 0 < p -> p <= ntot -> istart ntot p i < istart ntot p (S i).
Proof.
  intros Hp H. unfold istart. apply Nat.lt_le_trans with (i * ntot / p + 1); [lia|].
  rewrite <- Nat.div_add by lia. apply Nat.div_le_mono; [lia|]. cbn. lia.
Qed.
Lemma istart_mono ntot p i j : 0 < p -> p <= ntot -> i < j -> istart ntot p i < istart ntot p j.
Proof. intros Hp H. induction 1; [apply istart_S; assumption|]. pose proof (istart_S ntot p m Hp H). lia. Qed.
Lemma istart_le ntot p i j : 0 < p -> i <= j -> istart ntot p i <= istart ntot p j.
Proof. intros Hp H. unfold istart. apply Nat.div_le_mono; [lia|]. apply Nat.mul_le_mono_r, H. Qed.
Lemma iend_spec ntot p i : i < p -> iend ntot p i = (Z.of_nat (istart ntot p (S i)) - 1)%Z.
Proof.
  intros H. unfold iend. destruct (Nat.eqb_spec i (p - 1)) as [->|]; [|reflexivity].
  replace (S (p - 1)) with p by lia. rewrite istart_p by lia. reflexivity.
Qed.

Section Decompose.
  Context {C : Type} (le lt : C -> C -> bool) (O : coord_order le lt) (mid ema : C -> C -> C).
  Hypothesis AV : averaging le mid ema.
  Context (sortBy : (vec C -> C) -> list (vec C) -> list (vec C)) (SB : sorts le sortBy).
  Variable root : ort C.

  Lemma le_refl a : le a a = true.
  Proof. destruct (co_total _ _ O a a); assumption. Qed.

  Lemma StronglySorted_nth {A} (R : A -> A -> Prop) l d : StronglySorted R l -> (forall a, R a a) ->
    forall i j, i <= j -> j < length l -> R (nth i l d) (nth j l d).
  Proof.
    intros H HR. induction H as [|a l S IH F]; intros i j Hij Hj; [cbn in Hj; lia|].
    destruct i as [|i], j as [|j]; cbn [nth]; [apply HR| |lia|apply IH; cbn in Hj; lia].
    rewrite Forall_forall in F. apply F, nth_In. cbn in Hj. lia.
  Qed.

  Lemma sortRange_ok key lo hi tot : lo <= hi -> hi <= length tot ->
    exists tot', sortRange sortBy key lo (Z.of_nat hi) tot = Done tot' /\ Permutation tot' tot /\
      forall d i j, i <= j -> j < hi - lo ->
        le (key (nth (lo + i) tot' d)) (key (nth (lo + j) tot' d)) = true.
  Proof.
    intros H1 H2. unfold sortRange.
    destruct (Z.ltb_spec (Z.of_nat hi) (Z.of_nat lo)); [lia|].
    destruct (Z.ltb_spec (Z.of_nat (length tot)) (Z.of_nat hi)); [lia|]. cbn [orb].
    rewrite Nat2Z.id. eexists. split; [reflexivity|].
    destruct (SB key (slice lo (hi - lo) tot)) as (PP & SS).
    assert (SL : length (slice lo (hi - lo) tot) = hi - lo).
    { unfold slice. rewrite firstn_length, skipn_length. lia. }
    split.
    - etransitivity; [apply Permutation_app_head, Permutation_app_tail, PP|].
      unfold slice. rewrite <- (firstn_skipn lo tot) at 4. apply Permutation_app_head.
      rewrite <- (firstn_skipn (hi - lo) (skipn lo tot)) at 2. apply Permutation_app_head.
      rewrite skipn_skipn. replace (hi - lo + lo) with hi by lia. reflexivity.
    - intros d i j Hij Hj.
      assert (N : forall k, k < hi - lo -> nth (lo + k) (firstn lo tot ++ sortBy key (slice lo (hi - lo) tot) ++ skipn hi tot) d
                  = nth k (sortBy key (slice lo (hi - lo) tot)) d).
      { intros k Hk. rewrite app_nth2 by (rewrite firstn_length; lia). rewrite firstn_length.
        replace (lo + k - Nat.min lo (length tot)) with k by lia.
        apply app_nth1. rewrite (Permutation_length PP), SL. exact Hk. }
      rewrite !N by lia.
      apply (StronglySorted_nth (fun p q => le (key p) (key q) = true)); [exact SS|intros; apply le_refl|exact Hij|].
      rewrite (Permutation_length PP), SL. exact Hj.
  Qed.

  (** what one direction delivers: consecutive cuts from the low to the high end *)
  Definition rowok (key : vec C -> C) (k : nat) (row : list (C * C)) : Prop :=
    exists f, f 0 = key (olow root) /\ f k = key (ohigh root) /\ increasing le f k /\
      row = map (fun j => (f j, f (S j))) (seq 0 k).

  Lemma zread_nth {A} (l : list A) d z k : z = Z.of_nat k -> k < length l -> zread l z = Done (nth k l d).
  Proof.
    intros -> H. unfold zread. destruct (Z.ltb_spec (Z.of_nat k) 0); [lia|]. rewrite Nat2Z.id.
    unfold mread. rewrite (nth_error_nth' l d H). reflexivity.
  Qed.

  Lemma cut_row (key : vec C -> C) tot off m k (c : nat -> nat) :
    0 < k -> c 0 = 0 -> c k = m -> (forall i j, i < j -> j <= k -> c i < c j) ->
    off + m <= length tot ->
    Forall (fun p => le (key (olow root)) (key p) = true /\ le (key p) (key (ohigh root)) = true) tot ->
    (forall d i j, i <= j -> j < m -> le (key (nth (off + i) tot d)) (key (nth (off + j) tot d)) = true) ->
    exists row, rowok key k row /\
      omap (fun j => boundary mid key root (Z.of_nat m) tot (Z.of_nat off) (Z.of_nat (c j)) (Z.of_nat (c (S j)) - 1)) (seq 0 k)
      = Done row.
  Proof.
    intros Hk C0 Ck Cm HL HF HS.
    set (d := olow root). set (g := fun i => key (nth (off + i) tot d)).
    set (f := fun j => if j =? 0 then key (olow root) else if j =? k then key (ohigh root)
                       else mid (g (c j - 1)) (g (c j))).
    assert (Cb : forall j, 0 < j -> j < k -> 0 < c j < m).
    { intros j H1 H2. split; [rewrite <- C0; apply Cm; lia|rewrite <- Ck; apply Cm; lia]. }
    assert (RT : forall i, i < m -> le (key (olow root)) (g i) = true /\ le (g i) (key (ohigh root)) = true).
    { intros i Hi. unfold g. rewrite Forall_forall in HF. apply HF, nth_In. lia. }
    assert (GS : forall i j, i <= j -> j < m -> le (g i) (g j) = true) by (intros; apply HS; assumption).
    exists (map (fun j => (f j, f (S j))) (seq 0 k)). split.
    - exists f. split; [reflexivity|]. split; [unfold f; destruct (Nat.eqb_spec k 0); [lia|]; rewrite Nat.eqb_refl; reflexivity|].
      split; [|reflexivity].
      intros j Hj. unfold f. destruct (Nat.eqb_spec (S j) 0); [lia|].
      assert (MID : forall j, 0 < j -> j < k -> le (g (c j - 1)) (mid (g (c j - 1)) (g (c j))) = true /\
                          le (mid (g (c j - 1)) (g (c j))) (g (c j)) = true).
      { intros i H1 H2. specialize (Cb i H1 H2).
        split; [apply (av_low _ _ _ AV)|apply (av_high _ _ _ AV)]; apply GS; lia. }
      destruct (Nat.eqb_spec j 0) as [->|J0].
      + destruct (Nat.eqb_spec 1 k) as [E|E].
        * assert (0 < m) by (rewrite <- Ck, <- C0; apply Cm; lia).
          apply (co_trans _ _ O _ (g 0)); apply RT; lia.
        * apply (co_trans _ _ O _ (g (c 1 - 1))); [apply RT; specialize (Cb 1); lia | apply MID; lia].
      + destruct (Nat.eqb_spec j k); [lia|].
        destruct (Nat.eqb_spec (S j) k) as [E|E].
        * apply (co_trans _ _ O _ (g (c j))); [apply MID; lia|]. apply RT. apply Cb; lia.
        * apply (co_trans _ _ O _ (g (c j))); [apply MID; lia|].
          apply (co_trans _ _ O _ (g (c (S j) - 1))); [|apply MID; lia].
          assert (c j < c (S j)) by (apply Cm; lia). assert (c (S j) < m) by (apply Cb; lia). apply GS; lia.
    - apply omap_pure. intros j Hj. apply in_seq in Hj. unfold boundary.
      assert (CJ : c j < c (S j)) by (apply Cm; lia).
      assert (E1 : (if (Z.of_nat (c j) =? 0)%Z then Done (key (olow root))
           else do a <- zread tot (Z.of_nat off + Z.of_nat (c j) - 1);
                do b <- zread tot (Z.of_nat off + Z.of_nat (c j)); Done (mid (key a) (key b))) = Done (f j)).
      { unfold f. destruct (Z.eqb_spec (Z.of_nat (c j)) 0) as [E|E].
        - destruct (Nat.eqb_spec j 0) as [|J0]; [reflexivity|]. specialize (Cb j). lia.
        - destruct (Nat.eqb_spec j 0) as [->|J0]; [lia|]. destruct (Nat.eqb_spec j k); [lia|].
          specialize (Cb j ltac:(lia) ltac:(lia)).
          rewrite (zread_nth tot d _ (off + (c j - 1))) by lia. cbn [obind].
          rewrite (zread_nth tot d _ (off + c j)) by lia. reflexivity. }
      rewrite E1. cbn [obind].
      assert (E2 : (if (Z.of_nat (c (S j)) - 1 =? Z.of_nat m - 1)%Z then Done (key (ohigh root))
           else do a <- zread tot (Z.of_nat off + (Z.of_nat (c (S j)) - 1));
                do b <- zread tot (Z.of_nat off + (Z.of_nat (c (S j)) - 1) + 1); Done (mid (key a) (key b))) = Done (f (S j))).
      { unfold f. destruct (Nat.eqb_spec (S j) 0); [lia|].
        destruct (Nat.eqb_spec (S j) k) as [E|E].
        - rewrite E, Ck, Z.eqb_refl. reflexivity.
        - specialize (Cb (S j) ltac:(lia) ltac:(lia)).
          destruct (Z.eqb_spec (Z.of_nat (c (S j)) - 1) (Z.of_nat m - 1)); [lia|].
          rewrite (zread_nth tot d _ (off + (c (S j) - 1))) by lia. cbn [obind].
          rewrite (zread_nth tot d _ (off + c (S j))) by lia. reflexivity. }
      rewrite E2. reflexivity.
  Qed.

  Definition rowf (key : vec C -> C) (k : nat) (row : list (C * C)) (j : nat) : C :=
    if j <? k then fst (nth j row (key (olow root), key (olow root))) else key (ohigh root).

  Lemma rowf_spec key k row : 0 < k -> rowok key k row ->
    rowf key k row 0 = key (olow root) /\ rowf key k row k = key (ohigh root) /\
    increasing le (rowf key k row) k /\
    forall j, j < k -> mread row j = Done (rowf key k row j, rowf key k row (S j)).
  Proof.
    intros Hk (f & F0 & Fk & FI & ->).
    assert (E : forall j, j <= k -> rowf key k (map (fun j => (f j, f (S j))) (seq 0 k)) j = f j).
    { intros j Hj. unfold rowf. destruct (Nat.ltb_spec j k) as [H|H].
      - erewrite nth_error_nth; [|apply nth_error_map_seq, H]. reflexivity.
      - replace j with k by lia. symmetry. exact Fk. }
    split; [rewrite E by lia; exact F0|]. split; [rewrite E by lia; exact Fk|].
    split; [intros j Hj; rewrite !E by lia; apply FI, Hj|].
    intros j Hj. rewrite mread_map_seq by assumption. rewrite !E by lia. reflexivity.
  Qed.

  Definition within_key (p : vec C) (key : vec C -> C) : Prop :=
    le (key (olow root)) (key p) = true /\ le (key p) (key (ohigh root)) = true.

  Lemma within_iff p : within le root p <-> (within_key p vx /\ within_key p vy /\ within_key p vz).
  Proof.
    unfold within, within_key. split.
    - intros H. inversion H as [|? ? H1 T]; subst. inversion T as [|? ? H2 T2]; subst. inversion T2; subst. tauto.
    - intros (H1 & H2 & H3). repeat constructor; apply H1 || apply H2 || apply H3.
  Qed.

  (** a loop that sorts a range and then computes one row of cuts *)
  Lemma fold_rows {I} (key : vec C -> C) k (ids : list I)
    (step : list (vec C) * list (list (C * C)) -> I -> outcome (list (vec C) * list (list (C * C)))) (ntot : nat) :
    (forall tot acc i, In i ids -> length tot = ntot -> Forall (within le root) tot ->
       exists tot' row, step (tot, acc) i = Done (tot', acc ++ [row]) /\ Permutation tot' tot /\ rowok key k row) ->
    forall tot acc, length tot = ntot -> Forall (within le root) tot -> Forall (rowok key k) acc ->
    exists tot' rows, ofold step ids (tot, acc) = Done (tot', rows) /\
      length rows = length acc + length ids /\ Forall (rowok key k) rows /\
      length tot' = ntot /\ Forall (within le root) tot'.
  Proof.
    induction ids as [|i ids IH]; intros HS tot acc HL HF HA; cbn [ofold].
    - exists tot, acc. cbn [length]. rewrite Nat.add_0_r. auto.
    - destruct (HS tot acc i (or_introl eq_refl) HL HF) as (tot' & row & E & PP & R).
      rewrite E. cbn [obind].
      destruct (IH (fun t a j Hj => HS t a j (or_intror Hj)) tot' (acc ++ [row])) as (tot'' & rows & E2 & L & FR & L2 & F2).
      + rewrite (Permutation_length PP). exact HL.
      + eapply Permutation_Forall; [symmetry; exact PP|exact HF].
      + apply Forall_app. split; [exact HA|]. constructor; [exact R|constructor].
      + exists tot'', rows. split; [exact E2|]. split; [|auto]. rewrite L, app_length. cbn. lia.
  Qed.

  Lemma list_prod_nth nx ny i j : i < nx -> j < ny ->
    nth_error (list_prod (seq 0 nx) (seq 0 ny)) (i * ny + j) = Some (i, j).
  Proof.
    intros Hi Hj.
    assert (G : forall m s, i < s + m -> s <= i ->
       nth_error (list_prod (seq s m) (seq 0 ny)) ((i - s) * ny + j) = Some (i, j)).
    { induction m as [|m IH]; intros s H1 H2; [lia|]. cbn [seq list_prod].
      destruct (Nat.eq_dec s i) as [->|N].
      - rewrite Nat.sub_diag. cbn [Nat.mul Nat.add]. rewrite nth_error_app1 by (rewrite map_length, seq_length; exact Hj).
        apply (nth_error_map_seq (fun y => (i, y))), Hj.
      - rewrite nth_error_app2 by (rewrite map_length, seq_length; nia).
        rewrite map_length, seq_length. replace ((i - s) * ny + j - ny) with ((i - S s) * ny + j) by nia.
        apply IH; lia. }
    specialize (G nx 0 ltac:(lia) ltac:(lia)). rewrite Nat.sub_0_r in G. exact G.
  Qed.

  Lemma decompose_grid nx ny nz samples :
    0 < nx -> 0 < ny -> 0 < nz -> nx * ny * nz <= length samples ->
    Forall (within le root) samples ->
    exists doms, decompose mid sortBy root nx ny nz (nx * ny * nz) samples = Done doms /\
      grid_of le root nx ny nz doms.
  Proof.
    intros Hx Hy Hz HN HW. set (p := nx * ny * nz) in *. set (N := length samples) in *.
    assert (Pp : 0 < p) by (unfold p; nia).
    assert (IE : forall i, i < p -> iend N p i = (Z.of_nat (istart N p (S i)) - 1)%Z) by (intros; apply iend_spec; assumption).
    assert (IM : forall i j, i < j -> istart N p i < istart N p j) by (intros; apply istart_mono; assumption).
    assert (IB : forall i, i <= p -> istart N p i <= N).
    { intros i Hi. rewrite <- (istart_p N p Pp) at 2. apply istart_le; assumption. }
    unfold decompose. fold N.
    destruct (sortRange_ok vx 0 N samples) as (t0 & E0 & P0 & S0); [lia|unfold N; lia|].
    rewrite E0. cbn [obind].
    assert (L0 : length t0 = N) by apply (Permutation_length P0).
    assert (W0 : Forall (within le root) t0) by (eapply Permutation_Forall; [symmetry; exact P0|exact HW]).
    (* x *)
    destruct (cut_row vx t0 0 N nx (fun j => istart N p (j * ny * nz))) as (xrow & XR & EX).
    { exact Hx. } { apply istart_0. } { apply istart_p, Pp. }
    { intros i j Hij _. apply IM. apply Nat.mul_lt_mono_pos_r; [lia|]. apply Nat.mul_lt_mono_pos_r; lia. }
    { lia. } { eapply Forall_impl; [|exact W0]. intros a Ha. apply within_iff in Ha. apply Ha. }
    { intros d i j Hij Hj. specialize (S0 d i j Hij). apply S0. lia. }
    rewrite (omap_ext_in _ (fun j => boundary mid vx root (Z.of_nat N) t0 (Z.of_nat 0) (Z.of_nat (istart N p (j * ny * nz)))
               (Z.of_nat (istart N p (S j * ny * nz)) - 1))).
    2:{ intros j Hj. apply in_seq in Hj. f_equal.
        assert (0 < (j + 1) * ny * nz) by nia.
        rewrite IE by (unfold p; enough ((j + 1) * ny * nz <= nx * ny * nz) by lia; apply Nat.mul_le_mono_r, Nat.mul_le_mono_r; lia).
        replace (S ((j + 1) * ny * nz - 1)) with (S j * ny * nz) by lia. reflexivity. }
    rewrite EX. cbn [obind].
    (* y *)
    match goal with |- context [ofold ?st (seq 0 nx) (t0, [])] =>
      destruct (fold_rows vy ny (seq 0 nx) st N) with (tot := t0) (acc := @nil (list (C * C))) as (t1 & yrows & EY & LY & YR & L1 & W1);
        [|exact L0|exact W0|constructor|rewrite EY] end.
    { intros tot acc ix Hix HL HF. apply in_seq in Hix.
      set (ix0 := ix * ny * nz). set (ix1 := (ix + 1) * ny * nz).
      assert (Q1 : ix1 = ix0 + ny * nz) by (unfold ix1, ix0; ring).
      assert (Q2 : 0 < ny * nz) by nia.
      assert (Q3 : ix1 <= p) by (unfold ix1, p; apply Nat.mul_le_mono_r, Nat.mul_le_mono_r; lia).
      rewrite IE by lia. replace (S (ix1 - 1)) with ix1 by lia.
      replace (Z.of_nat (istart N p ix1) - 1 + 1)%Z with (Z.of_nat (istart N p ix1)) by lia.
      destruct (sortRange_ok vy (istart N p ix0) (istart N p ix1) tot) as (t' & E' & P' & S').
      { apply Nat.lt_le_incl, IM. lia. } { rewrite HL. apply IB, Q3. }
      rewrite E'. cbn [obind].
      assert (W' : Forall (within le root) t') by (eapply Permutation_Forall; [symmetry; exact P'|exact HF]).
      assert (I01 : istart N p ix0 < istart N p ix1) by (apply IM; lia).
      destruct (cut_row vy t' (istart N p ix0) (istart N p ix1 - istart N p ix0) ny
                  (fun j => istart N p (ix0 + j * nz) - istart N p ix0)) as (row & RR & ER).
      { exact Hy. } { cbn. rewrite Nat.add_0_r. lia. } { rewrite Q1. reflexivity. }
      { intros i j Hij _. assert (istart N p (ix0 + i * nz) < istart N p (ix0 + j * nz)) by (apply IM; nia).
        assert (istart N p ix0 <= istart N p (ix0 + i * nz)) by (apply istart_le; lia). lia. }
      { rewrite (Permutation_length P'), HL. specialize (IB ix1 Q3). lia. }
      { eapply Forall_impl; [|exact W']. intros a Ha. apply within_iff in Ha. apply Ha. }
      { intros d i j Hij Hj. apply S'; assumption. }
      exists t', row. split; [|split; [exact P'|exact RR]].
      replace (Z.of_nat (istart N p ix1) - 1 - Z.of_nat (istart N p ix0) + 1)%Z
        with (Z.of_nat (istart N p ix1 - istart N p ix0)) by lia.
      erewrite omap_ext_in; [rewrite ER; reflexivity|].
      intros j Hj. apply in_seq in Hj. cbn beta.
      assert (J0 : 0 < (j + 1) * nz) by nia.
      assert (J1 : (j + 1) * nz <= ny * nz) by (apply Nat.mul_le_mono_r; lia).
      rewrite IE by lia. replace (S (ix0 + (j + 1) * nz - 1)) with (ix0 + S j * nz) by lia.
      assert (istart N p ix0 <= istart N p (ix0 + j * nz)) by (apply istart_le; lia).
      assert (istart N p ix0 < istart N p (ix0 + S j * nz)) by (apply IM; nia).
      f_equal; lia. }
    cbn [obind].
    (* z *)
    match goal with |- context [ofold ?st (list_prod (seq 0 nx) (seq 0 ny)) (t1, [])] =>
      destruct (fold_rows vz nz (list_prod (seq 0 nx) (seq 0 ny)) st N) with (tot := t1) (acc := @nil (list (C * C))) as (t2 & zrows & EZ & LZ & ZR & L2 & W2);
        [|exact L1|exact W1|constructor|rewrite EZ] end.
    { intros tot acc [ix iy] Hi HL HF. apply in_prod_iff in Hi. destruct Hi as (Hix & Hiy).
      apply in_seq in Hix, Hiy.
      set (iy0 := ix * ny * nz + iy * nz). set (iy1 := ix * ny * nz + (iy + 1) * nz).
      assert (Q1 : iy1 = iy0 + nz) by (unfold iy1, iy0; ring).
      assert (Q3 : iy1 <= p).
      { unfold iy1, p. replace (ix * ny * nz + (iy + 1) * nz) with ((ix * ny + (iy + 1)) * nz) by ring.
        apply Nat.mul_le_mono_r. nia. }
      rewrite IE by lia. replace (S (iy1 - 1)) with iy1 by lia.
      replace (Z.of_nat (istart N p iy1) - 1 + 1)%Z with (Z.of_nat (istart N p iy1)) by lia.
      destruct (sortRange_ok vz (istart N p iy0) (istart N p iy1) tot) as (t' & E' & P' & S').
      { apply Nat.lt_le_incl, IM. lia. } { rewrite HL. apply IB, Q3. }
      rewrite E'. cbn [obind].
      assert (W' : Forall (within le root) t') by (eapply Permutation_Forall; [symmetry; exact P'|exact HF]).
      assert (I01 : istart N p iy0 < istart N p iy1) by (apply IM; lia).
      destruct (cut_row vz t' (istart N p iy0) (istart N p iy1 - istart N p iy0) nz
                  (fun j => istart N p (iy0 + j) - istart N p iy0)) as (row & RR & ER).
      { exact Hz. } { cbn. rewrite Nat.add_0_r. lia. } { rewrite Q1. reflexivity. }
      { intros i j Hij _. assert (istart N p (iy0 + i) < istart N p (iy0 + j)) by (apply IM; lia).
        assert (istart N p iy0 <= istart N p (iy0 + i)) by (apply istart_le; lia). lia. }
      { rewrite (Permutation_length P'), HL. specialize (IB iy1 Q3). lia. }
      { eapply Forall_impl; [|exact W']. intros a Ha. apply within_iff in Ha. apply Ha. }
      { intros d i j Hij Hj. apply S'; assumption. }
      exists t', row. split; [|split; [exact P'|exact RR]].
      replace (Z.of_nat (istart N p iy1) - 1 - Z.of_nat (istart N p iy0) + 1)%Z
        with (Z.of_nat (istart N p iy1 - istart N p iy0)) by lia.
      erewrite omap_ext_in; [rewrite ER; reflexivity|].
      intros j Hj. apply in_seq in Hj. cbn beta.
      rewrite IE by lia. replace (S (iy0 + j)) with (iy0 + S j) by lia.
      assert (istart N p iy0 <= istart N p (iy0 + j)) by (apply istart_le; lia).
      assert (istart N p iy0 < istart N p (iy0 + S j)) by (apply IM; lia).
      f_equal; lia. }
    cbn [obind].
    (* assembly *)
    cbn [length Nat.add] in LY, LZ. rewrite seq_length in LY. rewrite prod_length, !seq_length in LZ.
    destruct (rowf_spec vx nx xrow Hx XR) as (X0 & Xn & XI & XE).
    set (X := rowf vx nx xrow) in *.
    set (Y := fun i => rowf vy ny (nth i yrows [])).
    set (Z := fun i j => rowf vz nz (nth (i * ny + j) zrows [])).
    assert (YS : forall i, i < nx -> mread yrows i = Done (nth i yrows []) /\ rowok vy ny (nth i yrows [])).
    { intros i Hi. split; [unfold mread; rewrite (nth_error_nth' yrows [] (n := i)) by lia; reflexivity|].
      rewrite Forall_forall in YR. apply YR, nth_In. lia. }
    assert (ZS : forall i j, i < nx -> j < ny -> mread zrows (i * ny + j) = Done (nth (i * ny + j) zrows []) /\ rowok vz nz (nth (i * ny + j) zrows [])).
    { intros i j Hi Hj. assert (i * ny + j < length zrows) by (rewrite LZ; nia).
      split; [unfold mread; rewrite (nth_error_nth' zrows []) by assumption; reflexivity|].
      rewrite Forall_forall in ZR. apply ZR, nth_In. assumption. }
    set (box := fun i j k => Ort (Vec (X i) (Y i j) (Z i j k)) (Vec (X (S i)) (Y i (S j)) (Z i j (S k)))).
    rewrite (omap_pure _ (fun i => box (i / (ny * nz)) (i / nz mod ny) (i mod nz))).
    2:{ intros i Hi. apply in_seq in Hi.
        assert (B1 : i / (ny * nz) < nx) by (apply Nat.div_lt_upper_bound; unfold p in Hi; nia).
        assert (B2 : i / nz mod ny < ny) by (apply Nat.mod_upper_bound; lia).
        assert (B3 : i mod nz < nz) by (apply Nat.mod_upper_bound; lia).
        rewrite (XE _ B1). cbn [obind]. destruct (YS _ B1) as (EY1 & RY1). rewrite EY1. cbn [obind].
        destruct (rowf_spec vy ny _ Hy RY1) as (_ & _ & _ & YE). rewrite (YE _ B2). cbn [obind].
        destruct (ZS _ _ B1 B2) as (EZ1 & RZ1). rewrite EZ1. cbn [obind].
        destruct (rowf_spec vz nz _ Hz RZ1) as (_ & _ & _ & ZE). rewrite (ZE _ B3). cbn [obind].
        reflexivity. }
    eexists. split; [reflexivity|]. split; [rewrite map_length, seq_length; reflexivity|].
    exists X, Y, Z. split; [auto|]. split; [|split].
    - intros i Hi. destruct (YS _ Hi) as (_ & R). destruct (rowf_spec vy ny _ Hy R) as (A1 & A2 & A3 & _). auto.
    - intros i j Hi Hj. destruct (ZS _ _ Hi Hj) as (_ & R). destruct (rowf_spec vz nz _ Hz R) as (A1 & A2 & A3 & _). auto.
    - intros i j k Hi Hj Hk.
      assert (D1 : ((i * ny + j) * nz + k) / nz = i * ny + j) by (rewrite Nat.div_add_l by lia; rewrite Nat.div_small by assumption; lia).
      assert (D2 : ((i * ny + j) * nz + k) mod nz = k) by (rewrite Nat.add_comm, Nat.mod_add by lia; apply Nat.mod_small; assumption).
      assert (D3 : (i * ny + j) mod ny = j) by (rewrite Nat.add_comm, Nat.mod_add by lia; apply Nat.mod_small; assumption).
      assert (D4 : (i * ny + j) / ny = i) by (rewrite Nat.div_add_l by lia; rewrite Nat.div_small by assumption; lia).
      rewrite nth_error_map_seq.
      2:{ unfold p. assert (i * ny + j < nx * ny) by nia. nia. }
      rewrite D2, D1, D3. replace ((i * ny + j) * nz + k) with ((i * ny + j) * nz + k) by reflexivity.
      rewrite (Nat.mul_comm ny nz), <- Nat.div_div by lia. rewrite D1, D4. reflexivity.
  Qed.

  (** smoothing two grids gives a grid *)
  Lemma ema_grid nx ny nz d1 d2 : grid_of le root nx ny nz d1 -> grid_of le root nx ny nz d2 ->
    exists d, omap (fun i => do t <- mread d1 i; do o <- mread d2 i; Done (emaOrt ema t o)) (seq 0 (nx * ny * nz)) = Done d /\
      grid_of le root nx ny nz d.
  Proof.
    intros (L1 & X1 & Y1 & Z1 & (A1 & A2 & A3) & HY1 & HZ1 & HD1) (L2 & X2 & Y2 & Z2 & (B1 & B2 & B3) & HY2 & HZ2 & HD2).
    set (d0 := Ort (olow root) (olow root)).
    rewrite (omap_pure _ (fun i => emaOrt ema (nth i d1 d0) (nth i d2 d0))).
    2:{ intros i Hi. apply in_seq in Hi. unfold mread.
        rewrite (nth_error_nth' d1 d0), (nth_error_nth' d2 d0) by lia. reflexivity. }
    eexists. split; [reflexivity|]. split; [rewrite map_length, seq_length; reflexivity|].
    exists (fun i => ema (X1 i) (X2 i)), (fun i j => ema (Y1 i j) (Y2 i j)), (fun i j k => ema (Z1 i j k) (Z2 i j k)).
    split; [|split; [|split]].
    - rewrite A1, A2, B1, B2, !(ema_same _ _ _ AV). split; [reflexivity|]. split; [reflexivity|].
      intros i Hi. apply (ema_mono _ _ _ AV); [apply A3|apply B3]; exact Hi.
    - intros i Hi. destruct (HY1 i Hi) as (E1 & E2 & E3), (HY2 i Hi) as (F1 & F2 & F3).
      rewrite E1, E2, F1, F2, !(ema_same _ _ _ AV). split; [reflexivity|]. split; [reflexivity|].
      intros j Hj. apply (ema_mono _ _ _ AV); [apply E3|apply F3]; exact Hj.
    - intros i j Hi Hj. destruct (HZ1 i j Hi Hj) as (E1 & E2 & E3), (HZ2 i j Hi Hj) as (F1 & F2 & F3).
      rewrite E1, E2, F1, F2, !(ema_same _ _ _ AV). split; [reflexivity|]. split; [reflexivity|].
      intros k Hk. apply (ema_mono _ _ _ AV); [apply E3|apply F3]; exact Hk.
    - intros i j k Hi Hj Hk. rewrite nth_error_map_seq.
      2:{ assert (i * ny + j < nx * ny) by nia. nia. }
      rewrite (nth_error_nth _ _ _ (HD1 i j k Hi Hj Hk)), (nth_error_nth _ _ _ (HD2 i j k Hi Hj Hk)). reflexivity.
  Qed.

  Lemma grid_tiles nx ny nz doms : grid_of le root nx ny nz doms -> tiles le lt root doms.
  Proof.
    intros G p Hp. destruct (search_spec le lt O root nx ny nz doms p G Hp) as (r & d & _ & E & I & U).
    exists r, d. auto.
  Qed.

  Lemma history_grid nx ny nz calls : 0 < nx -> 0 < ny -> 0 < nz ->
    Forall (fun c => nx * ny * nz <= length (concat c) /\ Forall (within le root) (concat c)) calls ->
    forall old, match old with None => True | Some o => grid_of le root nx ny nz o end ->
    exists res, decomposeHistory mid ema sortBy root nx ny nz (nx * ny * nz) old calls = Done res /\
      match res with
      | None => old = None /\ calls = []
      | Some doms => grid_of le root nx ny nz doms
      end.
  Proof.
    intros Hx Hy Hz. induction calls as [|c calls IH]; intros HF old HO.
    - exists old. split; [reflexivity|]. destruct old; auto.
    - inversion HF as [|? ? (HN & HW) HF']; subst. cbn [decomposeHistory]. unfold decomposeDomain.
      destruct (decompose_grid nx ny nz (concat c) Hx Hy Hz HN HW) as (t & E & G). rewrite E. cbn [obind].
      destruct old as [o|].
      + destruct (ema_grid nx ny nz t o G HO) as (d & E2 & G2). rewrite E2. cbn [obind].
        destruct (IH HF' (Some d) G2) as (res & E3 & H3). exists res. split; [exact E3|].
        destruct res; [exact H3|]. destruct H3; discriminate.
      + cbn [obind]. destruct (IH HF' (Some t) G) as (res & E3 & H3). exists res. split; [exact E3|].
        destruct res; [exact H3|]. destruct H3; discriminate.
  Qed.
End Decompose.
