(** The code of the generator follows the recurrence. *)
From Coq Require Import List Arith ZArith Reals Lia Lra Bool.
From Verif Require Import Outcome ListUtil F64 MtModel MtSpec.
Import ListNotations.
Local Open Scope Z_scope.

(** ** Words *)
Definition word (z : Z) : Prop := 0 <= z < 2 ^ 32.

Lemma land_ones32 z : Z.land z 0xffffffff = z mod 2 ^ 32.
Proof. change 0xffffffff with (Z.ones 32). apply Z.land_ones. lia. Qed.
Lemma word_bits z : 0 <= z -> (word z <-> forall i, 32 <= i -> Z.testbit z i = false).
Proof.
  intros Hz. split.
  - intros (_ & H) i Hi. destruct (Z.eq_dec z 0) as [->|N]; [apply Z.bits_0|]. apply Z.bits_above_log2; [lia|]. assert (Z.log2 z < 32) by (apply Z.log2_lt_pow2; lia). lia.
  - intros H. split; [exact Hz|]. destruct (Z.eq_dec z 0) as [->|N]; [lia|]. apply Z.log2_lt_pow2; [lia|]. destruct (Z_lt_ge_dec (Z.log2 z) 32) as [L|G]; [exact L|]. pose proof (Z.bit_log2 z ltac:(lia)). rewrite H in H0 by lia. discriminate.
Qed.
Lemma word_lxor a b : word a -> word b -> word (Z.lxor a b).
Proof.
  intros A B. apply word_bits; [apply Z.lxor_nonneg; destruct A, B; tauto|]. intros i Hi. rewrite Z.lxor_spec. rewrite (proj1 (word_bits a (proj1 A)) A), (proj1 (word_bits b (proj1 B)) B) by lia. reflexivity.
Qed.
Lemma word_land a b : 0 <= a -> word b -> word (Z.land a b).
Proof.
  intros A B. apply word_bits; [apply Z.land_nonneg; lia|]. intros i Hi. rewrite Z.land_spec, (proj1 (word_bits b (proj1 B)) B) by lia. apply andb_false_r.
Qed.
Lemma word_div a k : 0 <= k -> word a -> word (a / 2 ^ k).
Proof.
  intros K (A & B). pose proof (Z.pow_pos_nonneg 2 k ltac:(lia) K). split; [apply Z.div_pos; lia|]. apply Z.le_lt_trans with a; [|exact B]. apply Z.div_le_upper_bound; nia.
Qed.

(** ** The seed *)
Lemma mread_nth {A} (m : list A) i d : (i < length m)%nat -> mread m i = Done (nth i m d).
Proof. intros H. unfold mread. rewrite (nth_error_nth' m d H). reflexivity. Qed.
Lemma mwrite_ok {A} (m : list A) i v d : (i < length m)%nat -> exists m', mwrite m i v = Done m' /\ length m' = length m /\ nth i m' d = v /\ forall j, j <> i -> nth j m' d = nth j m d.
Proof.
  intros H. unfold mwrite. replace (i <? length m)%nat with true by (symmetry; apply Nat.ltb_lt; exact H). eexists. split; [reflexivity|].
  assert (L : length (firstn i m) = i) by (rewrite firstn_length; lia). split; [rewrite app_length; cbn [length]; rewrite L, skipn_length; lia|].
  split; [rewrite app_nth2, L, Nat.sub_diag by lia; reflexivity|]. intros j Hj. destruct (lt_dec j i) as [C|C].
  - rewrite app_nth1 by lia. rewrite <- (firstn_skipn i m) at 2. rewrite app_nth1 by lia. reflexivity.
  - rewrite app_nth2 by lia. rewrite L. destruct (j - i)%nat as [|k] eqn:E; [lia|]. cbn [nth]. rewrite <- (firstn_skipn (S i) m) at 2. rewrite app_nth2; rewrite firstn_length; [|lia]. f_equal. lia.
Qed.
Lemma u64_mod z : u64 z mod 2 ^ 32 = z mod 2 ^ 32.
Proof. unfold u64. symmetry. apply Znumtheory.Zmod_div_mod; [lia|lia|]. exists (2 ^ 32). reflexivity. Qed.
Lemma seedWord p i : Z.land (u64 (u64 (1812433253 * Z.lxor p (Z.shiftr p 30)) + Z.of_nat i)) 0xffffffff = (1812433253 * Z.lxor p (p / 2 ^ 30) + Z.of_nat i) mod 2 ^ 32.
Proof. rewrite land_ones32, u64_mod, Zplus_mod, u64_mod, <- Zplus_mod, Z.shiftr_div_pow2 by lia. reflexivity. Qed.

Section Stream.
  Variables (s : Z) (x : nat -> Z).
  Hypothesis X : stream s x.

  Lemma x_word n : word (x n).
  Proof using X.
    induction n as [n IH] using (well_founded_induction lt_wf). destruct (lt_dec n 624) as [C|C].
    - destruct n as [|n]; [rewrite (proj1 (proj1 X))|rewrite (proj2 (proj1 X)) by lia]; unfold word; apply Z.mod_pos_bound; lia.
    - replace n with (n - 624 + 624)%nat by lia. rewrite (proj2 X). apply word_lxor; [apply IH; lia|]. unfold matrix.
      pose proof (IH (n - 624)%nat ltac:(lia)) as W. pose proof (Z.mod_pos_bound (x (n - 624 + 1)%nat) (2 ^ 31) ltac:(lia)) as M.
      assert (D : 0 <= x (n - 624)%nat / 2 ^ 31 <= 1) by (split; [apply Z.div_pos; destruct W; lia|]; apply Z.lt_succ_r, Z.div_lt_upper_bound; destruct W; lia).
      apply word_lxor; [|destruct (Z.odd _); split; lia]. apply (word_div _ 1); [lia|]. split; nia.
  Qed.

  Lemma seed_loop g : length (g_mt g) = 624%nat -> exists mt, init_genrand s g = Done (Gen mt MT_N) /\ length mt = 624%nat /\ forall j, (j < 624)%nat -> nth j mt 0 = x j.
  Proof using X.
    intros L. unfold init_genrand. destruct (mwrite_ok (g_mt g) 0 (Z.land s 0xffffffff) 0) as (m & E & Lm & V & _); [lia|]. rewrite E. cbn [obind]. rewrite land_ones32 in V.
    assert (Q : forall n, (n <= 623)%nat -> exists mt, ofold seedStep (seq 1 n) m = Done mt /\ length mt = 624%nat /\ forall j, (j < S n)%nat -> nth j mt 0 = x j).
    { induction n as [|n IH]; intros Hn.
      - exists m. split; [reflexivity|]. split; [lia|]. intros [|j] Hj; [|lia]. rewrite V. symmetry. apply X.
      - destruct IH as (mt & E1 & L1 & V1); [lia|]. rewrite seq_S, ofold_app, E1. cbn [obind ofold]. unfold seedStep. rewrite (mread_nth mt _ 0) by lia. cbn [obind].
        destruct (mwrite_ok mt (1 + n) (u64 (u64 (1812433253 * Z.lxor (nth (1 + n - 1) mt 0) (Z.shiftr (nth (1 + n - 1) mt 0) 30)) + Z.of_nat (1 + n))) 0) as (m1 & E2 & L2 & V2 & O2); [lia|]. rewrite E2. cbn [obind].
        rewrite (mread_nth m1 _ 0) by lia. cbn [obind]. rewrite V2, seedWord.
        destruct (mwrite_ok m1 (1 + n) ((1812433253 * Z.lxor (nth (1 + n - 1) mt 0) (nth (1 + n - 1) mt 0 / 2 ^ 30) + Z.of_nat (1 + n)) mod 2 ^ 32) 0) as (m2 & E3 & L3 & V3 & O3); [lia|]. rewrite E3. cbn [obind].
        exists m2. split; [reflexivity|]. split; [lia|]. intros j Hj. destruct (Nat.eq_dec j (1 + n)) as [->|N].
        + rewrite V3, V1 by lia. symmetry. apply X. lia.
        + rewrite O3, O2 by assumption. apply V1. lia. }
    destruct (Q 623%nat (le_n _)) as (mt & E1 & L1 & V1). change (MT_N - 1)%nat with 623%nat. rewrite E1. cbn [obind]. exists mt. auto.
  Qed.

  (** the word that the code computes *)
  Lemma twist_matrix u l : word u -> word l -> let y := Z.lor (Z.land u UPPER_MASK) (Z.land l LOWER_MASK) in
    Z.lxor (Z.shiftr y 1) (mag01 (Z.land y 1)) = matrix u l.
  Proof using.
    intros U L y. assert (Y : y = u / 2 ^ 31 * 2 ^ 31 + l mod 2 ^ 31).
    { unfold y, LOWER_MASK. change 0x7fffffff with (Z.ones 31). rewrite Z.land_ones by lia.
      assert (A : Z.land u UPPER_MASK = u / 2 ^ 31 * 2 ^ 31).
      { unfold UPPER_MASK. change 0x80000000 with (Z.shiftl 1 31). apply Z.bits_inj'. intros i Hi. rewrite Z.land_spec. rewrite <- Z.shiftl_mul_pow2, <- Z.shiftr_div_pow2 by lia.
        rewrite !Z.shiftl_spec by lia. destruct (Z_lt_ge_dec i 31).
        - rewrite !(Z.testbit_neg_r _ (i - 31)) by lia. apply andb_false_r.
        - rewrite Z.shiftr_spec by lia. replace (i - 31 + 31) with i by lia. destruct (Z.eq_dec i 31) as [->|N]; [cbn; apply andb_true_r|].
          rewrite (proj1 (word_bits u (proj1 U)) U i) by lia. reflexivity. }
      rewrite A. rewrite <- Z.lxor_lor; [rewrite <- Z.add_nocarry_lxor; [reflexivity|]|].
      all: apply Z.bits_inj'; intros i Hi; rewrite Z.land_spec, Z.bits_0, <- Z.land_ones by lia; rewrite <- Z.shiftl_mul_pow2, Z.shiftl_spec, Z.land_spec by lia; destruct (Z_lt_ge_dec i 31);
        [rewrite (Z.testbit_neg_r _ (i - 31)) by lia; reflexivity|rewrite (Z.ones_spec_high 31 i) by lia; rewrite !andb_false_r; reflexivity]. }
    unfold matrix. rewrite <- Y. rewrite Z.shiftr_div_pow2 by lia. change (2 ^ 1) with 2. f_equal. change 1 with (Z.ones 1). rewrite Z.land_ones by lia. change (2 ^ 1) with 2. rewrite Zmod_odd. unfold mag01, MATRIX_A. destruct (Z.odd y); reflexivity.
  Qed.

  Lemma twistWord_ok mt kk next from b i : length mt = 624%nat -> (kk < 624)%nat -> (next < 624)%nat -> (from < 624)%nat ->
    nth kk mt 0 = x i -> nth next mt 0 = x (i + 1)%nat -> nth from mt 0 = x (i + 397)%nat -> b = (i + 624)%nat ->
    exists mt', twistWord mt kk next from = Done mt' /\ length mt' = 624%nat /\ nth kk mt' 0 = x b /\ forall j, j <> kk -> nth j mt' 0 = nth j mt 0.
  Proof using X.
    intros L H1 H2 H3 E1 E2 E3 ->. unfold twistWord. rewrite !(mread_nth mt _ 0) by lia. cbn [obind].
    match goal with |- context [mwrite mt kk ?v] => destruct (mwrite_ok mt kk v 0) as (m & E & Lm & V & O); [lia|] end. rewrite E. exists m. split; [reflexivity|]. split; [lia|]. split; [|exact O].
    rewrite V, Z.lxor_assoc, twist_matrix; [|rewrite E1; apply x_word|rewrite E2; apply x_word]. rewrite E1, E2, E3. symmetry. apply X.
  Qed.

  Lemma twist_ok mt b : length mt = 624%nat -> (forall j, (j < 624)%nat -> nth j mt 0 = x (b * 624 + j)%nat) ->
    exists mt', twist mt = Done mt' /\ length mt' = 624%nat /\ forall j, (j < 624)%nat -> nth j mt' 0 = x (S b * 624 + j)%nat.
  Proof using X.
    intros L H.
    assert (Q1 : forall n, (n <= 227)%nat -> exists m, ofold (fun mt kk => twistWord mt kk (kk + 1) (kk + MT_M)) (seq 0 n) mt = Done m /\ length m = 624%nat /\
      (forall j, (j < n)%nat -> nth j m 0 = x (S b * 624 + j)%nat) /\ (forall j, (n <= j < 624)%nat -> nth j m 0 = x (b * 624 + j)%nat)).
    { induction n as [|n IH]; intros Hn.
      - exists mt. split; [reflexivity|]. split; [exact L|]. split; [lia|]. intros j Hj. apply H. lia.
      - destruct IH as (m & E & Lm & V1 & V2); [lia|]. rewrite seq_S, ofold_app, E. cbn [obind ofold]. unfold MT_M. change (0 + n)%nat with n.
        destruct (twistWord_ok m n (n + 1) (n + 397) (S b * 624 + n) (b * 624 + n)) as (m' & E' & L' & W1 & W2); try lia.
        + apply V2. lia.
        + rewrite V2 by lia. f_equal. lia.
        + rewrite V2 by lia. f_equal. lia.
        + rewrite E'. cbn [obind]. exists m'. split; [reflexivity|]. split; [exact L'|]. split; intros j Hj.
          * destruct (Nat.eq_dec j n) as [->|N]; [exact W1|]. rewrite W2 by exact N. apply V1. lia.
          * rewrite W2 by lia. apply V2. lia. }
    destruct (Q1 227%nat (le_n _)) as (m1 & E1 & L1 & A1 & B1).
    assert (Q2 : forall n, (n <= 396)%nat -> exists m, ofold (fun mt kk => twistWord mt kk (kk + 1) (kk - (MT_N - MT_M))) (seq 227 n) m1 = Done m /\ length m = 624%nat /\
      (forall j, (j < 227 + n)%nat -> nth j m 0 = x (S b * 624 + j)%nat) /\ (forall j, (227 + n <= j < 624)%nat -> nth j m 0 = x (b * 624 + j)%nat)).
    { induction n as [|n IH]; intros Hn.
      - exists m1. split; [reflexivity|]. split; [exact L1|]. split; [intros; apply A1; lia|]. intros j Hj. apply B1. lia.
      - destruct IH as (m & E & Lm & V1 & V2); [lia|]. rewrite seq_S, ofold_app, E. cbn [obind ofold]. change (MT_N - MT_M)%nat with 227%nat.
        destruct (twistWord_ok m (227 + n) (227 + n + 1) (227 + n - 227) (S b * 624 + (227 + n)) (b * 624 + (227 + n))) as (m' & E' & L' & W1 & W2); try lia.
        + apply V2. lia.
        + rewrite V2 by lia. f_equal. lia.
        + rewrite V1 by lia. f_equal. lia.
        + rewrite E'. cbn [obind]. exists m'. split; [reflexivity|]. split; [exact L'|]. split; intros j Hj.
          * destruct (Nat.eq_dec j (227 + n)) as [->|N]; [exact W1|]. rewrite W2 by exact N. apply V1. lia.
          * rewrite W2 by lia. apply V2. lia. }
    destruct (Q2 396%nat (le_n _)) as (m2 & E2 & L2 & A2 & B2).
    destruct (twistWord_ok m2 623 0 396 (S b * 624 + 623) (b * 624 + 623)) as (m' & E' & L' & W1 & W2); try lia.
    - apply B2. lia.
    - rewrite A2 by lia. f_equal. lia.
    - rewrite A2 by lia. f_equal. lia.
    - exists m'. unfold twist. change (MT_N - MT_M)%nat with 227%nat in *. change (MT_M - 1)%nat with 396%nat. change (MT_N - 1)%nat with 623%nat. rewrite E1. cbn [obind]. rewrite E2. cbn [obind]. rewrite E'. split; [reflexivity|]. split; [exact L'|].
      intros j Hj. destruct (Nat.eq_dec j 623) as [->|N]; [exact W1|]. rewrite W2 by exact N. apply A2. lia.
  Qed.

  (** ** Tempering *)
  Lemma tempering_ok y : word y -> tempered y (tempering y) /\ word (tempering y).
  Proof using.
    intros W. unfold tempering, tempered. rewrite !Z.shiftr_div_pow2, !Z.shiftl_mul_pow2 by lia.
    set (y1 := Z.lxor y (y / 2 ^ 11)). assert (W1 : word y1) by (apply word_lxor; [exact W|apply word_div; [lia|exact W]]).
    assert (S : forall z k, word z -> 0 <= k <= 32 -> u64 (z * 2 ^ k) = z * 2 ^ k).
    { intros z k (A & B) K. unfold u64. apply Z.mod_small. pose proof (Z.pow_le_mono_r 2 k 32 ltac:(lia) ltac:(lia)). pose proof (Z.pow_pos_nonneg 2 k ltac:(lia) ltac:(lia)). nia. }
    rewrite (S y1) by (assumption || lia).
    set (y2 := Z.lxor y1 (Z.land (y1 * 2 ^ 7) 2636928640)). assert (W2 : word y2).
    { apply word_lxor; [exact W1|apply word_land; [destruct W1; nia|split; lia]]. }
    rewrite (S y2) by (assumption || lia).
    set (y3 := Z.lxor y2 (Z.land (y2 * 2 ^ 15) 4022730752)). assert (W3 : word y3).
    { apply word_lxor; [exact W2|apply word_land; [destruct W2; nia|split; lia]]. }
    split; [exists y1, y2, y3; repeat split; reflexivity|]. apply word_lxor; [exact W3|apply word_div; [lia|exact W3]].
  Qed.

  (** ** Calls *)
  (** the state after n numbers *)
  Definition at_ (n : nat) (g : gen) : Prop := length (g_mt g) = 624%nat /\
    exists b, (g_mti g <= 624)%nat /\ (b * 624 + g_mti g = 624 + n)%nat /\ forall j, (j < 624)%nat -> nth j (g_mt g) 0 = x (b * 624 + j)%nat.

  Lemma seed_at g : length (g_mt g) = 624%nat -> exists g', init_genrand s g = Done g' /\ at_ 0 g'.
  Proof using X.
    intros L. destruct (seed_loop g L) as (mt & E & Lm & V). exists (Gen mt MT_N). split; [exact E|]. split; [exact Lm|]. exists 0%nat. cbn [g_mti g_mt]. unfold MT_N. split; [lia|]. split; [lia|exact V].
  Qed.

  Lemma next_at n g : at_ n g -> exists g', genrand_int32 g = Done (tempering (x (624 + n)%nat), g') /\ at_ (S n) g'.
  Proof using X.
    intros (L & b & M & P & V). unfold genrand_int32, MT_N. destruct (624 <=? g_mti g)%nat eqn:C.
    - apply Nat.leb_le in C. replace (g_mti g =? 624 + 1)%nat with false by (symmetry; apply Nat.eqb_neq; lia). cbn [obind]. destruct (twist_ok (g_mt g) b L V) as (mt & E & Lm & W). rewrite E. cbn [obind g_mt g_mti].
      rewrite (mread_nth mt 0 0) by lia. cbn [obind]. rewrite W by lia. exists (Gen mt (0 + 1)). split; [replace (S b * 624 + 0)%nat with (624 + n)%nat by lia; reflexivity|]. split; [exact Lm|]. exists (S b). cbn [g_mt g_mti]. split; [lia|]. split; [lia|exact W].
    - apply Nat.leb_gt in C. cbn [obind]. rewrite (mread_nth (g_mt g) _ 0) by lia. cbn [obind]. rewrite V by lia. exists (Gen (g_mt g) (g_mti g + 1)). split; [replace (b * 624 + g_mti g)%nat with (624 + n)%nat by lia; reflexivity|]. split; [exact L|]. exists b. cbn [g_mt g_mti]. split; [lia|]. split; [lia|exact V].
  Qed.

  Lemma calls_at k : forall n g, at_ n g -> exists g', calls genrand_int32 k g = Done (map (fun i => tempering (x (624 + i)%nat)) (seq n k), g') /\ at_ (n + k) g'.
  Proof using X.
    induction k as [|k IH]; intros n g H.
    - exists g. rewrite Nat.add_0_r. split; [reflexivity|exact H].
    - destruct (next_at n g H) as (g1 & E1 & H1). destruct (IH (S n) g1 H1) as (g2 & E2 & H2). exists g2. cbn [calls seq map]. rewrite E1. cbn [obind]. rewrite E2. cbn [obind]. split; [reflexivity|]. replace (n + S k)%nat with (S n + k)%nat by lia. exact H2.
  Qed.
End Stream.

(** an unseeded generator is one with the seed 5489 *)
Lemma unseeded_eq g g0 : g_mti g = 625%nat -> init_genrand 5489 g = Done g0 -> genrand_int32 g = genrand_int32 g0.
Proof.
  intros M E. assert (M0 : g_mti g0 = 624%nat).
  { unfold init_genrand in E. destruct (mwrite (g_mt g) 0 _) as [m| |]; cbn [obind] in E; try discriminate E. destruct (ofold seedStep _ m) as [m'| |]; cbn [obind] in E; try discriminate E. injection E as <-. reflexivity. }
  unfold genrand_int32. replace (MT_N <=? g_mti g)%nat with true by (rewrite M; reflexivity). replace (g_mti g =? MT_N + 1)%nat with true by (rewrite M; reflexivity).
  replace (MT_N <=? g_mti g0)%nat with true by (rewrite M0; reflexivity). replace (g_mti g0 =? MT_N + 1)%nat with false by (rewrite M0; reflexivity). rewrite E. cbn [obind]. reflexivity.
Qed.

(** ** The stream exists, once *)
Definition nextWord (s : Z) (l : list Z) : Z :=
  let n := length l in
  if (n =? 0)%nat then s mod 2 ^ 32
  else if (n <? 624)%nat then (1812433253 * Z.lxor (nth (n - 1) l 0) (nth (n - 1) l 0 / 2 ^ 30) + Z.of_nat n) mod 2 ^ 32
  else Z.lxor (nth (n - 624 + 397) l 0) (matrix (nth (n - 624) l 0) (nth (n - 624 + 1) l 0)).
Fixpoint prefix (s : Z) (n : nat) : list Z := match n with O => [] | S n => prefix s n ++ [nextWord s (prefix s n)] end.
Definition theStream (s : Z) (n : nat) : Z := nth n (prefix s (S n)) 0.
Lemma prefix_length s n : length (prefix s n) = n.
Proof. induction n; [reflexivity|]. cbn [prefix]. rewrite app_length, IHn. cbn. lia. Qed.
Lemma prefix_nth s n i : (i < n)%nat -> nth i (prefix s n) 0 = theStream s i.
Proof.
  induction n as [|n IH]; intros H; [lia|]. destruct (Nat.eq_dec i n) as [->|N]; [reflexivity|]. cbn [prefix]. rewrite app_nth1 by (rewrite prefix_length; lia). apply IH. lia.
Qed.
Lemma theStream_eq s n : theStream s n = nextWord s (prefix s n).
Proof. unfold theStream. cbn [prefix]. rewrite app_nth2, prefix_length, Nat.sub_diag by (rewrite prefix_length; lia). reflexivity. Qed.
Lemma theStream_ok s : stream s (theStream s).
Proof.
  split; [split|].
  - rewrite theStream_eq. reflexivity.
  - intros i Hi. rewrite theStream_eq. unfold nextWord. rewrite prefix_length. replace (i =? 0)%nat with false by (symmetry; apply Nat.eqb_neq; lia). replace (i <? 624)%nat with true by (symmetry; apply Nat.ltb_lt; lia). rewrite prefix_nth by lia. reflexivity.
  - intros k. rewrite theStream_eq. unfold nextWord. rewrite prefix_length. replace (k + 624 =? 0)%nat with false by (symmetry; apply Nat.eqb_neq; lia). replace (k + 624 <? 624)%nat with false by (symmetry; apply Nat.ltb_ge; lia). replace (k + 624 - 624)%nat with k by lia. rewrite !prefix_nth by lia. reflexivity.
Qed.
Lemma stream_unique s x y : stream s x -> stream s y -> forall n, x n = y n.
Proof.
  intros X Y n. induction n as [n IH] using (well_founded_induction lt_wf). destruct (lt_dec n 624) as [C|C].
  - destruct n as [|n]; [rewrite (proj1 (proj1 X)), (proj1 (proj1 Y)); reflexivity|]. rewrite (proj2 (proj1 X)), (proj2 (proj1 Y)) by lia. rewrite IH by lia. reflexivity.
  - replace n with (n - 624 + 624)%nat by lia. rewrite (proj2 X), (proj2 Y), !IH by lia. reflexivity.
Qed.

Theorem stream_holds s g n : length (g_mt g) = 624%nat -> exists g0 g' ws, init_genrand s g = Done g0 /\ calls genrand_int32 n g0 = Done (ws, g') /\ length ws = n /\ outputs s ws.
Proof.
  intros L. pose proof (theStream_ok s) as X. destruct (seed_at s _ X g L) as (g0 & E & A). destruct (calls_at s _ X n 0 g0 A) as (g' & E' & _).
  exists g0, g'. eexists. split; [exact E|]. split; [exact E'|]. split; [rewrite map_length, seq_length; reflexivity|]. exists (theStream s). split; [exact X|]. intros k w H.
  rewrite nth_error_map in H. destruct (nth_error (seq 0 n) k) as [i|] eqn:Ei; [|discriminate H]. cbn [option_map] in H. injection H as <-.
  apply nth_error_nth with (d := 0%nat) in Ei as Ei'. assert (k < n)%nat by (rewrite <- (seq_length n 0); apply nth_error_Some; congruence). rewrite seq_nth in Ei' by assumption. subst i. apply tempering_ok. apply (x_word s _ X).
Qed.
Theorem unseeded_holds junk n : length junk = 624%nat -> exists g' ws, calls genrand_int32 n (unseeded junk) = Done (ws, g') /\ length ws = n /\ outputs 5489 ws.
Proof.
  intros L. destruct (stream_holds 5489 (unseeded junk) n L) as (g0 & g' & ws & E & E' & Hl & O). destruct n as [|n].
  - exists (unseeded junk), []. split; [reflexivity|]. split; [reflexivity|]. exists (theStream 5489). split; [apply theStream_ok|]. intros [|k] w H; discriminate H.
  - exists g', ws. split; [|split; assumption]. cbn [calls] in *. rewrite (unseeded_eq (unseeded junk) g0 eq_refl E). exact E'.
Qed.
Theorem initialize_holds g n : length (g_mt g) = 624%nat -> exists g' ws, calls genrand_int32 n (initialize g) = Done (ws, g') /\ length ws = n /\ outputs 5489 ws.
Proof. exact (unseeded_holds (g_mt g) n). Qed.
