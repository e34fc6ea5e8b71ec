(** Different seeds give different numbers; ranges of the numbers. *)
From Coq Require Import List Arith ZArith Reals Lia Lra Bool.
From Flocq Require Import Core BinarySingleNaN.
From Verif Require Import Outcome ListUtil F64 PointsModel ParticleModel ParticleSpec ParticleProofs MtModel MtSpec MtProofs.
Import ListNotations.
Local Open Scope Z_scope.

(** ** Every step can be undone *)
Lemma undo_right k a b : 0 < k -> 0 <= a -> 0 <= b -> Z.lxor a (a / 2 ^ k) = Z.lxor b (b / 2 ^ k) -> a = b.
Proof.
  intros K A B H. apply Z.lxor_eq. set (d := Z.lxor a b). assert (D : 0 <= d) by (apply Z.lxor_nonneg; tauto).
  assert (E : d = d / 2 ^ k).
  { unfold d. rewrite <- Z.shiftr_div_pow2, Z.shiftr_lxor, !Z.shiftr_div_pow2 by lia. apply Z.lxor_eq. rewrite <- (Z.lxor_nilpotent (Z.lxor a (a / 2 ^ k))). rewrite H at 2. apply Z.bits_inj'. intros i _. rewrite !Z.lxor_spec. destruct (Z.testbit a i), (Z.testbit b i), (Z.testbit (a / 2 ^ k) i), (Z.testbit (b / 2 ^ k) i); reflexivity. }
  destruct (Z.eq_dec d 0) as [Q|N]; [exact Q|]. pose proof (Z.div_lt d (2 ^ k) ltac:(lia) (proj1 (Z.pow_gt_1 2 k ltac:(lia)) K)). lia.
Qed.
Lemma undo_left k m a b : 0 < k -> Z.lxor a (Z.land (a * 2 ^ k) m) = Z.lxor b (Z.land (b * 2 ^ k) m) -> a = b.
Proof.
  intros K H. assert (Q : forall n i, (Z.to_nat i <= n)%nat -> 0 <= i -> Z.testbit a i = Z.testbit b i).
  { induction n as [|n IH]; intros i Hn Hi.
    all: pose proof (f_equal (fun z => Z.testbit z i) H) as E; cbn beta in E; rewrite !Z.lxor_spec, !Z.land_spec, !Z.mul_pow2_bits in E by lia.
    - rewrite !(Z.testbit_neg_r _ (i - k)) in E by lia. rewrite !andb_false_l, !xorb_false_r in E. exact E.
    - assert (G : Z.testbit a (i - k) = Z.testbit b (i - k)) by (destruct (Z_lt_ge_dec (i - k) 0); [rewrite !Z.testbit_neg_r by lia; reflexivity|apply IH; lia]).
      rewrite G in E. destruct (Z.testbit a i), (Z.testbit b i), (Z.testbit b (i - k) && Z.testbit m i)%bool; cbn in E; congruence. }
  apply Z.bits_inj'. intros i Hi. exact (Q (Z.to_nat i) i (le_n _) Hi).
Qed.
Lemma tempered_inj y y' w : word y -> word y' -> tempered y w -> tempered y' w -> y = y'.
Proof.
  intros W W' (a1 & a2 & a3 & -> & -> & -> & E) (b1 & b2 & b3 & -> & -> & -> & E'). rewrite E in E'.
  set (y1 := Z.lxor y (y / 2 ^ 11)) in *. set (z1 := Z.lxor y' (y' / 2 ^ 11)) in *.
  assert (W1 : word y1) by (apply word_lxor; [exact W|apply word_div; [lia|exact W]]). assert (V1 : word z1) by (apply word_lxor; [exact W'|apply word_div; [lia|exact W']]).
  set (y2 := Z.lxor y1 (Z.land (y1 * 2 ^ 7) 2636928640)) in *. set (z2 := Z.lxor z1 (Z.land (z1 * 2 ^ 7) 2636928640)) in *.
  assert (W2 : word y2) by (apply word_lxor; [exact W1|apply word_land; [destruct W1; nia|split; lia]]). assert (V2 : word z2) by (apply word_lxor; [exact V1|apply word_land; [destruct V1; nia|split; lia]]).
  set (y3 := Z.lxor y2 (Z.land (y2 * 2 ^ 15) 4022730752)) in *. set (z3 := Z.lxor z2 (Z.land (z2 * 2 ^ 15) 4022730752)) in *.
  assert (W3 : word y3) by (apply word_lxor; [exact W2|apply word_land; [destruct W2; nia|split; lia]]). assert (V3 : word z3) by (apply word_lxor; [exact V2|apply word_land; [destruct V2; nia|split; lia]]).
  apply (undo_right 11); [lia|apply W|apply W'|]. apply (undo_left 7 2636928640); [lia|]. apply (undo_left 15 4022730752); [lia|]. apply (undo_right 18); [lia|apply W3|apply V3|]. exact E'.
Qed.
Lemma tempered_fun y w w' : tempered y w -> tempered y w' -> w = w'.
Proof. intros (a1 & a2 & a3 & -> & -> & -> & ->) (b1 & b2 & b3 & -> & -> & -> & ->). reflexivity. Qed.

Lemma matrix_inj u l u' l' : word u -> word u' -> matrix u l = matrix u' l' -> u / 2 ^ 31 = u' / 2 ^ 31 /\ l mod 2 ^ 31 = l' mod 2 ^ 31.
Proof.
  intros U U' H. unfold matrix in H. set (y := u / 2 ^ 31 * 2 ^ 31 + l mod 2 ^ 31) in *. set (y' := u' / 2 ^ 31 * 2 ^ 31 + l' mod 2 ^ 31) in *.
  pose proof (Z.mod_pos_bound l (2 ^ 31) ltac:(lia)) as M. pose proof (Z.mod_pos_bound l' (2 ^ 31) ltac:(lia)) as M'.
  assert (D : 0 <= u / 2 ^ 31 <= 1) by (split; [apply Z.div_pos; destruct U; lia|]; apply Z.lt_succ_r, Z.div_lt_upper_bound; destruct U; lia).
  assert (D' : 0 <= u' / 2 ^ 31 <= 1) by (split; [apply Z.div_pos; destruct U'; lia|]; apply Z.lt_succ_r, Z.div_lt_upper_bound; destruct U'; lia).
  assert (Y : word y) by (split; unfold y; nia). assert (Y' : word y') by (split; unfold y'; nia).
  assert (B : forall z, word z -> Z.testbit (Z.lxor (z / 2) (if Z.odd z then 0x9908b0df else 0)) 31 = Z.odd z).
  { intros z Wz. rewrite Z.lxor_spec. change 2 with (2 ^ 1) at 1. rewrite <- Z.shiftr_div_pow2, Z.shiftr_spec by lia. rewrite (proj1 (word_bits z (proj1 Wz)) Wz) by lia. destruct (Z.odd z); reflexivity. }
  pose proof (f_equal (fun z => Z.testbit z 31) H) as O. cbn beta in O. rewrite !B in O by assumption.
  assert (E : y / 2 = y' / 2).
  { rewrite O in H. apply (f_equal (fun z => Z.lxor z (if Z.odd y' then 0x9908b0df else 0))) in H. rewrite !Z.lxor_assoc, Z.lxor_nilpotent, !Z.lxor_0_r in H. exact H. }
  assert (F : y = y') by (rewrite (Z.div_mod y 2), (Z.div_mod y' 2), !Zmod_odd, E, O by lia; reflexivity).
  unfold y, y' in F. split; nia.
Qed.
Lemma word_parts a b : a / 2 ^ 31 = b / 2 ^ 31 -> a mod 2 ^ 31 = b mod 2 ^ 31 -> a = b.
Proof. intros H1 H2. rewrite (Z.div_mod a (2 ^ 31)), (Z.div_mod b (2 ^ 31)), H1, H2 by lia. reflexivity. Qed.

(** two sequences that agree from some place on agree from word 1 on *)
Section Two.
  Variables x y : nat -> Z.
  Hypothesis (Rx : recurrence x) (Ry : recurrence y) (Wx : forall n, word (x n)) (Wy : forall n, word (y n)).
  Lemma forward n : (forall j, (j < 624)%nat -> x (n + j)%nat = y (n + j)%nat) -> forall j, x (n + j)%nat = y (n + j)%nat.
  Proof using Rx Ry.
    intros H j. induction j as [j IH] using (well_founded_induction lt_wf). destruct (lt_dec j 624) as [C|C]; [apply H, C|].
    replace (n + j)%nat with (n + (j - 624) + 624)%nat by lia. rewrite Rx, Ry. replace (n + (j - 624) + 397)%nat with (n + (j - 227))%nat by lia. rewrite (IH (j - 227)%nat), (IH (j - 624)%nat) by lia. replace (n + (j - 624) + 1)%nat with (n + (j - 623))%nat by lia. rewrite (IH (j - 623)%nat) by lia. reflexivity.
  Qed.
  Lemma backward n : (forall j, (n <= j)%nat -> x j = y j) -> forall j, (0 < j)%nat -> x j = y j.
  Proof using Rx Ry Wx Wy.
    intros H. assert (Q : forall m k, (n <= k + m)%nat -> x k / 2 ^ 31 = y k / 2 ^ 31 /\ x (k + 1)%nat mod 2 ^ 31 = y (k + 1)%nat mod 2 ^ 31).
    { induction m as [m IH] using (well_founded_induction lt_wf). intros k Hk. destruct (le_dec n k) as [C|C]; [rewrite !H by lia; auto|].
      assert (F : forall j, (k < j)%nat -> x (j + 1)%nat = y (j + 1)%nat).
      { intros j Hj. destruct (le_dec n j) as [Cj|Cj]; [apply H; lia|]. apply word_parts; [apply (IH (n - (j + 1))%nat); lia|apply (IH (n - j)%nat); lia]. }
      apply matrix_inj; [apply Wx|apply Wy|]. pose proof (Rx k) as A. pose proof (Ry k) as B. rewrite (Nat.add_comm k 624) in A, B. replace (624 + k)%nat with (k + 623 + 1)%nat in A, B by lia. rewrite F in A by lia. rewrite B in A.
      replace (k + 397)%nat with (k + 396 + 1)%nat in A by lia. rewrite F in A by lia. apply (f_equal (Z.lxor (y (k + 396 + 1)%nat))) in A. rewrite <- !Z.lxor_assoc, !Z.lxor_nilpotent, !Z.lxor_0_l in A. symmetry. exact A. }
    intros j Hj. apply word_parts; [apply (Q n); lia|]. replace j with (j - 1 + 1)%nat by lia. apply (Q n). lia.
  Qed.
End Two.

Lemma seeds_words s s' x y : stream s x -> stream s' y -> x 1%nat = y 1%nat -> s mod 2 ^ 32 = s' mod 2 ^ 32.
Proof.
  intros X Y H. rewrite <- (proj1 (proj1 X)), <- (proj1 (proj1 Y)). pose proof (x_word s x X 0) as A. pose proof (x_word s' y Y 0) as B.
  rewrite (proj2 (proj1 X)), (proj2 (proj1 Y)) in H by lia. change (1 - 1)%nat with 0%nat in H. apply (undo_right 30); [lia|apply A|apply B|].
  set (p := Z.lxor (x 0%nat) (x 0%nat / 2 ^ 30)) in *. set (q := Z.lxor (y 0%nat) (y 0%nat / 2 ^ 30)) in *.
  assert (P : word p) by (apply word_lxor; [exact A|apply word_div; [lia|exact A]]). assert (Q : word q) by (apply word_lxor; [exact B|apply word_div; [lia|exact B]]).
  (* the factor is odd *)
  assert (G : forall z, ((1812433253 * z + Z.of_nat 1) mod 2 ^ 32 - 1) * 2520285293 mod 2 ^ 32 = z mod 2 ^ 32).
  { intros z. rewrite Zmult_mod, Zminus_mod, Zmod_mod, <- Zminus_mod, <- Zmult_mod. replace ((1812433253 * z + Z.of_nat 1 - 1) * 2520285293) with (z + 1063535193 * z * 2 ^ 32) by (change (Z.of_nat 1) with 1; ring). apply Z_mod_plus_full. }
  pose proof (G p) as Gp. rewrite H, G in Gp. rewrite !Z.mod_small in Gp by assumption. symmetry. exact Gp.
Qed.

(** ** Seeds *)
Theorem seeds_hold s s' ws : length ws = 624%nat -> outputs s ws -> outputs s' ws -> s mod 2 ^ 32 = s' mod 2 ^ 32.
Proof.
  intros L (x & X & O) (y & Y & O'). apply (seeds_words s s' x y X Y). apply (backward x y (proj2 X) (proj2 Y) (x_word s x X) (x_word s' y Y) 624); [|lia].
  intros j Hj. replace j with (624 + (j - 624))%nat by lia. apply (forward x y (proj2 X) (proj2 Y)). intros k Hk. destruct (nth_error ws k) as [w|] eqn:E; [|apply nth_error_None in E; lia].
  apply (tempered_inj _ _ w); [apply (x_word s x X)|apply (x_word s' y Y)|apply (O k w E)|apply (O' k w E)].
Qed.

Lemma tempered_0 : tempered 0 0.
Proof. exists 0, 0, 0. repeat split; reflexivity. Qed.
(** no 624 numbers in a row are zero *)
Theorem alive_holds s n ws : outputs s ws -> (n + 624 <= length ws)%nat -> exists k w, (n <= k < n + 624)%nat /\ nth_error ws k = Some w /\ w <> 0.
Proof.
  intros (x & X & O) L. destruct (Forall_Exists_dec (fun k => nth k ws 0 = 0) (fun k => Z.eq_dec _ _) (seq n 624)) as [A|A].
  - exfalso. assert (Z : forall j, (0 < j)%nat -> x j = 0).
    { apply (backward x (fun _ => 0) (proj2 X)) with (n := (624 + n)%nat); [intros k; reflexivity|apply (x_word s x X)|intros _; split; lia|].
      intros j Hj. replace j with (624 + n + (j - (624 + n)))%nat by lia. apply (forward x (fun _ => 0) (proj2 X)); [intros k; reflexivity|]. intros k Hk. rewrite Forall_forall in A. pose proof (A (n + k)%nat ltac:(apply in_seq; lia)) as E.
      destruct (nth_error ws (n + k)) as [w|] eqn:Ew; [|apply nth_error_None in Ew; lia]. rewrite (nth_error_nth _ _ _ Ew) in E. subst w. apply (tempered_inj _ _ 0); [apply (x_word s x X)|split; lia| |apply tempered_0]. rewrite <- Nat.add_assoc. apply (O _ _ Ew). }
    pose proof (proj2 (proj1 X) 2%nat ltac:(lia)) as E. change (2 - 1)%nat with 1%nat in E. rewrite !Z in E by lia. discriminate E.
  - apply Exists_exists in A. destruct A as (k & Hk & N). apply in_seq in Hk. exists k, (nth k ws 0). split; [exact Hk|]. split; [apply nth_error_nth'; lia|exact N].
Qed.
Theorem unique_holds s ws vs : outputs s ws -> outputs s vs -> length ws = length vs -> ws = vs.
Proof.
  intros (x & X & O) (y & Y & O') L. apply (nth_ext ws vs 0 0 L). intros k Hk. pose proof (nth_error_nth' ws 0 Hk) as E. pose proof (nth_error_nth' vs 0 (eq_ind _ (fun n => (k < n)%nat) Hk _ L)) as E'.
  apply (tempered_fun (x (624 + k)%nat)); [apply (O _ _ E)|]. rewrite (stream_unique s x y X Y). apply (O' _ _ E').
Qed.

(** ** Ranges *)
Lemma format_F2R m e : Z.abs m < 2 ^ 53 -> -1074 <= e -> generic_format radix2 fexp64 (IZR m * bpow radix2 e).
Proof.
  intros M E. apply (generic_format_FLT radix2 (3 - emax64 - prec64) prec64). exists (Float radix2 m e); [reflexivity| |].
  - cbn [Fnum]. exact M.
  - cbn [Fexp]. unfold emax64, prec64. lia.
Qed.
Lemma small m e : Z.abs m < 2 ^ 53 -> e <= 0 -> (Rabs (IZR m * bpow radix2 e) < bpow radix2 emax64)%R.
Proof.
  intros M E. rewrite Rabs_mult, <- abs_IZR, (Rabs_pos_eq (bpow radix2 e)) by apply bpow_ge_0. apply Rle_lt_trans with (bpow radix2 53 * bpow radix2 0)%R.
  - apply Rmult_le_compat; [apply IZR_le; lia|apply bpow_ge_0| |apply bpow_le; exact E]. change (bpow radix2 53) with (IZR (2 ^ 53)). apply IZR_le. lia.
  - rewrite <- bpow_plus. apply bpow_lt. unfold emax64. lia.
Qed.
Lemma f_lit_exact m e : Z.abs m < 2 ^ 53 -> -1074 <= e <= 0 -> B2R (f_lit m e) = (IZR m * bpow radix2 e)%R /\ is_finite (f_lit m e) = true.
Proof.
  intros M E. pose proof (binary_normalize_correct prec64 emax64 _ _ mode_NE m e false) as H. cbv zeta in H. unfold F2R in H. cbn [Fnum Fexp] in H.
  rewrite round_generic in H by (try (apply format_F2R; [exact M|lia]); apply valid_rnd_N). rewrite Rlt_bool_true in H by (apply small; [exact M|lia]). destruct H as (A & B & _). split; assumption.
Qed.
Lemma inverse_pow2 k : 0 <= k <= 53 -> B2R (fdiv (f_ofZ 1) (f_ofZ (2 ^ k))) = bpow radix2 (- k) /\ is_finite (fdiv (f_ofZ 1) (f_ofZ (2 ^ k))) = true.
Proof.
  intros K. destruct (f_ofZ_exact 1) as (A & Fa); [lia|]. pose proof (Z.pow_pos_nonneg 2 k ltac:(lia) ltac:(lia)) as P. pose proof (Z.pow_le_mono_r 2 k 53 ltac:(lia) ltac:(lia)) as P'. destruct (f_ofZ_exact (2 ^ k)) as (B & Fb); [lia|].
  assert (E : (IZR 1 / IZR (2 ^ k))%R = (IZR 1 * bpow radix2 (- k))%R) by (rewrite bpow_opp, <- IZR_Zpower by lia; reflexivity).
  assert (R : rnd64 (B2R (f_ofZ 1) / B2R (f_ofZ (2 ^ k))) = (IZR 1 * bpow radix2 (- k))%R) by (rewrite A, B, E; apply rnd64_id, format_F2R; lia).
  destruct (fdiv_R (f_ofZ 1) (f_ofZ (2 ^ k))) as (C & D); [rewrite B; apply IZR_neq; lia|exact Fa|rewrite R; apply small; lia|]. rewrite R, Rmult_1_l in C. split; assumption.
Qed.
Lemma fmul_exact x y m e : is_finite x = true -> is_finite y = true -> Z.abs m < 2 ^ 53 -> -1074 <= e <= 0 -> (B2R x * B2R y)%R = (IZR m * bpow radix2 e)%R ->
  B2R (fmul x y) = (IZR m * bpow radix2 e)%R /\ is_finite (fmul x y) = true.
Proof.
  intros X Y M E H. assert (R : rnd64 (B2R x * B2R y) = (IZR m * bpow radix2 e)%R) by (rewrite H; apply rnd64_id, format_F2R; lia). destruct (fmul_R x y X Y) as (C & D); [rewrite R; apply small; lia|]. rewrite R in C. split; assumption.
Qed.
Lemma fadd_exact x y m e : is_finite x = true -> is_finite y = true -> Z.abs m < 2 ^ 53 -> -1074 <= e <= 0 -> (B2R x + B2R y)%R = (IZR m * bpow radix2 e)%R ->
  B2R (fadd x y) = (IZR m * bpow radix2 e)%R /\ is_finite (fadd x y) = true.
Proof.
  intros X Y M E H. assert (R : rnd64 (B2R x + B2R y) = (IZR m * bpow radix2 e)%R) by (rewrite H; apply rnd64_id, format_F2R; lia). destruct (fadd_R x y X Y) as (C & D); [rewrite R; apply small; lia|]. rewrite R in C. split; assumption.
Qed.
Lemma same_float (x y : f64) : is_finite x = true -> is_finite y = true -> B2R x = B2R y -> B2R x <> 0%R -> x = y.
Proof.
  intros X Y E N. apply B2R_inj; [| |exact E].
  - destruct x; try discriminate X; [exfalso; apply N; reflexivity|reflexivity].
  - destruct y; try discriminate Y; [exfalso; apply N; exact E|reflexivity].
Qed.

(** the 53 bits of genrand_res53 *)
Definition bits53 (y z : Z) : Z := y / 2 ^ 5 * 2 ^ 26 + z / 2 ^ 6.
Lemma bits53_range y z : word y -> word z -> 0 <= bits53 y z < 2 ^ 53.
Proof.
  intros (A & B) (C & D). unfold bits53. assert (0 <= y / 2 ^ 5 < 2 ^ 27) by (split; [apply Z.div_pos; lia|apply Z.div_lt_upper_bound; lia]). assert (0 <= z / 2 ^ 6 < 2 ^ 26) by (split; [apply Z.div_pos; lia|apply Z.div_lt_upper_bound; lia]). nia.
Qed.
Lemma res53_value y z : word y -> word z ->
  fmul (fadd (fmul (f_ofZ (y / 2 ^ 5)) (f_ofZ 67108864)) (f_ofZ (z / 2 ^ 6))) (fdiv (f_ofZ 1) (f_ofZ 9007199254740992)) = f_lit (bits53 y z) (-53).
Proof.
  intros Y Z. pose proof (bits53_range y z Y Z) as K. unfold bits53 in *. set (a := y / 2 ^ 5) in *. set (b := z / 2 ^ 6) in *.
  assert (A : 0 <= a) by (apply Z.div_pos; destruct Y; lia). assert (B : 0 <= b) by (apply Z.div_pos; destruct Z; lia). clearbody a b.
  destruct (Z.eq_dec (a * 2 ^ 26 + b) 0) as [E|E]; [assert (a = 0) by lia; assert (b = 0) by lia; subst; vm_compute; reflexivity|].
  destruct (f_ofZ_exact a) as (Ra & Fa); [lia|]. destruct (f_ofZ_exact b) as (Rb & Fb); [lia|]. destruct (f_ofZ_exact 67108864) as (Rc & Fc); [lia|].
  destruct (fmul_exact _ _ (a * 2 ^ 26) 0 Fa Fc) as (R1 & F1); [lia|lia|rewrite Ra, Rc, mult_IZR; cbn [bpow]; rewrite Rmult_1_r; reflexivity|].
  destruct (fadd_exact _ _ (a * 2 ^ 26 + b) 0 F1 Fb) as (R2 & F2); [lia|lia|rewrite R1, Rb, plus_IZR; cbn [bpow]; ring|].
  destruct (inverse_pow2 53) as (R3 & F3); [lia|]. change (2 ^ 53) with 9007199254740992 in R3, F3.
  destruct (fmul_exact _ _ (a * 2 ^ 26 + b) (-53) F2 F3) as (R4 & F4); [lia|lia|rewrite R2, R3; cbn [bpow]; rewrite Rmult_1_r; reflexivity|].
  destruct (f_lit_exact (a * 2 ^ 26 + b) (-53)) as (R5 & F5); [lia|lia|].
  apply same_float; [exact F4|exact F5|rewrite R4, R5; reflexivity|]. rewrite R4. apply Rmult_integral_contrapositive_currified; [apply IZR_neq; exact E|apply Rgt_not_eq, bpow_gt_0].
Qed.

(** pairs of numbers as 53 bits each *)
Fixpoint pairs53 (ws : list Z) : list Z := match ws with y :: z :: ws => bits53 y z :: pairs53 ws | _ => [] end.
Lemma res53_calls n : forall g ws g', calls genrand_int32 (2 * n) g = Done (ws, g') -> Forall word ws -> calls genrand_res53 n g = Done (map (fun k => f_lit k (-53)) (pairs53 ws), g') /\ length (pairs53 ws) = n /\ Forall (fun k => 0 <= k < 2 ^ 53) (pairs53 ws).
Proof.
  induction n as [|n IH]; intros g ws g' E W.
  - cbn in E. injection E as <- <-. repeat split; constructor.
  - replace (2 * S n)%nat with (S (S (2 * n))) in E by lia. cbn [calls] in E. destruct (genrand_int32 g) as [(y & g1)| |] eqn:E1; try discriminate E. cbn [obind] in E. destruct (genrand_int32 g1) as [(z & g2)| |] eqn:E2; try discriminate E. cbn [obind] in E.
    destruct (calls genrand_int32 (2 * n) g2) as [(vs & g3)| |] eqn:E3; try discriminate E. cbn [obind] in E. injection E as <- <-. inversion W as [|? ? Wy W1]; subst. inversion W1 as [|? ? Wz W2]; subst.
    destruct (IH g2 vs g3 E3 W2) as (A & B & C). cbn [calls pairs53 map length]. unfold genrand_res53 at 1. rewrite E1. cbn [obind]. rewrite E2. cbn [obind]. rewrite A. cbn [obind]. rewrite !Z.shiftr_div_pow2 by lia. rewrite res53_value by assumption.
    split; [reflexivity|]. split; [lia|]. constructor; [apply bits53_range; assumption|exact C].
Qed.
Lemma outputs_words s ws : outputs s ws -> Forall word ws.
Proof. intros (x & X & O). apply Forall_forall. intros w H. apply In_nth_error in H. destruct H as (k & H). apply (O k w H). Qed.

Theorem res53_holds s g n : length (g_mt g) = 624%nat -> exists g0 g' ws, init_genrand s g = Done g0 /\ length ws = (2 * n)%nat /\ outputs s ws /\
  calls genrand_res53 n g0 = Done (map (fun k => f_lit k (-53)) (pairs53 ws), g') /\ length (pairs53 ws) = n /\ Forall (fun k => 0 <= k < 2 ^ 53) (pairs53 ws).
Proof.
  intros L. destruct (stream_holds s g (2 * n) L) as (g0 & g' & ws & E & E' & Hl & O). exists g0, g', ws. destruct (res53_calls n g0 ws g' E' (outputs_words s ws O)) as (A & B & C). auto 7.
Qed.

Theorem sample_holds {P Pos : Type} (getPos : P -> Pos) (ptcl : list P) wanted rank g : length (g_mt g) = 624%nat -> 0 <= wanted -> Z.of_nat (length ptcl) <= INT_MAX ->
  exists g0 g' ks idx samples, ofRank rank g = Done g0 /\ calls genrand_res53 (Nat.min (Z.to_nat wanted) (length ptcl)) g0 = Done (map (fun k => f_lit k (-53)) ks, g') /\
    getSampleParticle getPos ptcl wanted ks = Done (samples, ptcl) /\ length samples = Nat.min (Z.to_nat wanted) (length ptcl) /\ NoDup idx /\
    Forall2 (fun i s => exists p, nth_error ptcl i = Some p /\ s = getPos p) idx samples.
Proof.
  intros L W M. destruct (res53_holds rank g (Nat.min (Z.to_nat wanted) (length ptcl)) L) as (g0 & g' & ws & E & _ & _ & C & Hn & F).
  destruct (getSample_list getPos ptcl wanted (pairs53 ws) W M F) as (idx & samples & S); [rewrite Hn; apply le_n|]. exists g0, g', (pairs53 ws), idx, samples. split; [exact E|]. split; [exact C|exact S].
Qed.

(** the other ranges *)
Theorem reals_hold g w g' : genrand_int32 g = Done (w, g') -> 0 <= w < 2 ^ 32 ->
  genrand_int31 g = Done (w / 2, g') /\ 0 <= w / 2 < 2 ^ 31 /\
  (exists r, genrand_real1 g = Done (r, g') /\ is_finite r = true /\ (0 <= B2R r <= 1)%R) /\
  (exists r, genrand_real2 g = Done (r, g') /\ is_finite r = true /\ B2R r = (IZR w / IZR (2 ^ 32))%R /\ (0 <= B2R r < 1)%R) /\
  (exists r, genrand_real3 g = Done (r, g') /\ is_finite r = true /\ B2R r = ((IZR w + 1 / 2) / IZR (2 ^ 32))%R /\ (0 < B2R r < 1)%R).
Proof.
  intros E W. unfold genrand_int31, genrand_real1, genrand_real2, genrand_real3. rewrite E. cbn [obind]. destruct (f_ofZ_exact w) as (Rw & Fw); [lia|].
  assert (W0 : (0 <= IZR w <= 4294967295)%R) by (split; apply IZR_le; lia).
  split; [rewrite Z.shiftr_div_pow2 by lia; reflexivity|]. split; [split; [apply Z.div_pos; lia|apply Z.div_lt_upper_bound; lia]|]. split; [|split].
  - eexists. split; [reflexivity|]. set (c := fdiv (f_ofZ 1) (f_ofZ 4294967295)).
    destruct (f_ofZ_exact 1) as (R1 & F1); [lia|]. destruct (f_ofZ_exact 4294967295) as (R2 & F2); [lia|].
    assert (V : (0 <= 1 / 4294967295 <= bpow radix2 (-31))%R) by (change (bpow radix2 (-31)) with (/ 2147483648)%R; lra).
    assert (C : (0 <= rnd64 (1 / 4294967295) <= bpow radix2 (-31))%R).
    { split; [rewrite <- (rnd64_int 0) by lia; apply rnd64_mono, V|]. apply Rle_trans with (1 := Rle_abs _). apply rnd64_bpow_le; [lia|]. rewrite Rabs_pos_eq; apply V. }
    destruct (fdiv_R (f_ofZ 1) (f_ofZ 4294967295)) as (Rc & Fc); [rewrite R2; lra|exact F1|rewrite R1, R2, Rabs_pos_eq by apply C; apply Rle_lt_trans with (1 := proj2 C), bpow_lt; unfold emax64; lia|]. rewrite R1, R2 in Rc. fold c in Rc, Fc. rewrite <- Rc in C.
    assert (B : forall v, (0 <= v <= 4294967295)%R -> (0 <= rnd64 (v * B2R c) <= 2)%R).
    { intros v Hv. split; [rewrite <- (rnd64_int 0) by lia; apply rnd64_mono; nra|]. apply Rle_trans with (1 := Rle_abs _). change 2%R with (bpow radix2 1). apply rnd64_bpow_le; [lia|]. rewrite Rabs_pos_eq by nra. change (bpow radix2 (-31)) with (/ 2147483648)%R in C. change (bpow radix2 1) with 2%R. nra. }
    assert (Big : (2 < bpow radix2 emax64)%R) by (change 2%R with (bpow radix2 1); apply bpow_lt; unfold emax64; lia).
    destruct (fmul_R (f_ofZ w) c Fw Fc) as (Rr & Fr); [rewrite Rw; pose proof (B _ W0); rewrite Rabs_pos_eq; lra|]. rewrite Rw in Rr. split; [exact Fr|]. rewrite Rr. split; [apply B, W0|].
    destruct (fmul_R (f_ofZ 4294967295) c F2 Fc) as (Rt & Ft); [rewrite R2; pose proof (B 4294967295%R ltac:(lra)); rewrite Rabs_pos_eq; lra|]. rewrite R2 in Rt.
    assert (T : B2R (fmul (f_ofZ 4294967295) c) = 1%R).
    { assert (Q : feq (fmul (f_ofZ 4294967295) c) (f_ofZ 1) = true) by (vm_compute; reflexivity). unfold feq in Q. rewrite (Beqb_correct prec64 emax64 _ _ Ft F1) in Q. rewrite R1 in Q. destruct (Req_bool_spec (B2R (fmul (f_ofZ 4294967295) c)) 1); [assumption|discriminate Q]. }
    rewrite <- T, Rt. apply rnd64_mono. apply Rmult_le_compat_r; [apply C|apply W0].
  - eexists. split; [reflexivity|]. destruct (inverse_pow2 32) as (R3 & F3); [lia|]. change (2 ^ 32) with 4294967296 in R3, F3 |- *.
    destruct (fmul_exact _ _ w (-32) Fw F3) as (R4 & F4); [lia|lia|rewrite Rw, R3; reflexivity|]. split; [exact F4|]. rewrite R4. change (bpow radix2 (-32)) with (/ 4294967296)%R. split; [reflexivity|lra].
  - eexists. split; [reflexivity|]. destruct (inverse_pow2 32) as (R3 & F3); [lia|]. change (2 ^ 32) with 4294967296 in R3, F3 |- *. destruct (f_lit_pow2 (-1)) as (Rh & Fh); [lia|].
    destruct (fadd_exact _ _ (2 * w + 1) (-1) Fw Fh) as (R4 & F4); [lia|lia|rewrite Rw, Rh, plus_IZR, mult_IZR; change (bpow radix2 (-1)) with (/ 2)%R; lra|].
    destruct (fmul_exact _ _ (2 * w + 1) (-33) F4 F3) as (R5 & F5); [lia|lia|rewrite R4, R3, Rmult_assoc, <- bpow_plus; reflexivity|]. split; [exact F5|]. rewrite R5, plus_IZR, mult_IZR. change (bpow radix2 (-33)) with (/ 8589934592)%R. split; [lra|lra].
Qed.
