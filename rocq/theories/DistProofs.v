(** Proofs about the point layouts and the error check. *)
From Coq Require Import List Arith ZArith Bool Reals Lra Lia.
From Flocq Require Import Core.
From Verif Require Import Outcome ListUtil Arith ParticleModel ConModel PointsModel PointsProofs PointsProps StatModel DistModel DistSpec.
Import ListNotations.

(** ** layouts *)
Lemma fixed_count {N : arith} (box shift : N) c : 
  exists l1 l2 l4, fixedPoints 1 box shift c = c ++ l1 /\ fixedPoints 2 box shift c = c ++ l2 /\ fixedPoints 4 box shift c = c ++ l4 /\
    length l1 = 3 * 1 /\ length l2 = 3 * 2 /\ length l4 = 3 * 4.
Proof. repeat eexists; reflexivity. Qed.
Lemma fixed_other {N : arith} n (box shift : N) c : (n <> 1 -> n <> 2 -> n <> 4 -> fixedPoints n box shift c = [])%Z.
Proof. intros H1 H2 H4. destruct n as [|p|p]; try reflexivity. destruct p as [p|p|]; try reflexivity; [|lia]. destruct p as [p|p|]; try reflexivity; [|lia]. destruct p; try reflexivity; lia. Qed.
Local Open Scope R_scope.
Lemma fixed_range n box shift x : 0 <= box -> In x (fixedPoints (N := R_arith) n box shift []) -> shift <= x <= shift + box.
Proof.
  intros Hb H. assert (G : exists d, (1 <= d <= 8)%Z /\ x = at_ (N := R_arith) box shift d).
  { destruct (Z.eq_dec n 1) as [->|]; [|destruct (Z.eq_dec n 2) as [->|]; [|destruct (Z.eq_dec n 4) as [->|]; [|rewrite fixed_other in H by assumption; contradiction]]];
      cbn [fixedPoints app] in H; apply in_map_iff in H as (d & <- & Hd); exists d; (split; [|reflexivity]); cbn in Hd; lia. }
  destruct G as (d & Hd & ->). unfold at_. rarith. assert (1 <= IZR d <= 8) by (split; apply IZR_le; lia).
  assert (0 <= IZR d / 10 <= 1) by lra. nra.
Qed.
Lemma fixed_points n box shift c : In n [1; 2; 4]%nat -> fixedPoints (N := R_arith) (Z.of_nat n) box shift c = c ++ flat_map (inBox box shift) (tenths n).
Proof.
  assert (G : forall d, at_ (N := R_arith) box shift (Z.of_nat d) = INR d * (box / 10) + shift) by (intros d; unfold at_; rarith; rewrite INR_IZR_INZ; field).
  intros [<-|[<-|[<-|[]]]]; cbn [fixedPoints Z.of_nat Pos.of_succ_nat Pos.succ tenths flat_map inBox app]; f_equal; rewrite <- !G; reflexivity.
Qed.
Lemma random_range fmod1 n box shift fills x : (forall v, 0 <= fmod1 v < 1) -> 0 < box -> In x (randomPoints (N := R_arith) fmod1 n box shift fills) -> shift <= x < shift + box.
Proof. intros Hf Hb H. unfold randomPoints in H. apply in_map_iff in H as (i & <- & _). rarith. specialize (Hf (fills i)). nra. Qed.
Lemma random_count {N : arith} fmod1 n (box shift : N) fills : length (randomPoints fmod1 n box shift fills) = (3 * (n + 1) ^ 3)%nat.
Proof. unfold randomPoints. rewrite map_length, seq_length. lia. Qed.
Local Close Scope R_scope.

(** ** shift and scale *)
Section Shift.
  Context {N : arith}.
  Variables (shift : vec N) (scale : N).
  Let move (i : nat) (x : N) : N := a_add (a_mul x scale) (vget shift (i mod 3)).
  Lemma mwrite_nth {A} (m : list A) i v : i < length m -> exists m', mwrite m i v = Done m' /\ length m' = length m /\ forall j, nth_error m' j = if j =? i then Some v else nth_error m j.
  Proof.
    intros H. unfold mwrite. destruct (Nat.ltb_spec i (length m)) as [H'|H']; [|lia]. eexists. split; [reflexivity|].
    assert (LF : length (firstn i m) = i) by (rewrite firstn_length; lia).
    split.
    - rewrite app_length. cbn [length]. rewrite LF, skipn_length. lia.
    - intros j. destruct (Nat.eqb_spec j i) as [->|Hne].
      + rewrite nth_error_app2 by lia. rewrite LF, Nat.sub_diag. reflexivity.
      + destruct (Nat.lt_ge_cases j i).
        * rewrite nth_error_app1 by lia. rewrite <- (firstn_skipn i m) at 2. rewrite nth_error_app1 by lia. reflexivity.
        * rewrite nth_error_app2 by lia. rewrite LF. replace (j - i) with (S (j - S i)) by lia. cbn [nth_error].
          rewrite <- (firstn_skipn (S i) m) at 2. rewrite nth_error_app2; rewrite firstn_length; [|lia]. f_equal. lia.
  Qed.
  Lemma mread_nth {A} (m : list A) i : i < length m -> exists x, mread m i = Done x /\ nth_error m i = Some x.
  Proof. intros H. unfold mread. destruct (nth_error m i) eqn:E; [eauto|]. apply nth_error_None in E. lia. Qed.
  Lemma shift_ok pts : exists pts', shiftAndScalePoints pts shift scale = Done pts' /\ length pts' = length pts /\
    (forall i x, i < 3 * (length pts / 3) -> nth_error pts i = Some x -> nth_error pts' i = Some (move i x)) /\
    (forall i, 3 * (length pts / 3) <= i -> nth_error pts' i = nth_error pts i).
  Proof.
    unfold shiftAndScalePoints. set (n := length pts / 3). assert (Hn : 3 * n <= length pts) by (unfold n; apply Nat.mul_div_le; lia).
    assert (G : forall k, k <= n -> exists pts', ofold (fun p i =>
      do x <- mread p (3 * i); do p <- mwrite p (3 * i) (a_add (a_mul x scale) (vx shift));
      do y <- mread p (3 * i + 1); do p <- mwrite p (3 * i + 1) (a_add (a_mul y scale) (vy shift));
      do z <- mread p (3 * i + 2); mwrite p (3 * i + 2) (a_add (a_mul z scale) (vz shift))) (seq 0 k) pts = Done pts' /\ length pts' = length pts /\
      (forall i x, i < 3 * k -> nth_error pts i = Some x -> nth_error pts' i = Some (move i x)) /\ (forall i, 3 * k <= i -> nth_error pts' i = nth_error pts i)).
    { induction k as [|k IH]; intros Hk.
      - exists pts. cbn. repeat split; intros; try lia; reflexivity.
      - destruct (IH ltac:(lia)) as (p & E & L & A & B). rewrite seq_S, ofold_app, E. cbn [obind ofold]. rewrite Nat.add_0_l.
        destruct (mread_nth p (3 * k) ltac:(lia)) as (x & Rx & Ex). rewrite Rx. cbn [obind].
        destruct (mwrite_nth p (3 * k) (a_add (a_mul x scale) (vx shift)) ltac:(lia)) as (p1 & W1 & L1 & N1). rewrite W1. cbn [obind].
        destruct (mread_nth p1 (3 * k + 1) ltac:(lia)) as (y & Ry & Ey). rewrite Ry. cbn [obind].
        destruct (mwrite_nth p1 (3 * k + 1) (a_add (a_mul y scale) (vy shift)) ltac:(lia)) as (p2 & W2 & L2 & N2). rewrite W2. cbn [obind].
        destruct (mread_nth p2 (3 * k + 2) ltac:(lia)) as (z & Rz & Ez). rewrite Rz. cbn [obind].
        destruct (mwrite_nth p2 (3 * k + 2) (a_add (a_mul z scale) (vz shift)) ltac:(lia)) as (p3 & W3 & L3 & N3). rewrite W3. cbn [obind].
        exists p3. split; [reflexivity|]. split; [congruence|].
        rewrite N1 in Ey. destruct (Nat.eqb_spec (3 * k + 1) (3 * k)); [lia|]. rewrite N2, N1 in Ez. destruct (Nat.eqb_spec (3 * k + 2) (3 * k + 1)); [lia|]. destruct (Nat.eqb_spec (3 * k + 2) (3 * k)); [lia|].
        rewrite B in Ex, Ey, Ez by lia.
        assert (M0 : (3 * k) mod 3 = 0) by (rewrite Nat.mul_comm; apply Nat.mod_mul; lia).
        assert (M1 : (3 * k + 1) mod 3 = 1) by (rewrite Nat.add_comm, Nat.mul_comm, Nat.mod_add by lia; reflexivity).
        assert (M2 : (3 * k + 2) mod 3 = 2) by (rewrite Nat.add_comm, Nat.mul_comm, Nat.mod_add by lia; reflexivity).
        split.
        + intros i v Hi Ev. rewrite N3, N2, N1. destruct (Nat.eqb_spec i (3 * k + 2)) as [->|]; [rewrite Ez in Ev; injection Ev as <-; unfold move; rewrite M2; reflexivity|].
          destruct (Nat.eqb_spec i (3 * k + 1)) as [->|]; [rewrite Ey in Ev; injection Ev as <-; unfold move; rewrite M1; reflexivity|].
          destruct (Nat.eqb_spec i (3 * k)) as [->|]; [rewrite Ex in Ev; injection Ev as <-; unfold move; rewrite M0; reflexivity|]. apply A; [lia|exact Ev].
        + intros i Hi. rewrite N3, N2, N1. destruct (Nat.eqb_spec i (3 * k + 2)); [lia|]. destruct (Nat.eqb_spec i (3 * k + 1)); [lia|]. destruct (Nat.eqb_spec i (3 * k)); [lia|]. apply B. lia. }
    exact (G n (le_n n)).
  Qed.
End Shift.

(** ** error check *)
Local Open Scope R_scope.
Lemma dmax_R (a b : R) : dmax (N := R_arith) a b = Rmax a b.
Proof. unfold dmax. rarith. unfold Rmax. destruct (Rle_dec a b); rcase; lra. Qed.
Lemma total_cons {A} (f : A -> R) a l : total f (a :: l) = f a + total f l. Proof. reflexivity. Qed.
Lemma sqrt_sq (x : R) : sqrt (x * x) = Rabs x. Proof. apply sqrt_Rsqr_abs. Qed.
Lemma errors_ok l : forall e0, let e := fold_left (addError (N := R_arith)) l e0 in
  errorL2 e = errorL2 e0 + total (fun x => deviation x * deviation x) l /\ errorAbs e = errorAbs e0 + total deviation l /\ L2 e = L2 e0 + total (fun x => snd x * snd x) l /\
  (forall x, In x l -> deviation x <= errorMaxL2 e) /\ errorMaxL2 e0 <= errorMaxL2 e /\ (In (errorMaxL2 e) (map deviation l) \/ errorMaxL2 e = errorMaxL2 e0) /\
  (forall x, In x l -> relative x <= errorMaxRel e) /\ errorMaxRel e0 <= errorMaxRel e /\ (In (errorMaxRel e) (map relative l) \/ errorMaxRel e = errorMaxRel e0).
Proof.
  induction l as [|(v, t) l IH]; intros e0; cbn [fold_left].
  - cbn zeta. unfold total. cbn [fold_right map]. repeat split; try lra; try contradiction; right; reflexivity.
  - match goal with |- context [fold_left _ l ?e1] => destruct (IH e1) as (A1 & A2 & A3 & A4 & A5 & A6 & A7 & A8 & A9); remember e1 as e1' eqn:Ee1 end.
    assert (D : deviation (v, t) * deviation (v, t) = (t - v) * (t - v)) by (unfold deviation; cbn [fst snd]; rewrite <- Rabs_mult; apply Rabs_pos_eq; apply Rle_0_sqr).
    assert (S1 : errorL2 e1' = errorL2 e0 + deviation (v, t) * deviation (v, t) /\ errorAbs e1' = errorAbs e0 + deviation (v, t) /\ L2 e1' = L2 e0 + t * t /\
      errorMaxL2 e1' = Rmax (deviation (v, t)) (errorMaxL2 e0) /\ errorMaxRel e1' = Rmax (relative (v, t)) (errorMaxRel e0)).
    { rewrite Ee1. unfold addError. cbn [errorL2 errorAbs L2 errorMaxL2 errorMaxRel]. rewrite !dmax_R. rarith. rewrite sqrt_sq. rewrite D. unfold relative, deviation. cbn [fst snd]. repeat split; reflexivity. }
    destruct S1 as (B1 & B2 & B3 & B4 & B5). clear Ee1. cbn zeta. rewrite !total_cons. cbn [map snd].
    pose proof (Rmax_l (deviation (v, t)) (errorMaxL2 e0)). pose proof (Rmax_r (deviation (v, t)) (errorMaxL2 e0)). pose proof (Rmax_l (relative (v, t)) (errorMaxRel e0)). pose proof (Rmax_r (relative (v, t)) (errorMaxRel e0)).
    split; [rewrite A1, B1; lra|]. split; [rewrite A2, B2; lra|]. split; [rewrite A3, B3; lra|].
    split; [intros x [<-|Hx]; [lra|apply A4; exact Hx]|]. split; [lra|]. split.
    { destruct A6 as [A6|A6]; [left; right; exact A6|]. rewrite A6, B4. unfold Rmax. destruct Rle_dec; [right; reflexivity|left; left; reflexivity]. }
    split; [intros x [<-|Hx]; [lra|apply A7; exact Hx]|]. split; [lra|].
    destruct A9 as [A9|A9]; [left; right; exact A9|]. rewrite A9, B5. unfold Rmax. destruct Rle_dec; [right; reflexivity|left; left; reflexivity].
Qed.
Lemma total_nonneg {A} (f : A -> R) l : (forall x, In x l -> 0 <= f x) -> 0 <= total f l.
Proof. intros H. induction l as [|a l IH]; cbn; [lra|]. fold (total f l). pose proof (H a (or_introl eq_refl)). specialize (IH (fun x Hx => H x (or_intror Hx))). lra. Qed.
Lemma check_ok value true_ bar : length value = length true_ ->
  let l := combine value true_ in let n := INR (length value) in
  exists r, checkErrorRoot (N := R_arith) value true_ bar = Some r /\
    greatest (map deviation l) (maxAbs r) /\ greatest (map relative l) (maxRel r) /\ aveAbs r = total deviation l / n /\
    rms r = sqrt (total (fun x => deviation x * deviation x) l / n) /\ relL2 r = sqrt (total (fun x => deviation x * deviation x) l / total (fun x => snd x * snd x) l) /\
    (bar <= 0 -> verdict r = None) /\
    (0 < bar -> exists b, verdict r = Some b /\ (b = true <-> maxAbs r < bar /\ maxRel r < bar /\ total deviation l < bar /\ rms r < bar /\ relL2 r < bar)).
Proof.
  intros HL l n. unfold checkErrorRoot. rewrite HL, Nat.eqb_refl. cbn [negb]. rewrite <- HL. fold l. 
  eexists. split; [reflexivity|]. cbn [maxAbs maxRel aveAbs rms relL2 verdict].
  pose proof (errors_ok l (Errors (N := R_arith) 0 0 0 0 0 0)) as HE. cbn zeta in HE. cbn [errorL2 errorAbs L2 errorMaxL2 errorMaxRel] in HE. rarith.
  set (e := fold_left (addError (N := R_arith)) l (Errors (N := R_arith) 0 0 0 0 0 0)) in *. cbn [errorL2 errorAbs L2 errorMaxL2 errorMaxRel] in HE.
  destruct HE as (A1 & A2 & A3 & A4 & A5 & A6 & A7 & A8 & A9). rewrite <- INR_IZR_INZ. fold n.
  rewrite Rplus_0_l in A1, A2, A3.
  rewrite A1, A2, A3.
  split; [split; [intros x Hx; apply in_map_iff in Hx as (y & <- & Hy); apply A4; exact Hy|exact A6]|].
  split; [split; [intros x Hx; apply in_map_iff in Hx as (y & <- & Hy); apply A7; exact Hy|exact A9]|].
  split; [reflexivity|]. split; [reflexivity|]. split; [reflexivity|]. split.
  - intros Hb. rewrite Rlt_bool_false by exact Hb. reflexivity.
  - intros Hb. rewrite Rlt_bool_true by exact Hb. eexists. split; [reflexivity|]. rewrite !andb_true_iff.
    assert (P : forall x y, Rlt_bool x y = true <-> x < y) by (intros x y; case Rlt_bool_spec; split; intros; try easy; lra). rewrite !P. tauto.
Qed.
Lemma combine_eq : forall value true_ : list R, length value = length true_ -> (forall x, In x (combine value true_) -> deviation x = 0) <-> value = true_.
Proof.
  unfold deviation. induction value as [|v value IH]; intros [|t true_] HL; cbn in HL; try discriminate; [split; [reflexivity|contradiction]|].
  injection HL as HL. cbn [combine]. split.
  - intros H. f_equal; [|apply IH; [exact HL|intros x Hx; apply H; right; exact Hx]]. pose proof (H (v, t) (or_introl eq_refl)) as E. cbn in E.
    destruct (Req_dec (t - v) 0); [lra|]. exfalso. revert E. apply Rabs_no_R0. assumption.
  - intros E. injection E as -> ->. intros x [<-|Hx]; [cbn; rewrite Rminus_diag_eq by reflexivity; apply Rabs_R0|]. apply (proj2 (IH true_ eq_refl) eq_refl). exact Hx.
Qed.
Lemma total_zero {A} (f : A -> R) l : (forall x, In x l -> f x = 0) -> total f l = 0.
Proof. intros H. induction l as [|a l IH]; cbn; [reflexivity|]. fold (total f l). rewrite (H a (or_introl eq_refl)), IH; [lra|]. intros x Hx. apply H. right. exact Hx. Qed.
Lemma check_zero value true_ bar r : checkErrorRoot (N := R_arith) value true_ bar = Some r ->
  (maxAbs r = 0 <-> value = true_) /\ (value = true_ -> maxAbs r = 0 /\ maxRel r = 0 /\ aveAbs r = 0 /\ rms r = 0 /\ relL2 r = 0 /\ (0 < bar -> verdict r = Some true)).
Proof.
  intros E. assert (HL : length value = length true_) by (unfold checkErrorRoot in E; destruct (Nat.eqb_spec (length value) (length true_)); [assumption|discriminate]).
  destruct (check_ok value true_ bar HL) as (r' & E' & (G1 & G1') & (G2 & G2') & A & B & C & _ & V). assert (r' = r) by congruence. subst r'.
  assert (Hback : value = true_ -> maxAbs r = 0 /\ maxRel r = 0 /\ aveAbs r = 0 /\ rms r = 0 /\ relL2 r = 0 /\ (0 < bar -> verdict r = Some true)).
  { intros Hv. pose proof (proj2 (combine_eq value true_ HL) Hv) as Z.
    assert (Z2 : total (fun x => deviation x * deviation x) (combine value true_) = 0) by (apply total_zero; intros x Hx; rewrite (Z x Hx); ring).
    assert (Z1 : total deviation (combine value true_) = 0) by (apply total_zero; exact Z).
    rewrite A, B, C, Z1, Z2. unfold Rdiv. rewrite !Rmult_0_l, sqrt_0.
    assert (M1 : maxAbs r = 0) by (destruct G1' as [G|G]; [apply in_map_iff in G as (x & <- & Hx); apply Z; exact Hx|exact G]).
    assert (M2 : maxRel r = 0) by (destruct G2' as [G|G]; [apply in_map_iff in G as (x & <- & Hx); unfold relative; specialize (Z x Hx); unfold deviation in Z; rewrite Z; apply Rmult_0_l|exact G]).
    repeat split; try assumption. intros Hb. destruct (V Hb) as (b & Eb & Hbt). rewrite Eb. f_equal. apply Hbt. rewrite M1, M2, Z1, B, C, Z2. unfold Rdiv. rewrite !Rmult_0_l, sqrt_0. repeat split; exact Hb. }
  split; [|exact Hback]. split; [|intros Hv; apply Hback; exact Hv].
  intros M. apply (combine_eq value true_ HL). intros x Hx. assert (deviation x <= maxAbs r) by (apply G1; apply in_map; exact Hx). pose proof (Rabs_pos (snd x - fst x)). unfold deviation in *. lra.
Qed.
Lemma check_all (N : arith) values trues (bar : N) : values <> [] -> trues <> [] -> (Z.of_nat (length (concat values)) <= INT_MAX)%Z -> (Z.of_nat (length (concat trues)) <= INT_MAX)%Z ->
  checkError values trues bar = Done (checkErrorRoot (concat values) (concat trues) bar).
Proof.
  intros Hv Ht Lv Lt. unfold checkError. rewrite !C06_collect by assumption. cbn [obind]. destruct values as [|v values]; [congruence|]. destruct trues as [|t trues]; [congruence|]. reflexivity.
Qed.
