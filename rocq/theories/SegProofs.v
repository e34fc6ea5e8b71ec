(** Distance queries (C32, C33). *)
From Coq Require Import List Arith ZArith Reals Lra Psatz Lia Bool.
From Flocq Require Import Core.
From Verif Require Import Arith ParticleModel VecModel VecSpec VecProofs SegModel SegSpec.
Import ListNotations.
Local Open Scope R_scope.

(** case analysis on the first real comparison of a hypothesis *)
Ltac hcase Ec := match type of Ec with context [Rle_bool ?x ?y] => destruct (Rle_bool_spec x y) | context [Rlt_bool ?x ?y] => destruct (Rlt_bool_spec x y) end.

(** ** Point and segment *)
Lemma lerp_sub : forall a b s p, sub3 p (lerp a b s) = sub3 (sub3 p a) (scale3 s (sub3 b a)).
Proof. intros a b s p. unfold lerp. veq; ring. Qed.

Lemma norm3_le : forall a b, dot3 a a <= dot3 b b -> norm3 a <= norm3 b.
Proof. intros a b H. unfold norm3. apply sqrt_le_1; [apply dot3_self|apply dot3_self|exact H]. Qed.

Lemma distPointSeg_ok : forall p a b d c, distPointSeg (N := R_arith) p a b = (d, c) ->
  on_segment a b c /\ d = dist3 p c /\ forall x, on_segment a b x -> d <= dist3 p x.
Proof.
  intros p a b d c E. unfold distPointSeg in E. cbv zeta in E. vecR. rarith.
  set (u := sub3 b a) in *. set (w := sub3 p a) in *.
  assert (Epb : sub3 p b = sub3 w u) by (unfold w, u; veq; ring).
  rewrite Epb in E. pose proof (dot3_self u) as Hu.
  assert (Key : forall s, unit_interval s -> (forall x, unit_interval x -> 0 <= (x - s) * (s * dot3 u u - dot3 u w)) ->
    on_segment a b (lerp a b s) /\ forall x, on_segment a b x -> dist3 p (lerp a b s) <= dist3 p x).
  { intros s Hs Hk. split; [exists s; split; [exact Hs|reflexivity]|]. intros x (r & Hr & ->).
    apply norm3_le. rewrite !lerp_sub. fold u. fold w. specialize (Hk r Hr). dot3s. rewrite (dot3_comm w u).
    assert (0 <= (r - s) * (r - s) * dot3 u u) by (apply Rmult_le_pos; [exact (Rle_0_sqr (r - s))|exact Hu]). nra. }
  assert (E1 : b = lerp a b 1) by (unfold lerp; veq; ring).
  assert (E0 : a = lerp a b 0) by (unfold lerp; veq; ring).
  assert (Fin : forall s, unit_interval s -> (forall x, unit_interval x -> 0 <= (x - s) * (s * dot3 u u - dot3 u w)) ->
    c = lerp a b s -> d = norm3 (sub3 p c) -> on_segment a b c /\ d = dist3 p c /\ forall x, on_segment a b x -> d <= dist3 p x).
  { intros s Hs Hk -> Ed. destruct (Key s Hs Hk) as [K1 K2]. split; [exact K1|]. split; [exact Ed|].
    intros x Hx. rewrite Ed. apply K2, Hx. }
  apply pair_equal_spec in E. destruct E as [Ed Ec]. rewrite Ec in Ed.
  assert (Ed' : d = norm3 (sub3 p c)) by (symmetry; exact Ed).
  dot3s. unfold unit_interval in Fin.
  hcase Ec.
  - apply (Fin 1); [lra| |congruence|exact Ed']. intros x Hx. nra.
  - hcase Ec.
    + apply (Fin 0); [lra| |congruence|exact Ed']. intros x Hx. nra.
    + hcase Ec.
      * assert (Ep : dot3 u w / dot3 u u * dot3 u u = dot3 u w) by (field; lra).
        apply (Fin (dot3 u w / dot3 u u)).
        -- split; [apply Rlt_le, Rdiv_lt_0_compat; lra|]. apply Rmult_le_reg_r with (dot3 u u); [assumption|]. lra.
        -- intros x Hx. rewrite Ep. nra.
        -- rewrite <- Ec. unfold lerp, u. generalize (dot3 (sub3 b a) w / dot3 (sub3 b a) (sub3 b a)). intro k. veq; ring.
        -- exact Ed'.
      * exfalso. assert (dot3 u u = 0) by lra. assert (Hz : u = zero3) by (apply dot3_zero; assumption).
        rewrite Hz in *. unfold dot3, zero3 in *. cbn in *. lra.
Qed.

(** ** Clamped root *)
Definition E52 : R := / 2 ^ 52.
Lemma eps_R : dbl_eps (N := R_arith) = E52.
Proof.
  unfold dbl_eps, E52. cbn [a_lit R_arith]. change (bpow radix2 (-52)) with (/ IZR (2 ^ 52)). rewrite (pow_IZR 2 52), Rmult_1_l. reflexivity.
Qed.
Lemma E52_pos : 0 < E52. Proof. apply Rinv_0_lt_compat, pow_lt. lra. Qed.
Lemma half_R : a_lit (a := R_arith) 1 (-1) = / 2. Proof. cbn. lra. Qed.

Lemma root_range : forall k h0 h1 : R, 0 <= getClampedRoot (N := R_arith) k h0 h1 <= 1.
Proof.
  intros k h0 h1. unfold getClampedRoot. rewrite eps_R, half_R. rarith.
  destruct (Rlt_bool (Rabs h0) E52 && Rlt_bool (Rabs h1) E52); [lra|].
  assert (M : 0 <= stdmax (N := R_arith) (- h0 / k) 0) by (unfold stdmax; rarith; rcase; lra).
  assert (L : forall x : R, 0 <= x -> 0 <= stdmin (N := R_arith) x 1 <= 1) by (intros; unfold stdmin; rarith; rcase; lra).
  specialize (L _ M). rcase; [rcase|]; lra.
Qed.

(** what is needed of a root of h0 + k z on [0,1] *)
Definition is_root (h0 h1 k r : R) : Prop :=
  (r = 0 /\ 0 <= h0) \/ (r = 1 /\ h1 <= 0 /\ h0 < 0) \/ (0 < r < 1 /\ h0 + k * r = 0 /\ h0 < 0 /\ 0 < h1).

Lemma root_frac : forall k h0 h1 : R, 0 < k -> h1 = h0 + k -> h0 < 0 -> 0 < h1 ->
  stdmin (N := R_arith) (stdmax (N := R_arith) (- h0 / k) 0) 1 = - h0 / k /\ 0 < - h0 / k < 1 /\ h0 + k * (- h0 / k) = 0.
Proof.
  intros k h0 h1 Hk E H0 H1. assert (Hq : 0 < - h0 / k < 1).
  { split; [apply Rdiv_lt_0_compat; lra|]. apply Rmult_lt_reg_r with k; [exact Hk|]. unfold Rdiv. rewrite Rmult_assoc, Rinv_l by lra. lra. }
  split; [|split; [exact Hq|field; lra]].
  unfold stdmin, stdmax. rarith. rewrite (Rlt_bool_false (- h0 / k) 0) by lra. rewrite Rlt_bool_false by lra. reflexivity.
Qed.

Lemma root_ok : forall k h0 h1 : R, 2 * E52 <= k -> h1 = h0 + k -> is_root h0 h1 k (getClampedRoot (N := R_arith) k h0 h1).
Proof.
  intros k h0 h1 Hk E. pose proof E52_pos. unfold is_root, getClampedRoot. rewrite eps_R. rarith.
  destruct (Rlt_bool (Rabs h0) E52 && Rlt_bool (Rabs h1) E52) eqn:C.
  - exfalso. apply andb_true_iff in C. destruct C as [C1 C2].
    destruct (Rlt_bool_spec (Rabs h0) E52) as [B1|]; [|discriminate]. destruct (Rlt_bool_spec (Rabs h1) E52) as [B2|]; [|discriminate].
    apply Rabs_def2 in B1. apply Rabs_def2 in B2. lra.
  - rcase; [rcase|].
    + destruct (root_frac k h0 h1 ltac:(lra) E ltac:(assumption) ltac:(assumption)) as (Er & R1 & R2). rewrite Er. right. right. repeat split; lra.
    + right. left. lra.
    + left. lra.
Qed.

Lemma root_between : forall k h0 h1 : R, h1 = h0 + k -> h0 < 0 -> 0 < h1 ->
  (Rabs h0 < E52 /\ Rabs h1 < E52) \/ h0 + k * getClampedRoot (N := R_arith) k h0 h1 = 0.
Proof.
  intros k h0 h1 E H0 H1. unfold getClampedRoot. rewrite eps_R. rarith.
  destruct (Rlt_bool_spec (Rabs h0) E52); destruct (Rlt_bool_spec (Rabs h1) E52); cbn [andb]; [left; split; assumption| | | ];
    right; rewrite (Rlt_bool_true h0 0), (Rlt_bool_true 0 h1) by assumption;
    destruct (root_frac k h0 h1 ltac:(lra) E H0 H1) as (Er & _ & R2); rewrite Er; exact R2.
Qed.

(** ** The quadratic *)
Section Quad.
  Variables A B C D E : R.
  Definition hs (s t : R) : R := A * s - B * t + D.
  Definition ht (s t : R) : R := C * t - B * s - E.
  Definition quad (s t : R) : R := A * s * s - 2 * B * s * t + C * t * t + 2 * D * s - 2 * E * t.
  Hypothesis psd : forall x y, 0 <= A * x * x - 2 * B * x * y + C * y * y.

  Lemma quad_first : forall s t s' t', quad s t + 2 * (hs s t * (s' - s) + ht s t * (t' - t)) <= quad s' t'.
  Proof.
    intros s t s' t'. pose proof (psd (s' - s) (t' - t)) as P. unfold quad, hs, ht. nra.
  Qed.

  (** near-optimality from near-stationarity *)
  Lemma quad_near : forall s t err, (forall s' t', unit_interval s' -> unit_interval t' -> - err <= 2 * (hs s t * (s' - s) + ht s t * (t' - t))) ->
    forall s' t', unit_interval s' -> unit_interval t' -> quad s t <= quad s' t' + err.
  Proof. intros s t err H s' t' Hs Ht. pose proof (quad_first s t s' t'). specialize (H s' t' Hs Ht). lra. Qed.

  Definition kkt (z h : R) : Prop := (z = 0 /\ 0 <= h) \/ (z = 1 /\ h <= 0) \/ (0 <= z <= 1 /\ h = 0).
  Lemma kkt_step : forall z h z', kkt z h -> unit_interval z' -> 0 <= h * (z' - z).
  Proof. intros z h z' [[-> H]|[[-> H]|[_ ->]]] [H0 H1]; nra. Qed.
  Lemma kkt_opt : forall s t, kkt s (hs s t) -> kkt t (ht s t) ->
    forall s' t', unit_interval s' -> unit_interval t' -> quad s t <= quad s' t'.
  Proof.
    intros s t K1 K2 s' t' Hs Ht. assert (G := quad_near s t 0). specialize (G ltac:(intros; pose proof (kkt_step _ _ s'0 K1 H); pose proof (kkt_step _ _ t'0 K2 H0); lra) s' t' Hs Ht). lra.
  Qed.

  (** minimum along the edge s = sigma *)
  Lemma edge_kkt : forall sigma r, is_root (ht sigma 0) (ht sigma 1) C r -> kkt r (ht sigma r).
  Proof.
    intros sigma r [[-> H]|[(-> & H & _)|(Hr & H & _)]]; unfold kkt, ht in *; [left|right;left|right;right]; split; try lra; nra.
  Qed.
End Quad.

(** the data of the class as reals *)
Definition qd (q : dcp R_arith) (s t : R) : R := quad (mA q) (mB q) (mC q) (mD q) (mE q) s t.
Definition qs (q : dcp R_arith) (s t : R) : R := hs (mA q) (mB q) (mD q) s t.
Definition qt (q : dcp R_arith) (s t : R) : R := ht (mB q) (mC q) (mE q) s t.

(** an end of the segment where the s-derivative vanishes, with its edge *)
Definition good_end (q : dcp R_arith) (e : nat * (R * R)) : Prop :=
  let '(edge, (s, t)) := e in
  unit_interval s /\ unit_interval t /\ qs q s t = 0 /\
  ((edge = 0%nat /\ s = 0) \/ (edge = 1%nat /\ s = 1) \/ (edge = 2%nat /\ t = 0) \/ (edge = 3%nat /\ t = 1)).

(** the t-extent of the segment of intersection is 1, A/|B| or that of a cut corner *)
Definition corner_wide (k : R) (q : dcp R_arith) : Prop :=
  k * Rabs (mB q) <= mA q /\
  forall s t, (s = 0 \/ s = 1) -> (t = 0 \/ t = 1) -> qs q s t = 0 \/ k * Rabs (mB q) <= Rabs (qs q s t).

(** an end together with the sign of B that belongs to its edge; [low] for the end with smaller t *)
Definition end_ok (q : dcp R_arith) (low : bool) (e : nat * (R * R)) : Prop :=
  let '(edge, (s, t)) := e in
  unit_interval s /\ unit_interval t /\ qs q s t = 0 /\
  ((edge = 0%nat /\ s = 0 /\ (if low then 0 < mB q else mB q < 0)) \/
   (edge = 1%nat /\ s = 1 /\ (if low then mB q < 0 else 0 < mB q)) \/
   (edge = (if low then 2 else 3)%nat /\ t = (if low then 0 else 1))).

Lemma classify_cases : forall s : R, unit_interval s ->
  (s = 0 /\ classify (N := R_arith) s = (-1)%Z) \/ (s = 1 /\ classify (N := R_arith) s = 1%Z) \/ (0 < s < 1 /\ classify (N := R_arith) s = 0%Z).
Proof.
  intros s [H0 H1]. unfold classify. rarith. rcase; [left; split; [lra|reflexivity]|]. rcase; [right; left|right; right]; split; try reflexivity; lra.
Qed.

Lemma guarded_in : forall x : R, unit_interval x -> guarded (N := R_arith) x = x.
Proof. intros x [H0 H1]. unfold guarded. rarith. rewrite !Rlt_bool_false by lra. reflexivity. Qed.
Lemma guarded_range : forall x : R, unit_interval (guarded (N := R_arith) x).
Proof.
  intro x. unfold guarded. rewrite half_R. rarith. unfold unit_interval.
  destruct (Rlt_bool_spec x 0); cbn [orb]; [lra|]. destruct (Rlt_bool_spec 1 x); lra.
Qed.

Lemma div_pos_range : forall x b : R, 0 < b -> 0 <= x <= b -> unit_interval (x / b).
Proof.
  intros x b Hb H. split.
  - apply Rmult_le_reg_r with b; [exact Hb|]. unfold Rdiv. rewrite Rmult_assoc, Rinv_l by lra. lra.
  - apply Rmult_le_reg_r with b; [exact Hb|]. unfold Rdiv. rewrite Rmult_assoc, Rinv_l by lra. lra.
Qed.
Lemma div_neg_range : forall x b : R, b < 0 -> b <= x <= 0 -> unit_interval (x / b).
Proof. intros x b Hb H. replace (x / b) with ((- x) / (- b)) by (field; lra). apply div_pos_range; lra. Qed.

Lemma div_ge_pos : forall k x b : R, 0 < b -> k * b <= x -> k <= x / b.
Proof. intros k x b Hb H. apply Rmult_le_reg_r with b; [exact Hb|]. unfold Rdiv. rewrite Rmult_assoc, Rinv_l by lra. lra. Qed.

Lemma intersection_ok : forall (q : dcp R_arith) s0 s1 (e0 e1 : nat * (R * R)),
  0 < mA q ->
  is_root (mF00 q) (mF10 q) (mA q) s0 -> is_root (mF01 q) (mF11 q) (mA q) s1 ->
  ~ (classify (N := R_arith) s0 = (-1)%Z /\ classify (N := R_arith) s1 = (-1)%Z) ->
  ~ (classify (N := R_arith) s0 = 1%Z /\ classify (N := R_arith) s1 = 1%Z) ->
  computeIntersection (N := R_arith) q s0 s1 (classify (N := R_arith) s0) (classify (N := R_arith) s1) = (e0, e1) ->
  end_ok q true e0 /\ end_ok q false e1 /\ snd (snd e0) < snd (snd e1) /\
  (forall k, 0 < k <= 1 -> corner_wide k q -> k <= snd (snd e1) - snd (snd e0)).
Proof.
  intros q s0 s1 e0 e1 HA R0 R1 N1 N2 E.
  assert (U0 : unit_interval s0) by (unfold unit_interval; destruct R0 as [[]|[[]|[]]]; lra).
  assert (U1 : unit_interval s1) by (unfold unit_interval; destruct R1 as [[]|[[]|[]]]; lra).
  unfold is_root, mF01, mF11, mF10, mF00 in R0, R1. unfold computeIntersection, mF10, mF00 in E. rarith.
  set (A := mA q) in *. set (B := mB q) in *. set (D := mD q) in *.
  assert (CW : forall k, corner_wide k q -> k * Rabs B <= A /\ (D = 0 \/ k * Rabs B <= Rabs D) /\ (D - B = 0 \/ k * Rabs B <= Rabs (D - B)) /\
     (D + A = 0 \/ k * Rabs B <= Rabs (D + A)) /\ (D + A - B = 0 \/ k * Rabs B <= Rabs (D + A - B))).
  { intros k [K1 K2]. split; [exact K1|].
    pose proof (K2 0 0 ltac:(lra) ltac:(lra)) as X1. pose proof (K2 0 1 ltac:(lra) ltac:(lra)) as X2.
    pose proof (K2 1 0 ltac:(lra) ltac:(lra)) as X3. pose proof (K2 1 1 ltac:(lra) ltac:(lra)) as X4.
    unfold qs, hs in *. fold A B D in X1, X2, X3, X4.
    assert (Y1 : A * 0 - B * 0 + D = D :> R) by ring. assert (Y2 : A * 0 - B * 1 + D = D - B :> R) by ring.
    assert (Y3 : A * 1 - B * 0 + D = D + A :> R) by ring. assert (Y4 : A * 1 - B * 1 + D = D + A - B :> R) by ring.
    rewrite Y1 in X1. rewrite Y2 in X2. rewrite Y3 in X3. rewrite Y4 in X4. auto. }
  destruct (classify_cases s0 U0) as [[S0 C0]|[[S0 C0]|[S0 C0]]], (classify_cases s1 U1) as [[S1 C1]|[[S1 C1]|[S1 C1]]];
    rewrite C0, C1 in *; cbn [Z.ltb Z.eqb Z.compare Pos.compare] in E; try (exfalso; tauto); clear N1 N2;
    change ((-1 <? 0)%Z) with true in E; change ((1 <? 0)%Z) with false in E; change ((0 <? 0)%Z) with false in E; cbv iota in E.
  - (* -1, 1 *) assert (HD : 0 <= D) by (destruct R0 as [[]|[[]|[]]]; lra). assert (H11 : D + A - B <= 0) by (destruct R1 as [[]|[[]|[]]]; lra).
    assert (HB : 0 < B) by lra.
    assert (T0 : unit_interval (D / B)) by (apply div_pos_range; lra). assert (T1 : unit_interval ((D + A) / B)) by (apply div_pos_range; lra).
    rewrite !guarded_in in E by assumption. injection E as <- <-. unfold end_ok, qs, hs. cbn [snd]. fold A B D.
    split; [split; [unfold unit_interval; lra|split; [exact T0|split; [field; lra|left; repeat split; exact HB]]]|].
    split; [split; [unfold unit_interval; lra|split; [exact T1|split; [field; lra|right; left; repeat split; exact HB]]]|].
    replace ((D + A) / B - D / B) with (A / B) by (field; lra). assert (0 < A / B) by (apply Rdiv_lt_0_compat; lra).
    split; [replace ((D + A) / B) with (D / B + A / B) by (field; lra); lra|].
    intros k Hk W. apply CW in W. destruct W as [W _]. rewrite Rabs_pos_eq in W by lra. apply div_ge_pos; lra.
  - (* -1, 0 *) assert (HD : 0 <= D) by (destruct R0 as [[]|[[]|[]]]; lra).
    assert (H1 : D - B + A * s1 = 0 /\ D - B < 0) by (destruct R1 as [[]|[[]|[]]]; lra). destruct H1 as [H1 H1'].
    assert (HB : 0 < B) by lra. assert (T0 : unit_interval (D / B)) by (apply div_pos_range; lra).
    rewrite !guarded_in in E by assumption. injection E as <- <-. unfold end_ok, qs, hs. cbn [snd]. fold A B D.
    split; [split; [unfold unit_interval; lra|split; [exact T0|split; [field; lra|left; repeat split; exact HB]]]|].
    split; [split; [exact U1|split; [unfold unit_interval; lra|split; [lra|right; right; split; reflexivity]]]|].
    assert (X : 1 - D / B = (B - D) / B) by (field; lra). assert (0 < (B - D) / B) by (apply Rdiv_lt_0_compat; lra).
    split; [lra|]. intros k Hk W. apply CW in W. destruct W as (_ & _ & [W|W] & _); [lra|].
    rewrite (Rabs_pos_eq B) in W by lra. rewrite (Rabs_left (D - B)) in W by lra. rewrite X. apply div_ge_pos; lra.
  - (* 1, -1 *) assert (HD : D + A <= 0) by (destruct R0 as [[]|[[]|[]]]; lra). assert (H11 : 0 <= D - B) by (destruct R1 as [[]|[[]|[]]]; lra).
    assert (HB : B < 0) by lra.
    assert (T0 : unit_interval ((D + A) / B)) by (apply div_neg_range; lra). assert (T1 : unit_interval (D / B)) by (apply div_neg_range; lra).
    rewrite !guarded_in in E by assumption. injection E as <- <-. unfold end_ok, qs, hs. cbn [snd]. fold A B D.
    split; [split; [unfold unit_interval; lra|split; [exact T0|split; [field; lra|right; left; repeat split; exact HB]]]|].
    split; [split; [unfold unit_interval; lra|split; [exact T1|split; [field; lra|left; repeat split; exact HB]]]|].
    replace (D / B - (D + A) / B) with (A / - B) by (field; lra). assert (0 < A / - B) by (apply Rdiv_lt_0_compat; lra).
    split; [replace (D / B) with ((D + A) / B + A / - B) by (field; lra); lra|].
    intros k Hk W. apply CW in W. destruct W as [W _]. rewrite Rabs_left in W by lra. apply div_ge_pos; lra.
  - (* 1, 0 *) assert (HD : D + A <= 0) by (destruct R0 as [[]|[[]|[]]]; lra).
    assert (H1 : D - B + A * s1 = 0 /\ 0 < D + A - B) by (destruct R1 as [[]|[[]|[]]]; lra). destruct H1 as [H1 H1'].
    assert (HB : B < 0) by lra. assert (T0 : unit_interval ((D + A) / B)) by (apply div_neg_range; lra).
    rewrite !guarded_in in E by assumption. injection E as <- <-. unfold end_ok, qs, hs. cbn [snd]. fold A B D.
    split; [split; [unfold unit_interval; lra|split; [exact T0|split; [field; lra|right; left; repeat split; exact HB]]]|].
    split; [split; [exact U1|split; [unfold unit_interval; lra|split; [lra|right; right; split; reflexivity]]]|].
    assert (X : 1 - (D + A) / B = (D + A - B) / - B) by (field; lra). assert (0 < (D + A - B) / - B) by (apply Rdiv_lt_0_compat; lra).
    split; [lra|]. intros k Hk W. apply CW in W. destruct W as (_ & _ & _ & _ & [W|W]); [lra|].
    rewrite (Rabs_left B) in W by lra. rewrite (Rabs_pos_eq (D + A - B)) in W by lra. rewrite X. apply div_ge_pos; lra.
  - (* 0, -1 *) assert (H0 : D + A * s0 = 0 /\ D < 0 /\ 0 < D + A) by (destruct R0 as [[]|[[]|[]]]; lra). destruct H0 as (H0 & H0' & H0'').
    assert (H1 : 0 <= D - B) by (destruct R1 as [[]|[[]|[]]]; lra). assert (HB : B < 0) by lra.
    assert (T1 : unit_interval (D / B)) by (apply div_neg_range; lra).
    rewrite !guarded_in in E by assumption. injection E as <- <-. unfold end_ok, qs, hs. cbn [snd]. fold A B D.
    split; [split; [exact U0|split; [unfold unit_interval; lra|split; [lra|right; right; split; reflexivity]]]|].
    split; [split; [unfold unit_interval; lra|split; [exact T1|split; [field; lra|left; repeat split; exact HB]]]|].
    assert (X : D / B = (- D) / - B) by (field; lra). assert (0 < (- D) / - B) by (apply Rdiv_lt_0_compat; lra).
    split; [lra|]. intros k Hk W. apply CW in W. destruct W as (_ & [W|W] & _); [lra|].
    rewrite (Rabs_left B) in W by lra. rewrite (Rabs_left D) in W by lra. rewrite X, Rminus_0_r. apply div_ge_pos; lra.
  - (* 0, 1 *) assert (H0 : D + A * s0 = 0 /\ D < 0 /\ 0 < D + A) by (destruct R0 as [[]|[[]|[]]]; lra). destruct H0 as (H0 & H0' & H0'').
    assert (H1 : D + A - B <= 0) by (destruct R1 as [[]|[[]|[]]]; lra). assert (HB : 0 < B) by lra.
    assert (T1 : unit_interval ((D + A) / B)) by (apply div_pos_range; lra).
    rewrite !guarded_in in E by assumption. injection E as <- <-. unfold end_ok, qs, hs. cbn [snd]. fold A B D.
    split; [split; [exact U0|split; [unfold unit_interval; lra|split; [lra|right; right; split; reflexivity]]]|].
    split; [split; [unfold unit_interval; lra|split; [exact T1|split; [field; lra|right; left; repeat split; exact HB]]]|].
    assert (0 < (D + A) / B) by (apply Rdiv_lt_0_compat; lra).
    split; [lra|]. intros k Hk W. apply CW in W. destruct W as (_ & _ & _ & [W|W] & _); [lra|].
    rewrite (Rabs_pos_eq B) in W by lra. rewrite (Rabs_pos_eq (D + A)) in W by lra. rewrite Rminus_0_r. apply div_ge_pos; lra.
  - (* 0, 0 *) assert (H0 : D + A * s0 = 0) by (destruct R0 as [[]|[[]|[]]]; lra). assert (H1 : D - B + A * s1 = 0) by (destruct R1 as [[]|[[]|[]]]; lra).
    injection E as <- <-. unfold end_ok, qs, hs. cbn [snd]. fold A B D.
    split; [split; [exact U0|split; [unfold unit_interval; lra|split; [lra|right; right; split; reflexivity]]]|].
    split; [split; [exact U1|split; [unfold unit_interval; lra|split; [lra|right; right; split; reflexivity]]]|].
    split; [lra|]. intros. lra.
Qed.

(** parameters in range, whatever the data *)
Lemma blend_range : forall (z : R) (e0 e1 : R * R), unit_interval z -> unit_interval (fst e0) -> unit_interval (snd e0) ->
  unit_interval (fst e1) -> unit_interval (snd e1) ->
  unit_interval (fst (blend (N := R_arith) z e0 e1)) /\ unit_interval (snd (blend (N := R_arith) z e0 e1)).
Proof. intros z [s0 t0] [s1 t1]. unfold unit_interval, blend. cbn. intros. split; nra. Qed.

Lemma intersection_range : forall (q : dcp R_arith) s0 s1 c0 c1 e0 e1, unit_interval s0 -> unit_interval s1 ->
  computeIntersection (N := R_arith) q s0 s1 c0 c1 = (e0, e1) ->
  unit_interval (fst (snd e0)) /\ unit_interval (snd (snd e0)) /\ unit_interval (fst (snd e1)) /\ unit_interval (snd (snd e1)).
Proof.
  intros q s0 s1 c0 c1 e0 e1 U0 U1 E. assert (Z : unit_interval 0) by (unfold unit_interval; lra). assert (O : unit_interval 1) by (unfold unit_interval; lra).
  pose proof (guarded_range (mF00 q / mB q)) as G0. pose proof (guarded_range (mF10 q / mB q)) as G1.
  unfold computeIntersection in E.
  destruct (c0 <? 0)%Z; [|destruct (c0 =? 0)%Z]; [destruct (c1 =? 0)%Z|destruct (c1 <? 0)%Z; [|destruct (c1 =? 0)%Z]|destruct (c1 =? 0)%Z];
    apply pair_equal_spec in E; destruct E as [<- <-]; cbn [fst snd]; auto.
Qed.

Lemma minimum_range : forall (q : dcp R_arith) n0 s0 t0 n1 s1 t1, unit_interval s0 -> unit_interval t0 -> unit_interval s1 -> unit_interval t1 ->
  let p := computeMinimumParameters (N := R_arith) q (n0, (s0, t0)) (n1, (s1, t1)) in unit_interval (fst p) /\ unit_interval (snd p).
Proof.
  intros q n0 s0 t0 n1 s1 t1 H1 H2 H3 H4. unfold computeMinimumParameters. cbn [fst snd]. rewrite half_R.
  assert (Z : unit_interval 0) by (unfold unit_interval; lra). assert (O : unit_interval 1) by (unfold unit_interval; lra).
  assert (G : forall a b c : R, unit_interval (getClampedRoot (N := R_arith) a b c)) by (intros; apply root_range).
  assert (Hh : unit_interval (/ 2)) by (unfold unit_interval; lra).
  destruct (_ && _)%bool; [apply blend_range; assumption|].
  destruct (a_le _ _); [destruct (n0 =? 0)%nat; [|destruct (n0 =? 1)%nat]; cbn [fst snd]; auto|].
  destruct (a_le _ _); [destruct (n1 =? 0)%nat; [|destruct (n1 =? 1)%nat]; cbn [fst snd]; auto|].
  apply blend_range; auto.
Qed.

Lemma parameters_range : forall (q : dcp R_arith), let p := dcpParameters (N := R_arith) q in unit_interval (fst p) /\ unit_interval (snd p).
Proof.
  intro q. unfold dcpParameters.
  assert (Z : unit_interval 0) by (unfold unit_interval; lra). assert (O : unit_interval 1) by (unfold unit_interval; lra).
  assert (G : forall a b c : R, unit_interval (getClampedRoot (N := R_arith) a b c)) by (intros; apply root_range).
  destruct (_ && _)%bool.
  - destruct (_ && _)%bool; [cbn [fst snd]; auto|]. destruct (_ && _)%bool; [cbn [fst snd]; auto|].
    destruct (computeIntersection _ _ _ _ _) as [e0 e1] eqn:E. apply intersection_range in E; auto.
    destruct e0 as [n0 [a0 b0]], e1 as [n1 [a1 b1]]. cbn [fst snd] in E. destruct E as (E1 & E2 & E3 & E4). apply minimum_range; assumption.
  - destruct (a_lt _ _); [cbn [fst snd]; auto|]. destruct (a_lt _ _); cbn [fst snd]; auto.
Qed.

(** ** Near-optimality *)
Lemma root_le : forall (q : dcp R_arith) sigma r t0, 0 < mC q -> is_root (qt q sigma 0) (qt q sigma 1) (mC q) r ->
  unit_interval t0 -> 0 <= qt q sigma t0 -> r <= t0.
Proof.
  intros q sigma r t0 HC R [U0 U1] H. unfold qt, ht in *. destruct R as [[-> _]|[(-> & H1 & _)|(Hr & H1 & _)]].
  - exact U0.
  - apply Rmult_le_reg_l with (mC q); [exact HC|]. lra.
  - apply Rmult_le_reg_l with (mC q); [exact HC|]. lra.
Qed.
Lemma root_ge : forall (q : dcp R_arith) sigma r t0, 0 < mC q -> is_root (qt q sigma 0) (qt q sigma 1) (mC q) r ->
  unit_interval t0 -> qt q sigma t0 <= 0 -> t0 <= r.
Proof.
  intros q sigma r t0 HC R [U0 U1] H. unfold qt, ht in *. destruct R as [[-> H1]|[(-> & H1 & _)|(Hr & H1 & _)]].
  - apply Rmult_le_reg_l with (mC q); [exact HC|]. lra.
  - exact U1.
  - apply Rmult_le_reg_l with (mC q); [exact HC|]. lra.
Qed.

Definition psd_dcp (q : dcp R_arith) : Prop := forall x y, 0 <= mA q * x * x - 2 * mB q * x * y + mC q * y * y.

Lemma edge_root : forall (q : dcp R_arith), 2 * E52 <= mC q ->
  is_root (qt q 0 0) (qt q 0 1) (mC q) (getClampedRoot (N := R_arith) (mC q) (mG00 q) (mG01 q)) /\
  is_root (qt q 1 0) (qt q 1 1) (mC q) (getClampedRoot (N := R_arith) (mC q) (mG10 q) (mG11 q)).
Proof.
  intros q HC.
  assert (E : mG00 q = qt q 0 0 /\ mG01 q = qt q 0 1 /\ mG10 q = qt q 1 0 /\ mG11 q = qt q 1 1).
  { unfold mG11, mG10, mG01, mG00, qt, ht. rarith. repeat split; match goal with |- ?a = ?b => change (@eq R a b) end; lra. }
  destruct E as (-> & -> & -> & ->). split; apply root_ok; try exact HC; unfold qt, ht; lra.
Qed.

Definition err (k : R) (q : dcp R_arith) : R := 2 * E52 * Rmax 1 (mC q) / k.

Lemma minimum_ok : forall (q : dcp R_arith) e0 e1 k, psd_dcp q -> 2 * E52 <= mC q -> 0 < k <= 1 ->
  end_ok q true e0 -> end_ok q false e1 -> k <= snd (snd e1) - snd (snd e0) ->
  let p := computeMinimumParameters (N := R_arith) q e0 e1 in
  forall s' t', unit_interval s' -> unit_interval t' -> qd q (fst p) (snd p) <= qd q s' t' + err k q.
Proof.
  intros q [n0 [s0 t0]] [n1 [s1 t1]] k HP HC Hk O0 O1 Hd. cbn [snd] in Hd. pose proof E52_pos as HE.
  destruct O0 as (Us0 & Ut0 & Z0 & O0). destruct O1 as (Us1 & Ut1 & Z1 & O1).
  assert (HC0 : 0 < mC q) by lra. destruct (edge_root q HC) as [RT0 RT1].
  assert (Herr : 0 <= err k q).
  { unfold err. apply Rmult_le_pos; [apply Rmult_le_pos; [lra|]; apply Rle_trans with 1; [lra|apply Rmax_l]|apply Rlt_le, Rinv_0_lt_compat; lra]. }
  assert (Exact : forall s t, kkt s (qs q s t) -> kkt t (qt q s t) -> forall s' t', unit_interval s' -> unit_interval t' -> qd q s t <= qd q s' t' + err k q).
  { intros s t K1 K2 s' t' Hs Ht. pose proof (kkt_opt _ _ _ _ _ HP s t K1 K2 s' t' Hs Ht) as X. unfold qd. lra. }
  unfold computeMinimumParameters. cbn [fst snd]. rewrite eps_R, half_R. rarith. cbv zeta.
  set (delta := t1 - t0) in *.
  assert (G0 : - mB q * s0 - mE q + mC q * t0 = qt q s0 t0) by (unfold qt, ht; lra).
  assert (G1 : - mB q * s1 - mE q + mC q * t1 = qt q s1 t1) by (unfold qt, ht; lra).
  rewrite G0, G1. rewrite (Rabs_pos_eq (mC q)) by lra.
  set (g0 := qt q s0 t0) in *. set (g1 := qt q s1 t1) in *.
  (* the derivative along the blend *)
  assert (BL : forall z s t, blend (N := R_arith) z (s0, t0) (s1, t1) = (s, t) -> qs q s t = 0 /\ qt q s t = (1 - z) * g0 + z * g1).
  { intros z s t E. unfold blend in E. cbn [fst snd] in E. rarith. injection E as <- <-. split.
    - transitivity ((1 - z) * qs q s0 t0 + z * qs q s1 t1); [unfold qs, hs; ring|rewrite Z0, Z1; ring].
    - unfold g0, g1, qt, ht. ring. }
  assert (Near : forall m z s t, unit_interval z -> blend (N := R_arith) z (s0, t0) (s1, t1) = (s, t) -> 0 <= m ->
     Rabs (delta * g0) <= m -> Rabs (delta * g1) <= m -> 2 * m / k <= err k q ->
     forall s' t', unit_interval s' -> unit_interval t' -> qd q s t <= qd q s' t' + err k q).
  { intros m z s t Hz E Hm A0 A1 Hme s' t' Hs Ht. destruct (BL z s t E) as [B1 B2].
    assert (Ut : unit_interval t).
    { pose proof (blend_range z (s0, t0) (s1, t1) Hz Us0 Ut0 Us1 Ut1) as X. rewrite E in X. apply X. }
    assert (X : Rabs (delta * (qt q s t)) <= m).
    { rewrite B2. replace (delta * ((1 - z) * g0 + z * g1)) with ((1 - z) * (delta * g0) + z * (delta * g1)) by ring.
      eapply Rle_trans; [apply Rabs_triang|]. rewrite !Rabs_mult, (Rabs_pos_eq z), (Rabs_pos_eq (1 - z)) by (destruct Hz; lra).
      rewrite <- !Rabs_mult. destruct Hz. nra. }
    rewrite Rabs_mult, (Rabs_pos_eq delta) in X by lra.
    assert (Y : Rabs (qt q s t) <= m / k).
    { apply Rmult_le_reg_r with k; [lra|]. unfold Rdiv. rewrite Rmult_assoc, Rinv_l by lra. pose proof (Rabs_pos (qt q s t)). nra. }
    apply (quad_near _ _ _ _ _ HP s t (err k q)); [|exact Hs|exact Ht].
    intros a b Ha Hb. fold (qs q s t). fold (qt q s t). change (hs (mA q) (mB q) (mD q) s t) with (qs q s t). change (ht (mB q) (mC q) (mE q) s t) with (qt q s t).
    rewrite B1. assert (W : Rabs (qt q s t * (b - t)) <= m / k).
    { rewrite Rabs_mult. assert (Rabs (b - t) <= 1) by (apply Rabs_le; destruct Hb, Ut; lra).
      pose proof (Rabs_pos (qt q s t)). pose proof (Rabs_pos (b - t)). nra. }
    apply Rabs_le_inv in W. unfold Rdiv in *. lra. }
  destruct (Rlt_bool_spec (Rabs (delta * g0)) (mC q * E52)) as [T0|T0];
  destruct (Rlt_bool_spec (Rabs (delta * g1)) (mC q * E52)) as [T1|T1]; cbn [andb];
  [ (* midpoint *)
    destruct (blend (N := R_arith) (/ 2) (s0, t0) (s1, t1)) as [s t] eqn:Eb; cbn [fst snd];
    apply (Near (mC q * E52) (/ 2) s t); try assumption; try (unfold unit_interval; lra); try nra;
    unfold err, Rdiv; apply Rmult_le_compat_r; [apply Rlt_le, Rinv_0_lt_compat; lra|]; pose proof (Rmax_r 1 (mC q)); nra
  | | | ];
  (destruct (Rle_bool_spec 0 (delta * g0)) as [T2|T2];
   [ assert (P0 : 0 <= qt q s0 t0) by (change (0 <= g0); apply Rmult_le_reg_l with delta; lra);
     destruct O0 as [(-> & Hs0 & HB)|[(-> & Hs0 & HB)|(-> & Ht0)]]; cbn [Nat.eqb fst snd]; apply Exact;
     [ left; split; [reflexivity|]; rewrite Hs0 in *; pose proof (root_le q 0 _ t0 HC0 RT0 Ut0 P0) as L; unfold qs, hs in *; nra
     | apply edge_kkt; exact RT0
     | right; left; split; [reflexivity|]; rewrite Hs0 in *; pose proof (root_le q 1 _ t0 HC0 RT1 Ut0 P0) as L; unfold qs, hs in *; nra
     | apply edge_kkt; exact RT1
     | right; right; split; [exact Us0|exact Z0]
     | left; split; [exact Ht0|exact P0] ]
   | destruct (Rle_bool_spec (delta * g1) 0) as [T3|T3];
     [ assert (P1 : qt q s1 t1 <= 0) by (change (g1 <= 0); apply Rmult_le_reg_l with delta; lra);
       destruct O1 as [(-> & Hs1 & HB)|[(-> & Hs1 & HB)|(-> & Ht1)]]; cbn [Nat.eqb fst snd]; apply Exact;
       [ left; split; [reflexivity|]; rewrite Hs1 in *; pose proof (root_ge q 0 _ t1 HC0 RT0 Ut1 P1) as L; unfold qs, hs in *; nra
       | apply edge_kkt; exact RT0
       | right; left; split; [reflexivity|]; rewrite Hs1 in *; pose proof (root_ge q 1 _ t1 HC0 RT1 Ut1 P1) as L; unfold qs, hs in *; nra
       | apply edge_kkt; exact RT1
       | right; right; split; [exact Us1|exact Z1]
       | right; left; split; [exact Ht1|exact P1] ]
     | idtac ] ]).
  all: set (z := getClampedRoot (N := R_arith) (delta * g1 - delta * g0) (delta * g0) (delta * g1));
    assert (Uz : unit_interval z) by apply root_range;
    destruct (blend (N := R_arith) z (s0, t0) (s1, t1)) as [s t] eqn:Eb; cbn [fst snd];
    destruct (BL z s t Eb) as [B1 B2];
    pose proof (blend_range z (s0, t0) (s1, t1) Uz Us0 Ut0 Us1 Ut1) as [Us Ut]; rewrite Eb in Us, Ut; cbn [fst snd] in Us, Ut;
    destruct (root_between (delta * g1 - delta * g0) (delta * g0) (delta * g1) ltac:(lra) ltac:(lra) ltac:(lra)) as [[Q0 Q1]|Ez]; [|change (delta * g0 + (delta * g1 - delta * g0) * z = 0) in Ez];
    [ apply (Near E52 z s t); try assumption; try lra; unfold err, Rdiv; apply Rmult_le_compat_r; [apply Rlt_le, Rinv_0_lt_compat; lra|]; pose proof (Rmax_l 1 (mC q)); nra
    | assert (Hg : qt q s t = 0) by (rewrite B2; apply Rmult_eq_reg_l with delta; [|lra]; lra);
      apply Exact; [right; right; split; [exact Us|exact B1] | right; right; split; [exact Ut|exact Hg]] ].
Qed.

(** parameters of the whole query *)
Lemma parameters_near : forall (q : dcp R_arith) k, psd_dcp q -> 0 < k <= 1 ->
  (mA q = 0 -> mB q = 0 /\ mD q = 0) -> (mC q = 0 -> mB q = 0 /\ mE q = 0) ->
  (mA q = 0 \/ 2 * E52 <= mA q) -> (mC q = 0 \/ 2 * E52 <= mC q) -> corner_wide k q ->
  let p := dcpParameters (N := R_arith) q in
  forall s' t', unit_interval s' -> unit_interval t' -> qd q (fst p) (snd p) <= qd q s' t' + err k q.
Proof.
  intros q k HP Hk HA0 HC0 HA HC HW. pose proof E52_pos as HE.
  assert (Herr : 0 <= err k q).
  { unfold err. apply Rmult_le_pos; [apply Rmult_le_pos; [lra|]; apply Rle_trans with 1; [lra|apply Rmax_l]|apply Rlt_le, Rinv_0_lt_compat; lra]. }
  assert (Exact : forall s t, kkt s (qs q s t) -> kkt t (qt q s t) -> forall s' t', unit_interval s' -> unit_interval t' -> qd q s t <= qd q s' t' + err k q).
  { intros s t K1 K2 s' t' Hs Ht. pose proof (kkt_opt _ _ _ _ _ HP s t K1 K2 s' t' Hs Ht) as X. unfold qd. lra. }
  assert (RF : 2 * E52 <= mA q -> is_root (mF00 q) (mF10 q) (mA q) (getClampedRoot (N := R_arith) (mA q) (mF00 q) (mF10 q)) /\
                               is_root (mF01 q) (mF11 q) (mA q) (getClampedRoot (N := R_arith) (mA q) (mF01 q) (mF11 q))).
  { intro H. split; apply root_ok; try exact H; unfold mF11, mF01, mF10, mF00; rarith; match goal with |- ?a = ?b => change (@eq R a b) end; ring. }
  unfold dcpParameters. cbv zeta.
  change (a_lt (a_Z 0) (mA q)) with (Rlt_bool 0 (mA q)). change (a_lt (a_Z 0) (mC q)) with (Rlt_bool 0 (mC q)).
  destruct (Rlt_bool_spec 0 (mA q)) as [PA|PA]; destruct (Rlt_bool_spec 0 (mC q)) as [PC|PC]; cbn [andb].
  - destruct HA as [HA|HA]; [lra|]. destruct HC as [HC|HC]; [lra|]. destruct (RF HA) as [R0 R1]. destruct (edge_root q HC) as [RT0 RT1].
    set (s0 := getClampedRoot (N := R_arith) (mA q) (mF00 q) (mF10 q)) in *. set (s1 := getClampedRoot (N := R_arith) (mA q) (mF01 q) (mF11 q)) in *.
    destruct ((classify s0 =? -1)%Z && (classify s1 =? -1)%Z)%bool eqn:C1; [|destruct ((classify s0 =? 1)%Z && (classify s1 =? 1)%Z)%bool eqn:C2].
    + apply andb_true_iff in C1. destruct C1 as [C1 C2]. apply Z.eqb_eq in C1. apply Z.eqb_eq in C2. cbn [fst snd].
      assert (F0 : 0 <= mF00 q). { destruct R0 as [[_ X]|[(X & _)|(X & _)]]; [exact X| |]; exfalso; unfold classify in C1; revert C1; rarith;
        [rewrite X, Rle_bool_false by lra; rcase; discriminate|rewrite Rle_bool_false by lra; rcase; discriminate]. }
      assert (F1 : 0 <= mF01 q). { destruct R1 as [[_ X]|[(X & _)|(X & _)]]; [exact X| |]; exfalso; unfold classify in C2; revert C2; rarith;
        [rewrite X, Rle_bool_false by lra; rcase; discriminate|rewrite Rle_bool_false by lra; rcase; discriminate]. }
      apply Exact; [left; split; [reflexivity|]|apply edge_kkt; exact RT0].
      pose proof (root_range (mC q) (mG00 q) (mG01 q)) as Hr. set (r := getClampedRoot (N := R_arith) (mC q) (mG00 q) (mG01 q)) in *.
      unfold mF01, mF00 in F0, F1. rarith. unfold qs, hs. nra.
    + apply andb_true_iff in C2. destruct C2 as [C2 C3]. apply Z.eqb_eq in C2. apply Z.eqb_eq in C3. cbn [fst snd].
      assert (F0 : mF10 q <= 0). { destruct R0 as [[X _]|[(_ & X & _)|(X & _)]]; [|exact X|]; exfalso; unfold classify in C2; revert C2; rarith;
        [rewrite X, Rle_bool_true by lra; discriminate|rewrite Rle_bool_false, Rle_bool_false by lra; discriminate]. }
      assert (F1 : mF11 q <= 0). { destruct R1 as [[X _]|[(_ & X & _)|(X & _)]]; [|exact X|]; exfalso; unfold classify in C3; revert C3; rarith;
        [rewrite X, Rle_bool_true by lra; discriminate|rewrite Rle_bool_false, Rle_bool_false by lra; discriminate]. }
      apply Exact; [right; left; split; [reflexivity|]|apply edge_kkt; exact RT1].
      pose proof (root_range (mC q) (mG10 q) (mG11 q)) as Hr. set (r := getClampedRoot (N := R_arith) (mC q) (mG10 q) (mG11 q)) in *.
      unfold mF11, mF10, mF00 in F0, F1. rarith. unfold qs, hs. nra.
    + destruct (computeIntersection (N := R_arith) q s0 s1 (classify s0) (classify s1)) as [e0 e1] eqn:Ei.
      destruct (intersection_ok q s0 s1 e0 e1 PA R0 R1) as (O0 & O1 & _ & HD); [| |exact Ei|].
      * intros [X1 X2]. rewrite X1, X2 in C1. discriminate.
      * intros [X1 X2]. rewrite X1, X2 in C2. discriminate.
      * apply minimum_ok; try assumption. apply HD; assumption.
  - destruct HA as [HA|HA]; [lra|]. destruct HC as [HC|HC]; [|lra]. destruct (HC0 HC) as [B0 E0]. destruct (RF HA) as [R0 _]. cbn [fst snd].
    apply Exact.
    + change (is_root (mD q) (mD q + mA q) (mA q) (getClampedRoot (N := R_arith) (mA q) (mF00 q) (mF10 q))) in R0.
      clear RF. generalize dependent (getClampedRoot (N := R_arith) (mA q) (mF00 q) (mF10 q) : R). intros r R0.
      unfold kkt, qs, hs. rewrite B0. change (a_Z (a := R_arith) 0) with 0.
      destruct R0 as [[X Y]|[(X & Y & _)|(X & Y & _)]]; [left|right; left|right; right]; (split; [lra|]); subst; lra.
    + left. split; [reflexivity|]. unfold qt, ht. rewrite HC, B0, E0. lra.
  - destruct HC as [HC|HC]; [lra|]. destruct HA as [HA|HA]; [|lra]. destruct (HA0 HA) as [B0 D0]. destruct (edge_root q HC) as [RT0 _]. cbn [fst snd].
    apply Exact; [|apply edge_kkt; exact RT0]. left. split; [reflexivity|]. unfold qs, hs. rewrite HA, B0, D0. lra.
  - destruct HC as [HC|HC]; [|lra]. destruct HA as [HA|HA]; [|lra]. destruct (HA0 HA) as [B0 D0]. destruct (HC0 HC) as [_ E0]. cbn [fst snd].
    apply Exact; left; (split; [reflexivity|]); unfold qs, hs, qt, ht; rewrite ?HA, ?HC, ?B0, ?D0, ?E0; lra.
Qed.

(** ** The query *)
Lemma query_quad : forall (P0 P1 Q0 Q1 : vec R) s t,
  dot3 (sub3 (lerp P0 P1 s) (lerp Q0 Q1 t)) (sub3 (lerp P0 P1 s) (lerp Q0 Q1 t))
  = qd (dcpSetup (N := R_arith) P0 P1 Q0 Q1) s t + dot3 (sub3 P0 Q0) (sub3 P0 Q0).
Proof.
  intros. unfold qd, quad, dcpSetup. cbn [mA mB mC mD mE]. vecR. unfold dot3, sub3, lerp, add3, scale3. cbn. ring.
Qed.

Lemma query_psd : forall P0 P1 Q0 Q1 : vec R, psd_dcp (dcpSetup (N := R_arith) P0 P1 Q0 Q1).
Proof.
  intros P0 P1 Q0 Q1 x y. unfold dcpSetup. cbn [mA mB mC mD mE]. vecR.
  pose proof (dot3_self (sub3 (scale3 x (sub3 P1 P0)) (scale3 y (sub3 Q1 Q0)))) as H. dot3s.
  rewrite (dot3_comm Q1 P1), (dot3_comm Q1 P0), (dot3_comm Q0 P1), (dot3_comm Q0 P0) in H. lra.
Qed.

Lemma query_points : forall P0 P1 Q0 Q1 : vec R, let r := dcpQuery (N := R_arith) P0 P1 Q0 Q1 in
  unit_interval (r_s r) /\ unit_interval (r_t r) /\ r_P r = lerp P0 P1 (r_s r) /\ r_Q r = lerp Q0 Q1 (r_t r) /\ r_dist r = dist3 (r_P r) (r_Q r).
Proof.
  intros P0 P1 Q0 Q1. unfold dcpQuery. pose proof (parameters_range (dcpSetup (N := R_arith) P0 P1 Q0 Q1)) as H.
  destruct (dcpParameters (N := R_arith) (dcpSetup (N := R_arith) P0 P1 Q0 Q1)) as [s t]. cbn [fst snd r_dist r_P r_Q r_s r_t] in *.
  destruct H as [H1 H2]. split; [exact H1|]. split; [exact H2|]. split; [reflexivity|]. split; reflexivity.
Qed.

Lemma query_ok : forall P0 P1 Q0 Q1 : vec R, let r := dcpQuery (N := R_arith) P0 P1 Q0 Q1 in
  on_segment P0 P1 (r_P r) /\ on_segment Q0 Q1 (r_Q r) /\
  r_P r = lerp P0 P1 (r_s r) /\ r_Q r = lerp Q0 Q1 (r_t r) /\ unit_interval (r_s r) /\ unit_interval (r_t r) /\ r_dist r = dist3 (r_P r) (r_Q r).
Proof.
  intros P0 P1 Q0 Q1 r. destruct (query_points P0 P1 Q0 Q1) as (H1 & H2 & H3 & H4 & H5). fold r in H1, H2, H3, H4, H5.
  split; [exists (r_s r); auto|]. split; [exists (r_t r); auto|]. auto 10.
Qed.

Lemma query_near : forall (P0 P1 Q0 Q1 : vec R) k, 0 < k <= 1 ->
  point_or_long (/ 2 ^ 51) P0 P1 -> point_or_long (/ 2 ^ 51) Q0 Q1 -> no_tight_corner k P0 P1 Q0 Q1 ->
  forall p q, on_segment P0 P1 p -> on_segment Q0 Q1 q ->
  r_dist (dcpQuery (N := R_arith) P0 P1 Q0 Q1) ^ 2 <= dist3 p q ^ 2 + / 2 ^ 51 * Rmax 1 (dist3 Q0 Q1 ^ 2) / k.
Proof.
  intros P0 P1 Q0 Q1 k Hk LP LQ HW p q (s' & Hs & ->) (t' & Ht & ->).
  destruct (query_points P0 P1 Q0 Q1) as (_ & _ & EP & EQ & ED). rewrite ED, EP, EQ.
  assert (Sq : forall a b, dist3 a b ^ 2 = dot3 (sub3 a b) (sub3 a b)). { intros a b. unfold dist3. rewrite <- norm3_sq. ring. }
  rewrite !Sq, !query_quad. set (d := dcpSetup (N := R_arith) P0 P1 Q0 Q1) in *.
  assert (E2 : / 2 ^ 51 = 2 * E52). { unfold E52. replace (2 ^ 52) with (2 * 2 ^ 51) by ring. field. }
  assert (EC : dot3 (sub3 Q0 Q1) (sub3 Q0 Q1) = mC d). { unfold d, dcpSetup. cbn [mC]. vecR. unfold dot3, sub3. cbn. ring. }
  rewrite EC, E2. change (2 * E52 * Rmax 1 (mC d) / k) with (err k d).
  assert (Ers : r_s (dcpQuery (N := R_arith) P0 P1 Q0 Q1) = fst (dcpParameters (N := R_arith) d) /\ r_t (dcpQuery (N := R_arith) P0 P1 Q0 Q1) = snd (dcpParameters (N := R_arith) d)).
  { unfold dcpQuery. fold d. destruct (dcpParameters (N := R_arith) d). split; reflexivity. }
  destruct Ers as [-> ->].
  cut (qd d (fst (dcpParameters (N := R_arith) d)) (snd (dcpParameters (N := R_arith) d)) <= qd d s' t' + err k d); [lra|].
  assert (Z : forall a b : vec R, dot3 (sub3 b a) (sub3 b a) = 0 -> sub3 b a = zero3) by (intros a b; apply dot3_zero).
  assert (Z0 : forall v, dot3 zero3 v = 0) by (intro; unfold dot3, zero3; cbn; ring).
  assert (Z0' : forall v, dot3 v zero3 = 0) by (intro; unfold dot3, zero3; cbn; ring).
  apply parameters_near; try assumption.
  - apply query_psd.
  - unfold d, dcpSetup. cbn [mA mB mD]. vecR. intro H. rewrite (Z _ _ H), !Z0. split; reflexivity.
  - unfold d, dcpSetup. cbn [mB mC mE]. vecR. intro H. rewrite (Z _ _ H), Z0, Z0'. split; reflexivity.
  - unfold d, dcpSetup. cbn [mA]. vecR. rewrite <- E2. destruct LP as [->|L]; [left|right; exact L]. unfold dot3, sub3. cbn. ring.
  - unfold d, dcpSetup. cbn [mC]. vecR. rewrite <- E2. destruct LQ as [->|L]; [left|right; exact L]. unfold dot3, sub3. cbn. ring.
  - destruct HW as [W1 W2]. split; [exact W1|]. intros s t Us Ut.
    assert (Es : qs d s t = slope_P P0 P1 Q0 Q1 s t).
    { unfold qs, hs, slope_P, d, dcpSetup. cbn [mA mB mD]. vecR. unfold dot3, sub3, lerp, add3, scale3. cbn. ring. }
    rewrite Es. exact (W2 s t Us Ut).
Qed.

(** the quotients of ComputeIntersection have a non-zero divisor whenever they are used *)
Lemma no_zero_division : forall (q : dcp R_arith), 0 < mA q ->
  let s0 := getClampedRoot (N := R_arith) (mA q) (mF00 q) (mF10 q) in
  let s1 := getClampedRoot (N := R_arith) (mA q) (mF01 q) (mF11 q) in
  classify (N := R_arith) s0 <> classify (N := R_arith) s1 -> mB q <> 0.
Proof.
  intros q HA s0 s1 H HB. apply H. unfold s0, s1. unfold mF01, mF11. rarith. rewrite HB, !Rminus_0_r. reflexivity.
Qed.
