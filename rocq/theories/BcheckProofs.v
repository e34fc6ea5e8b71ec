(** Boundary::check (C83). *)
From Coq Require Import ZArith Reals Lra Psatz Bool.
From Flocq Require Import Core.
From Verif Require Import Arith ParticleModel VecModel VecSpec VecProofs BoundaryModel BoundarySpec BoundaryProofs BcheckModel BcheckSpec.
Local Open Scope R_scope.

Lemma eps_tol : @eps R_arith = tol.
Proof. unfold eps, tol. rarith. unfold bpow. replace (Z.pow_pos radix2 52) with 4503599627370496%Z by reflexivity. lra. Qed.
Lemma tol_small : 0 < tol < 1.
Proof. unfold tol. lra. Qed.

Lemma zero_scale : forall k, scale3 k zero3 = zero3.
Proof. intro k. unfold scale3, zero3. cbn. apply vec_eq; cbn; ring. Qed.

Lemma unit_scaled : forall (v : vec R) s, s = 1 \/ s = -1 -> norm3 (scale3 (s / norm3 v) v) <= 1.
Proof.
  intros v s Hs. destruct (vec3_dec v) as [->|Hv].
  - rewrite zero_scale, norm3_zero. lra.
  - pose proof (norm3_pos v Hv). rewrite norm3_scale. right. unfold Rdiv. rewrite Rabs_mult, Rabs_inv, (Rabs_pos_eq (norm3 v)) by lra.
    replace (Rabs s) with 1 by (destruct Hs as [->| ->]; [rewrite Rabs_pos_eq; lra|rewrite Rabs_left; lra]). field. lra.
Qed.

Lemma towards_le1 : forall b p, regular b -> norm3 (towards b p) <= 1.
Proof.
  intros [c r i|c n|c a r i] p Hb; cbn [towards regular] in *.
  - unfold dist3. apply unit_scaled. destruct i; auto.
  - right. apply norm3_unit, Hb.
  - apply unit_scaled. destruct i; auto.
Qed.

Lemma axis_part : forall (p c a : vec R), sub3 p (add3 c (scale3 (dot3 (sub3 p c) a) a)) = reject a (sub3 p c).
Proof. intros. unfold reject. set (k := dot3 _ _). clearbody k. apply vec_eq; cbn; ring. Qed.
Lemma axis_part' : forall (p c a : vec R), sub3 (add3 c (scale3 (dot3 (sub3 p c) a) a)) p = scale3 (-1) (reject a (sub3 p c)).
Proof. intros. unfold reject. set (k := dot3 _ _). clearbody k. apply vec_eq; cbn; ring. Qed.

Lemma wanted_R : forall b (p : vec R), wantedNormal (N := R_arith) b p = towards b p.
Proof.
  intros [c r i|c n|c a r i] p; cbn [towards wantedNormal].
  - vecR. rarith. unfold dist3. set (k := norm3 _). destruct i; apply vec_eq; cbn; unfold Rdiv; ring.
  - reflexivity.
  - vecR. rewrite axis_part, axis_part'. set (v := reject a (sub3 p c)). clearbody v.
    destruct (vec3_dec v) as [->|Hv].
    + destruct i; rewrite ?zero_scale; apply normalized_0.
    + pose proof (norm3_pos v Hv). destruct i.
      * rewrite normalized_R.
        -- rewrite norm3_scale. rewrite Rabs_left by lra. apply vec_eq; cbn; field; lra.
        -- intro E. apply Hv. injection E as E1 E2 E3. apply vec_eq; cbn; lra.
      * rewrite normalized_R by exact Hv. apply vec_eq; cbn; field; lra.
Qed.

Lemma off_R : forall b (p : vec R) e, Rabs (offSurface (N := R_arith) b p) <= e <-> close_to b e p.
Proof.
  intros [c r i|c n|c a r i] p e; cbn [offSurface close_to]; vecR; rarith; [tauto|tauto|].
  rewrite axis_part, Rabs_minus_sym. tauto.
Qed.

Lemma qmp_R : forall b (q p : vec R), vnorm (queryMinusProj (N := R_arith) b q p) = dist3 q p.
Proof.
  intros b q p. vecR. destruct b as [c r i|c n|c a r i]; cbn [queryMinusProj]; vecR; try reflexivity.
  unfold dist3. f_equal. apply vec_eq; cbn; ring.
Qed.

Lemma check_iff : forall b q p d, regular b -> (check (N := R_arith) b q p d = true <-> plausible b tol q p d).
Proof.
  intros b q p d Hb. unfold check, plausible. rewrite eps_tol, qmp_R, wanted_R, <- off_R. vecR. rarith. pose proof tol_small as T.
  case (Rlt_bool_spec tol (Rabs (offSurface (N := R_arith) b p))); intro C1; [split; [discriminate|intros (A & _); lra]|].
  case (Rlt_bool_spec tol (Rabs (dist3 q p - norm3 d))); intro C2; [split; [discriminate|intros (_ & A & _); lra]|].
  assert (K : Rabs (1 - dot3 (towards b p) (vnormalized (N := R_arith) d)) <= tol <-> d <> zero3 /\ (1 - tol) * norm3 d <= dot3 (towards b p) d).
  { destruct (vec3_dec d) as [->|Hd].
    - rewrite normalized_0. replace (dot3 (towards b p) zero3) with 0 by (unfold dot3, zero3; cbn; ring).
      rewrite Rabs_pos_eq by lra. split; [lra|tauto].
    - rewrite normalized_R, dot3_scale_r by exact Hd. pose proof (norm3_pos d Hd) as Hn.
      pose proof (cauchy3 (towards b p) d) as Hc. pose proof (towards_le1 b p Hb) as H1.
      assert (Hc' : dot3 (towards b p) d <= norm3 d) by nra. set (x := dot3 (towards b p) d) in *. set (n := norm3 d) in *.
      assert (Hx : / n * x <= 1). { apply (Rmult_le_reg_l n); [exact Hn|]. replace (n * (/ n * x)) with x by (field; lra). lra. }
      rewrite Rabs_pos_eq by lra. split.
      + intro H. split; [exact Hd|]. replace x with (n * (/ n * x)) by (field; lra). nra.
      + intros [_ H]. assert ((1 - tol) <= / n * x); [|lra].
        apply (Rmult_le_reg_l n); [exact Hn|]. replace (n * (/ n * x)) with x by (field; lra). lra. }
  case (Rlt_bool_spec tol (Rabs (1 - dot3 (towards b p) (vnormalized (N := R_arith) d)))); intro C3.
  - split; [discriminate|]. intros (_ & _ & A). apply K in A. lra.
  - split; [|reflexivity]. intros _. apply K in C3. tauto.
Qed.

Lemma surface_close : forall b p e, 0 <= e -> surface b p -> close_to b e p.
Proof. intros [c r i|c n|c a r i] p e He H; cbn [surface close_to] in *; rewrite H, ?Rminus_diag_eq by reflexivity; rewrite Rabs_R0; exact He. Qed.

Lemma surface_towards : forall b p, surface b p -> towards b p = inward b p.
Proof. intros [c r i|c n|c a r i] p H; cbn [surface towards inward] in *; rewrite ?H; reflexivity. Qed.

Lemma dist3_0 : forall a b, dist3 a b = 0 <-> a = b.
Proof.
  intros a b. split.
  - intro H. apply norm3_eq0 in H. unfold sub3, zero3 in H. injection H as H1 H2 H3. apply vec_eq; lra.
  - intros ->. unfold dist3. replace (sub3 b b) with zero3 by (apply vec_eq; cbn; ring). apply norm3_zero.
Qed.

(** the output of project is accepted unless the query is on the surface *)
Lemma accepts_iff : forall b q, regular b -> off_centre b q ->
  (check (N := R_arith) b q (fst (project (N := R_arith) b q)) (snd (project (N := R_arith) b q)) = true <-> ~ surface b q).
Proof.
  intros b q Hb Hq. destruct (project (N := R_arith) b q) as [P d] eqn:E. cbn [fst snd].
  destruct (project_ok b q P d Hb Hq E) as ((HP & Hmin) & Ed & Hu & _). rewrite check_iff by exact Hb. unfold plausible.
  assert (Hz : d = zero3 <-> surface b q).
  { split.
    - intro H. rewrite H in Ed. assert (A : norm3 zero3 = norm3 (scale3 (dist3 q P) (inward b P))) by (rewrite <- Ed; reflexivity).
      rewrite norm3_zero, norm3_scale in A. apply norm3_unit in Hu. rewrite Hu in A. rewrite Rabs_pos_eq in A by apply dist3_nonneg.
      assert (B : q = P) by (apply dist3_0; lra). rewrite B. exact HP.
    - intro H. specialize (Hmin q H). assert (dist3 q q = 0) by (apply dist3_0; reflexivity). pose proof (dist3_nonneg q P).
      rewrite Ed. replace (dist3 q P) with 0 by lra. apply vec_eq; cbn; ring. }
  pose proof tol_small as T. assert (Nd : norm3 d = dist3 q P).
  { rewrite Ed, norm3_scale. apply norm3_unit in Hu. rewrite Hu, Rabs_pos_eq by apply dist3_nonneg. ring. }
  split; [tauto|]. intro H. split; [apply surface_close; [lra|exact HP]|]. split; [rewrite Nd, Rminus_diag_eq, Rabs_R0 by reflexivity; lra|].
  split; [tauto|]. rewrite Nd, (surface_towards b P HP), Ed, dot3_scale_r. rewrite Hu. pose proof (dist3_nonneg q P). nra.
Qed.

(** the wrong point of a sphere is accepted *)
Lemma wrong_point : exists b q P d, regular b /\ off_centre b q /\ ~ surface b q /\ q = sub3 P d /\
  check (N := R_arith) b q P d = true /\ ~ nearest b q P.
Proof.
  exists (SphereShell (N := R_arith) (Vec 0 0 0) 1 false), (Vec (- (1 / 2)) 0 0), (Vec 1 0 0), (Vec (3 / 2) 0 0).
  assert (D : forall x : R, 0 <= x -> norm3 (Vec x 0 0) = x). { intros x Hx. apply norm3_unique; [exact Hx|]. unfold dot3; cbn; ring. }
  assert (D' : forall x : R, 0 <= x -> norm3 (Vec (- x) 0 0) = x). { intros x Hx. apply norm3_unique; [exact Hx|]. unfold dot3; cbn; ring. }
  assert (E1 : dist3 (Vec (- (1 / 2)) 0 0) (Vec 0 0 0) = 1 / 2).
  { unfold dist3. replace (sub3 _ _) with (Vec (- (1 / 2)) 0 0) by (apply vec_eq; cbn; ring). apply D'. lra. }
  assert (E2 : dist3 (Vec 1 0 0) (Vec 0 0 0) = 1).
  { unfold dist3. replace (sub3 _ _) with (Vec 1 0 0) by (apply vec_eq; cbn; ring). apply D. lra. }
  assert (E3 : dist3 (Vec (- (1 / 2)) 0 0) (Vec 1 0 0) = 3 / 2).
  { unfold dist3. replace (sub3 _ _) with (Vec (- (3 / 2)) 0 0) by (apply vec_eq; cbn; lra). apply D'. lra. }
  assert (E4 : dist3 (Vec (- 1) 0 0) (Vec 0 0 0) = 1).
  { unfold dist3. replace (sub3 _ _) with (Vec (- 1) 0 0) by (apply vec_eq; cbn; ring). apply D'. lra. }
  assert (E5 : dist3 (Vec (- (1 / 2)) 0 0) (Vec (- 1) 0 0) = 1 / 2).
  { unfold dist3. replace (sub3 _ _) with (Vec (1 / 2) 0 0) by (apply vec_eq; cbn; lra). apply D. lra. }
  split; [cbn; lra|]. split; [cbn; intro H; injection H as H; lra|]. split; [cbn [surface]; rewrite E1; lra|].
  split; [apply vec_eq; cbn; lra|]. pose proof tol_small as T. split.
  - apply check_iff; [cbn; lra|]. split; [|split; [|split]].
    + cbn [close_to]. rewrite E2, Rminus_diag_eq, Rabs_R0 by reflexivity. lra.
    + rewrite E3, D by lra. rewrite Rminus_diag_eq, Rabs_R0 by reflexivity. lra.
    + unfold zero3. intro H. injection H as H. lra.
    + rewrite D by lra. cbn [towards]. rewrite E2. unfold dot3, scale3, sub3. cbn. lra.
  - intros [_ H]. specialize (H (Vec (- 1) 0 0) E4). rewrite E3, E5 in H. lra.
Qed.
