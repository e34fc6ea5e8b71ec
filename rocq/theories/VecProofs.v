(** Lemmas about vectors of R^3. *)
From Coq Require Import Reals Lra Psatz Lia Bool.
From Flocq Require Import Core.
From Verif Require Import Arith ParticleModel VecModel VecSpec.
Local Open Scope R_scope.

(** the operations of the model over the reals *)
Lemma vadd_R : forall a b : vec R, vadd (N := R_arith) a b = add3 a b. Proof. reflexivity. Qed.
Lemma vsub_R : forall a b : vec R, vsub (N := R_arith) a b = sub3 a b. Proof. reflexivity. Qed.
Lemma vscale_R : forall s (a : vec R), vscale (N := R_arith) s a = scale3 s a. Proof. reflexivity. Qed.
Lemma vopp_R : forall a : vec R, vopp (N := R_arith) a = opp3 a. Proof. reflexivity. Qed.
Lemma vdot_R : forall a b : vec R, vdot (N := R_arith) a b = dot3 a b. Proof. reflexivity. Qed.
Lemma vnorm_R : forall a : vec R, vnorm (N := R_arith) a = norm3 a. Proof. reflexivity. Qed.
Lemma vcross_R : forall a b : vec R, vcross (N := R_arith) a b = cross3 a b. Proof. reflexivity. Qed.
Ltac vecR :=
  change (@vadd R_arith) with add3 in *; change (@vsub R_arith) with sub3 in *; change (@vscale R_arith) with scale3 in *;
  change (@vopp R_arith) with opp3 in *; change (@vdot R_arith) with dot3 in *; change (@vnorm R_arith) with norm3 in *;
  change (@vcross R_arith) with cross3 in *.

(** equality of vectors by coordinates *)
Lemma vec_eq : forall a b : vec R, vx a = vx b -> vy a = vy b -> vz a = vz b -> a = b.
Proof. intros [] []; cbn; congruence. Qed.
Ltac veq := apply vec_eq; unfold reject, add3, sub3, scale3, opp3, dot3, cross3, zero3 in *; cbn [vx vy vz] in *.

Lemma dot3_comm : forall a b, dot3 a b = dot3 b a. Proof. intros; unfold dot3; ring. Qed.
Lemma dot3_add_l : forall a b c, dot3 (add3 a b) c = dot3 a c + dot3 b c. Proof. intros; unfold dot3, add3; cbn; ring. Qed.
Lemma dot3_add_r : forall a b c, dot3 c (add3 a b) = dot3 c a + dot3 c b. Proof. intros; unfold dot3, add3; cbn; ring. Qed.
Lemma dot3_sub_l : forall a b c, dot3 (sub3 a b) c = dot3 a c - dot3 b c. Proof. intros; unfold dot3, sub3; cbn; ring. Qed.
Lemma dot3_sub_r : forall a b c, dot3 c (sub3 a b) = dot3 c a - dot3 c b. Proof. intros; unfold dot3, sub3; cbn; ring. Qed.
Lemma dot3_scale_l : forall s a c, dot3 (scale3 s a) c = s * dot3 a c. Proof. intros; unfold dot3, scale3; cbn; ring. Qed.
Lemma dot3_scale_r : forall s a c, dot3 c (scale3 s a) = s * dot3 c a. Proof. intros; unfold dot3, scale3; cbn; ring. Qed.
Lemma dot3_opp_l : forall a c, dot3 (opp3 a) c = - dot3 a c. Proof. intros; unfold dot3, opp3; cbn; ring. Qed.
Lemma dot3_opp_r : forall a c, dot3 c (opp3 a) = - dot3 c a. Proof. intros; unfold dot3, opp3; cbn; ring. Qed.
Global Hint Rewrite dot3_add_l dot3_add_r dot3_sub_l dot3_sub_r dot3_scale_l dot3_scale_r dot3_opp_l dot3_opp_r : dot3.
Ltac dot3s := autorewrite with dot3 in *.

Lemma dot3_self : forall a, 0 <= dot3 a a. Proof. intros; unfold dot3; nra. Qed.
Lemma dot3_zero : forall a, dot3 a a = 0 -> a = zero3.
Proof. intros [x y z] H. unfold dot3 in H; cbn in H. unfold zero3. assert (x = 0) by nra. assert (y = 0) by nra. assert (z = 0) by nra. congruence. Qed.

Lemma norm3_nonneg : forall a, 0 <= norm3 a. Proof. intro. apply sqrt_pos. Qed.
Lemma norm3_sq : forall a, norm3 a * norm3 a = dot3 a a. Proof. intro a. apply sqrt_sqrt, dot3_self. Qed.
Lemma norm3_zero : norm3 zero3 = 0. Proof. unfold norm3, dot3, zero3; cbn. replace (0*0+0*0+0*0) with 0 by ring. apply sqrt_0. Qed.
Lemma norm3_eq0 : forall a, norm3 a = 0 -> a = zero3.
Proof. intros a H. apply dot3_zero. rewrite <- norm3_sq, H. ring. Qed.
Lemma norm3_pos : forall a, a <> zero3 -> 0 < norm3 a.
Proof. intros a H. destruct (norm3_nonneg a) as [P|P]; [exact P|]. destruct H. apply norm3_eq0. symmetry. exact P. Qed.
Lemma norm3_unique : forall a r, 0 <= r -> r * r = dot3 a a -> norm3 a = r.
Proof. intros a r Hr E. unfold norm3. rewrite <- E. apply sqrt_square. exact Hr. Qed.
Lemma norm3_unit : forall a, unit3 a <-> norm3 a = 1.
Proof.
  intro a. split; intro H.
  - apply norm3_unique; [lra|]. rewrite H. ring.
  - unfold unit3. rewrite <- norm3_sq, H. ring.
Qed.
Lemma norm3_scale : forall s a, norm3 (scale3 s a) = Rabs s * norm3 a.
Proof.
  intros s a. apply norm3_unique.
  - apply Rmult_le_pos; [apply Rabs_pos|apply norm3_nonneg].
  - dot3s. replace (Rabs s * norm3 a * (Rabs s * norm3 a)) with (Rabs s * Rabs s * (norm3 a * norm3 a)) by ring.
    rewrite norm3_sq, <- Rabs_mult, Rabs_pos_eq by nra. ring.
Qed.
Lemma norm3_opp : forall a, norm3 (opp3 a) = norm3 a.
Proof. intro a. unfold norm3. dot3s. f_equal. ring. Qed.
Lemma dist3_sym : forall a b, dist3 a b = dist3 b a.
Proof. intros a b. unfold dist3, norm3. f_equal. unfold dot3, sub3. cbn. ring. Qed.
Lemma dist3_nonneg : forall a b, 0 <= dist3 a b. Proof. intros. apply norm3_nonneg. Qed.

Lemma cauchy3 : forall a b, dot3 a b <= norm3 a * norm3 b.
Proof.
  intros a b. pose proof (norm3_nonneg a). pose proof (norm3_nonneg b).
  destruct (Rle_lt_dec (dot3 a b) 0) as [C|C]; [nra|].
  apply Rsqr_incr_0; [|lra|nra]. unfold Rsqr.
  replace (norm3 a * norm3 b * (norm3 a * norm3 b)) with ((norm3 a * norm3 a) * (norm3 b * norm3 b)) by ring. rewrite !norm3_sq.
  pose proof (dot3_self (cross3 a b)) as P.
  replace (dot3 (cross3 a b) (cross3 a b)) with (dot3 a a * dot3 b b - dot3 a b * dot3 a b) in P by (unfold dot3, cross3; cbn; ring).
  lra.
Qed.
Lemma cauchy3_abs : forall a b, Rabs (dot3 a b) <= norm3 a * norm3 b.
Proof.
  intros a b. apply Rabs_le. split; [|apply cauchy3].
  pose proof (cauchy3 (opp3 a) b) as H. rewrite norm3_opp in H. dot3s. lra.
Qed.

Lemma triangle3 : forall a b, norm3 (add3 a b) <= norm3 a + norm3 b.
Proof.
  intros a b. pose proof (norm3_nonneg a). pose proof (norm3_nonneg b). pose proof (norm3_nonneg (add3 a b)).
  apply Rsqr_incr_0; [|lra|lra]. unfold Rsqr. rewrite norm3_sq. dot3s. pose proof (cauchy3 a b).
  rewrite (dot3_comm b a). pose proof (norm3_sq a). pose proof (norm3_sq b). nra.
Qed.
Lemma triangle3_rev : forall a b, Rabs (norm3 a - norm3 b) <= norm3 (sub3 a b).
Proof.
  assert (K : forall a b, norm3 a - norm3 b <= norm3 (sub3 a b)).
  { intros a b. pose proof (triangle3 (sub3 a b) b) as H. replace (add3 (sub3 a b) b) with a in H; [lra|]. veq; ring. }
  intros a b. apply Rabs_le. split; [|apply K]. pose proof (K b a) as H.
  assert (norm3 (sub3 b a) = norm3 (sub3 a b)) by apply dist3_sym. lra.
Qed.
Lemma dist3_triangle : forall a b c, dist3 a c <= dist3 a b + dist3 b c.
Proof.
  intros a b c. unfold dist3. replace (sub3 a c) with (add3 (sub3 a b) (sub3 b c)); [apply triangle3|]. veq; ring.
Qed.

(** normalized *)
Lemma normalized_R : forall a : vec R, a <> zero3 -> vnormalized (N := R_arith) a = scale3 (/ norm3 a) a.
Proof.
  intros a Ha. unfold vnormalized. rewrite vdot_R. rarith.
  rewrite Rlt_bool_true. - veq; unfold norm3, dot3; unfold Rdiv; apply Rmult_comm.
  - destruct (dot3_self a) as [P|P]; [exact P|]. destruct Ha. apply dot3_zero. symmetry. exact P.
Qed.
Lemma normalized_0 : vnormalized (N := R_arith) zero3 = zero3.
Proof. unfold vnormalized. rewrite vdot_R. rarith. rewrite Rlt_bool_false; [reflexivity|]. unfold dot3, zero3; cbn. lra. Qed.
Lemma normalized_unit : forall a : vec R, a <> zero3 -> unit3 (vnormalized (N := R_arith) a).
Proof.
  intros a Ha. rewrite normalized_R by exact Ha. apply norm3_unit. rewrite norm3_scale. pose proof (norm3_pos a Ha).
  rewrite Rabs_pos_eq by (apply Rlt_le, Rinv_0_lt_compat; assumption). apply Rinv_l. lra.
Qed.
Lemma vec3_dec : forall a : vec R, {a = zero3} + {a <> zero3}.
Proof.
  intros [x y z]. unfold zero3. destruct (Req_EM_T x 0) as [->|H]; [|right; congruence].
  destruct (Req_EM_T y 0) as [->|H]; [|right; congruence]. destruct (Req_EM_T z 0) as [->|H]; [left; reflexivity|right; congruence].
Qed.

(** reject *)
Lemma reject_orth : forall a v, unit3 a -> dot3 (reject a v) a = 0.
Proof. intros a v Ha. unfold reject. dot3s. unfold unit3 in Ha. rewrite Ha. ring. Qed.
Lemma reject_norm_le : forall a v, unit3 a -> norm3 (reject a v) <= norm3 v.
Proof.
  intros a v Ha. apply Rsqr_incr_0; [|apply norm3_nonneg..]. unfold Rsqr. rewrite !norm3_sq. unfold reject. dot3s.
  unfold unit3 in Ha. rewrite Ha, (dot3_comm a v). nra.
Qed.
Lemma reject_sub : forall a v w, reject a (sub3 v w) = sub3 (reject a v) (reject a w).
Proof. intros. veq; ring. Qed.
