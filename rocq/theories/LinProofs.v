(** Vectors of reals: bilinearity of the inner product. *)
From Coq Require Import List Arith ZArith Reals Bool Lia Lra.
From Flocq Require Import Core.
From Verif Require Import ListUtil Arith QPModel QPSpec.
Import ListNotations.
Local Open Scope R_scope.

Lemma Forall2_len : forall {A B} (P : A -> B -> Prop) l m, Forall2 P l m -> length l = length m.
Proof. induction 1; cbn; congruence. Qed.

Lemma fold_left_Rplus0 : forall (l : list R) a, fold_left Rplus l a = a + fold_left Rplus l 0.
Proof.
  induction l as [|x l IH]; intro a; cbn; [lra|]. rewrite IH, (IH (0 + x)). lra.
Qed.

Lemma dot_ip : forall x y : list R, dot (N := R_arith) x y = ip x y.
Proof.
  induction x as [|a x IH]; intros [|c y]; try reflexivity.
  change (fold_left Rplus (map (fun p : R * R => fst p * snd p) (combine x y)) (0 + a * c) = a * c + ip x y).
  rewrite fold_left_Rplus0, <- IH. unfold dot. rarith. lra.
Qed.

Lemma vupd_cons : forall s t a x c y, vupd (N := R_arith) s (a :: x) t (c :: y) = (s * a + t * c) :: vupd (N := R_arith) s x t y.
Proof. reflexivity. Qed.

Lemma vupd_axpy : forall t (x z : list R), vupd (N := R_arith) 1 x t z = axpy t z x.
Proof.
  intros t. induction x as [|a x IH]; intros [|c z]; try reflexivity.
  rewrite vupd_cons. cbn [axpy]. rewrite IH. f_equal. lra.
Qed.

Lemma axpy_length : forall t (x z : list R) n, length x = n -> length z = n -> length (axpy t z x) = n.
Proof.
  intros t. induction x as [|a x IH]; intros [|c z] n Hx Hz; cbn in *; try lia.
  destruct n as [|n]; [lia|]. rewrite (IH z n); lia.
Qed.

Lemma ip_comm : forall x y, ip x y = ip y x.
Proof. induction x as [|a x IH]; intros [|c y]; try reflexivity. cbn. rewrite IH. lra. Qed.

Lemma ip_axpy_l : forall t n x z y, length x = n -> length z = n -> ip (axpy t z x) y = ip x y + t * ip z y.
Proof.
  intros t n. revert t. induction n as [|n IH]; intros t [|a x] [|c z] y Hx Hz; cbn in Hx, Hz; try lia.
  - cbn. lra.
  - destruct y as [|d y]; cbn; [lra|]. rewrite IH by lia. lra.
Qed.

Lemma ip_axpy_r : forall t n x z y, length x = n -> length z = n -> ip y (axpy t z x) = ip y x + t * ip y z.
Proof. intros. rewrite ip_comm, (ip_axpy_l t n) by assumption. rewrite (ip_comm x), (ip_comm z). reflexivity. Qed.

Lemma ip_self_nonneg : forall x, 0 <= ip x x.
Proof. induction x as [|a x IH]; cbn; [lra|]. generalize (Rle_0_sqr a). unfold Rsqr. lra. Qed.

Lemma ip_self_zero : forall x, ip x x = 0 <-> Forall (fun a => a = 0) x.
Proof.
  induction x as [|a x IH]; cbn; split; intro H; [constructor|reflexivity| |].
  - assert (Ha := Rle_0_sqr a). unfold Rsqr in Ha. assert (Hx := ip_self_nonneg x).
    constructor; [nra|]. apply IH. lra.
  - inversion H as [|? ? Ha Hx]; subst. rewrite (proj2 IH Hx). lra.
Qed.

Lemma norm2_ip : forall x, norm2 (N := R_arith) x = sqrt (ip x x).
Proof. intro x. unfold norm2. rarith. f_equal. exact (dot_ip x x). Qed.

Lemma norm2_nonneg : forall x, 0 <= norm2 (N := R_arith) x.
Proof. intro x. rewrite norm2_ip. apply sqrt_pos. Qed.

Lemma norm2_zero : forall x, norm2 (N := R_arith) x = 0 <-> Forall (fun a : R => a = 0) x.
Proof.
  intro x. rewrite norm2_ip, <- ip_self_zero. split; intro H.
  - apply sqrt_eq_0 in H; [exact H|apply ip_self_nonneg].
  - rewrite H. apply sqrt_0.
Qed.

Lemma normSq_ip : forall x, normSq (N := R_arith) x = ip x x.
Proof. intro x. unfold normSq. rarith. rewrite norm2_ip. apply sqrt_sqrt, ip_self_nonneg. Qed.

(** the objective along a direction *)
Lemma objective_dir : forall n A b x d t, sym_psd n A -> length b = n -> length x = n -> length d = n ->
  objective A b (axpy t d x) = objective A b x + t * ip (grad A b x) d + t * t * (ip d (A d) / 2).
Proof.
  intros n A b x d t HA Hb Hx Hd. unfold objective, grad.
  pose proof (sp_len _ _ HA x Hx) as Lx. pose proof (sp_len _ _ HA d Hd) as Ld.
  rewrite (sp_lin _ _ HA) by assumption.
  rewrite (ip_axpy_l t n), !(ip_axpy_r t n), (ip_axpy_l 1 n) by assumption.
  rewrite (sp_sym _ _ HA x d) by assumption. rewrite (ip_comm (A x) d). lra.
Qed.

Lemma axpy_back : forall (x z : list R), length x = length z -> axpy 1 (axpy (-1) x z) x = z.
Proof.
  induction x as [|a x IH]; intros [|c z] H; cbn in *; try lia; [reflexivity|].
  rewrite IH by lia. f_equal. lra.
Qed.

Lemma objective_diff : forall n A b x z, sym_psd n A -> length b = n -> length x = n -> length z = n ->
  let d := axpy (-1) x z in objective A b z = objective A b x + ip (grad A b x) d + ip d (A d) / 2.
Proof.
  intros n A b x z HA Hb Hx Hz d.
  assert (Hd : length d = n) by (apply axpy_length; assumption).
  rewrite <- (axpy_back x z) at 1 by lia. fold d. rewrite (objective_dir n) by assumption. lra.
Qed.

Lemma in_box_length : forall lb ub x, in_box lb ub x -> length x = length lb /\ length ub = length lb.
Proof.
  intros lb ub x [H1 H2]. apply Forall2_len in H1. apply Forall2_len in H2. lia.
Qed.

Lemma in_box_cons : forall l lb u ub a x, in_box (l :: lb) (u :: ub) (a :: x) <-> (l <= a /\ a <= u) /\ in_box lb ub x.
Proof.
  intros. unfold in_box. split.
  - intros [H1 H2]. inversion H1; inversion H2; subst. tauto.
  - intros [[? ?] [? ?]]. split; constructor; assumption.
Qed.

(** convexity of the box *)
Lemma in_box_dir : forall lb ub x z t, 0 <= t <= 1 -> in_box lb ub x -> in_box lb ub z ->
  in_box lb ub (axpy t (axpy (-1) x z) x).
Proof.
  induction lb as [|l lb IH]; intros ub x z t Ht Hx Hz.
  - destruct Hx as [H1 H2]. inversion H1; subst. inversion H2; subst. destruct z; cbn; split; constructor.
  - destruct x as [|a x]; [destruct Hx as [H _]; inversion H|].
    destruct ub as [|u ub]; [destruct Hx as [_ H]; inversion H|].
    destruct z as [|c z]; [destruct Hz as [H _]; inversion H|].
    apply in_box_cons in Hx. apply in_box_cons in Hz. cbn. apply in_box_cons. destruct Hx as [Ha Hx]. destruct Hz as [Hc Hz].
    split; [|apply IH; assumption]. nra.
Qed.

(** a vanishing first-order term: y.d >= 0 when t y.d + t^2 q >= 0 for all small t *)
Lemma first_order : forall p q, (forall t, 0 < t <= 1 -> 0 <= t * p + t * t * q) -> 0 <= p.
Proof.
  intros p q H. destruct (Rle_lt_dec 0 p) as [Hp|Hp]; [exact Hp|exfalso].
  assert (Hq : 0 < q) by (specialize (H 1); lra).
  set (t := Rmin 1 (- p / (2 * q))).
  assert (Ht : 0 < t <= 1).
  { split; [|apply Rmin_l]. apply Rmin_glb_lt; [lra|]. apply Rdiv_lt_0_compat; lra. }
  assert (Hs : t <= - p / (2 * q)) by apply Rmin_r.
  specialize (H t Ht).
  assert (t * q <= - p / 2).
  { apply Rmult_le_compat_r with (r := q) in Hs; [|lra].
    replace (- p / (2 * q) * q) with (- p / 2) in Hs by (field; lra). exact Hs. }
  nra.
Qed.
