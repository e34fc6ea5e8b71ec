(** The constraint operator over the reals (C21), force split (C25), termination (C24). *)
From Coq Require Import List Arith ZArith Reals Bool Lia Lra.
From Flocq Require Import Core.
From Verif Require Import ListUtil Outcome F64 Arith QPModel QPSpec LinProofs QPProofs QPSolver.
Import ListNotations.
Local Open Scope R_scope.

(** ** Linear pieces *)

Lemma axpy_nth : forall t x z i, length x = length z -> nth i (axpy t z x) 0 = nth i x 0 + t * nth i z 0.
Proof.
  intros t. induction x as [|a x IH]; intros [|c z] i L; cbn in L; try lia.
  - destruct i; cbn; lra.
  - destruct i; cbn; [lra|apply IH; lia].
Qed.

Lemma list_nth_ext : forall (x y : list R), length x = length y -> (forall i, nth i x 0 = nth i y 0) -> x = y.
Proof.
  induction x as [|a x IH]; intros [|c y] L H; cbn in L; try lia; [reflexivity|].
  f_equal; [exact (H 0%nat)|]. apply IH; [lia|]. intro i. exact (H (S i)).
Qed.

(** one row of D^T *)
Definition rowdot (row : list (nat * R)) (v : list R) : R := fold_right Rplus 0 (map (fun e => snd e * nth (fst e) v 0) row).
Definition scat (row : list (nat * R)) (m : nat) : list R :=
  map (fun c => fold_right Rplus 0 (map (fun e => if Nat.eqb (fst e) c then snd e else 0) row)) (seq 0 m).

Lemma fold_left_right : forall (l : list R), fold_left Rplus l 0 = fold_right Rplus 0 l.
Proof.
  induction l as [|a l IH]; [reflexivity|]. cbn. rewrite fold_left_Rplus0, IH. lra.
Qed.

Lemma applyT_map : forall (D : list (list (nat * R))) (v : list R), applyT (N := R_arith) D v = map (fun row => rowdot row v) D.
Proof. intros. unfold applyT, rowdot. apply map_ext. intro row. rarith. apply fold_left_right. Qed.

Lemma rowdot_lin : forall row t x z, length x = length z -> rowdot row (axpy t z x) = rowdot row x + t * rowdot row z.
Proof.
  intros row t x z L. unfold rowdot. induction row as [|e row IH]; cbn; [lra|].
  rewrite IH, axpy_nth by exact L. lra.
Qed.

Lemma applyT_lin : forall (D : list (list (nat * R))) (t : R) (x : list R) (z : list R), length x = length z ->
  applyT (N := R_arith) D (axpy t z x) = axpy t (applyT (N := R_arith) D z) (applyT (N := R_arith) D x).
Proof.
  intros D t x z L. rewrite !applyT_map. induction D as [|row D IH]; [reflexivity|]. cbn [map axpy].
  rewrite rowdot_lin by exact L. f_equal. exact IH.
Qed.

Lemma fold_right_app : forall (l r : list R), fold_right Rplus 0 (l ++ r) = fold_right Rplus 0 l + fold_right Rplus 0 r.
Proof. induction l as [|a l IH]; intro r; cbn; [lra|]. rewrite IH. lra. Qed.

Definition zeros (m : nat) : list R := map (fun _ => 0) (seq 0 m).

Lemma applyD_nil : forall m x, applyD (N := R_arith) [] m x = zeros m.
Proof. reflexivity. Qed.

Lemma axpy_map : forall t (f g : nat -> R) l, axpy t (map g l) (map f l) = map (fun c => f c + t * g c) l.
Proof. intros t f g. induction l as [|c l IH]; [reflexivity|]. cbn. rewrite IH. reflexivity. Qed.

Lemma scal_if : forall (row : list (nat * R)) c a,
  fold_right Rplus 0 (map (fun e => if Nat.eqb (fst e) c then snd e * a else 0) row) =
  a * fold_right Rplus 0 (map (fun e => if Nat.eqb (fst e) c then snd e else 0) row).
Proof. intros row c a. induction row as [|e row IH]; cbn; [lra|]. rewrite IH. destruct (Nat.eqb _ c); lra. Qed.

Lemma applyD_cons : forall (row : list (nat * R)) (D : list (list (nat * R))) (m : nat) (a : R) (x : list R),
  applyD (N := R_arith) (row :: D) m (a :: x) = axpy a (scat row m) (applyD (N := R_arith) D m x).
Proof.
  intros. unfold applyD, scat. etransitivity; [|symmetry; apply axpy_map]. apply map_ext. intro c. rarith.
  rewrite !fold_left_right. cbn [combine map concat]. rewrite fold_right_app. cbn [fst snd]. rewrite scal_if. lra.
Qed.

Lemma zeros_length : forall m, length (zeros m) = m.
Proof. intro m. unfold zeros. rewrite map_length, seq_length. reflexivity. Qed.
Lemma zeros_nth : forall m i, nth i (zeros m) 0 = 0.
Proof.
  intros m i. unfold zeros. generalize (seq 0 m). intro l. revert i.
  induction l as [|a l IH]; intros [|i]; cbn; try reflexivity. apply IH.
Qed.
Lemma applyD_length : forall (D : list (list (nat * R))) (m : nat) (x : list R), length (applyD (N := R_arith) D m x) = m.
Proof. intros. unfold applyD. rewrite map_length, seq_length. reflexivity. Qed.
Lemma scat_length : forall row m, length (scat row m) = m.
Proof. intros. unfold scat. rewrite map_length, seq_length. reflexivity. Qed.

Lemma applyD_lin : forall (D : list (list (nat * R))) (m : nat) (t : R) (x : list R) (z : list R), length x = length D -> length z = length D ->
  applyD (N := R_arith) D m (axpy t z x) = axpy t (applyD (N := R_arith) D m z) (applyD (N := R_arith) D m x).
Proof.
  induction D as [|row D IH]; intros m t x z Lx Lz.
  - rewrite !applyD_nil. apply list_nth_ext.
    + rewrite (axpy_length t _ _ m); apply zeros_length || (rewrite zeros_length; reflexivity).
    + intro i. rewrite axpy_nth by reflexivity. rewrite zeros_nth. lra.
  - destruct x as [|a x]; [discriminate|]. destruct z as [|c z]; [discriminate|]. cbn in Lx, Lz.
    cbn [axpy]. rewrite !applyD_cons, IH by lia.
    apply list_nth_ext.
    + rewrite !(axpy_length _ _ _ m); try reflexivity; repeat first [apply applyD_length|apply scat_length|apply axpy_length].
    + intro i. rewrite !axpy_nth; [ring|..].
      all: rewrite ?(axpy_length _ _ _ m); try reflexivity; rewrite ?applyD_length, ?scat_length; try reflexivity;
        repeat first [apply applyD_length|apply scat_length|apply axpy_length].
Qed.

Lemma ip_map_nth : forall (v : list R) (f : nat -> R), ip (map f (seq 0 (length v))) v = fold_right Rplus 0 (map (fun c => f c * nth c v 0) (seq 0 (length v))).
Proof.
  induction v as [|a v IH]; intro f; [reflexivity|]. cbn [length seq map ip fold_right nth].
  rewrite <- seq_shift, !map_map. f_equal. exact (IH (fun c => f (S c))).
Qed.

Lemma sum_zero : forall (f : nat -> R) l, fold_right Rplus 0 (map (fun c => 0 * f c) l) = 0.
Proof. intros f l. induction l as [|c l IH]; cbn; [reflexivity|]. rewrite IH. lra. Qed.

Lemma sum_single : forall (v : list R) i a, (i < length v)%nat ->
  fold_right Rplus 0 (map (fun c => (if Nat.eqb i c then a else 0) * nth c v 0) (seq 0 (length v))) = a * nth i v 0.
Proof.
  induction v as [|d v IH]; intros i a Hi; cbn in Hi; [lia|]. cbn [length seq map fold_right nth].
  rewrite <- seq_shift, map_map. destruct i as [|i].
  - cbn [Nat.eqb]. assert (Z : fold_right Rplus 0 (map (fun c => 0 * nth c v 0) (seq 0 (length v))) = 0).
    { apply sum_zero. }
    etransitivity; [apply f_equal2; [reflexivity|exact Z]|]. lra.
  - cbn [Nat.eqb]. etransitivity; [apply f_equal2; [reflexivity|apply (IH i a); lia]|]. lra.
Qed.

Lemma ip_scat : forall row v, (forall e, In e row -> (fst e < length v)%nat) -> ip (scat row (length v)) v = rowdot row v.
Proof.
  intros row v. unfold scat. rewrite ip_map_nth. induction row as [|e row IH]; intro H.
  - cbn [map fold_right]. apply (sum_zero (fun c => nth c v 0)).
  - unfold rowdot. cbn [map fold_right]. fold (rowdot row v). rewrite <- IH by (intros; apply H; right; assumption).
    rewrite <- (sum_single v (fst e) (snd e)) by (apply H; left; reflexivity).
    clear IH H. induction (seq 0 (length v)) as [|c l IHl]; cbn [map fold_right]; [lra|]. rewrite IHl. lra.
Qed.

(** D and D^T are adjoint *)
Lemma adjoint : forall (D : list (list (nat * R))) (m : nat) (x : list R) (v : list R), cols_below D m -> length x = length D -> length v = m ->
  ip (applyD (N := R_arith) D m x) v = ip x (applyT (N := R_arith) D v).
Proof.
  intros D m x v H. revert x. induction D as [|row D IH]; intros x Lx Lv.
  - destruct x; [|discriminate]. rewrite applyD_nil. cbn. subst m. unfold zeros. rewrite ip_map_nth.
    apply (sum_zero (fun c => nth c v 0)).
  - destruct x as [|a x]; [discriminate|]. cbn in Lx. rewrite applyD_cons.
    rewrite (ip_axpy_l a m) by (apply applyD_length || apply scat_length).
    rewrite IH; [|intros r e Hr He; apply (H r e); [right; exact Hr|exact He]|lia|exact Lv].
    rewrite !applyT_map. cbn [map ip]. subst m. rewrite ip_scat; [lra|]. intros e He. apply (H row e); [left; reflexivity|exact He].
Qed.

(** ** Symmetric positive semi-definite operators *)

Lemma sym_psd_ext : forall n A B, (forall x, length x = n -> A x = B x) -> sym_psd n A -> sym_psd n B.
Proof.
  intros n A B E [H1 H2 H3 H4]. constructor.
  - intros x Lx. rewrite <- E by exact Lx. auto.
  - intros t x z Lx Lz. rewrite <- !E; [auto|assumption..|apply axpy_length; assumption].
  - intros x z Lx Lz. rewrite <- !E by assumption. auto.
  - intros x Lx. rewrite <- E by exact Lx. auto.
Qed.

Lemma sym_psd_sum : forall n A B, sym_psd n A -> sym_psd n B -> sym_psd n (fun x => axpy 1 (B x) (A x)).
Proof.
  intros n A B HA HB.
  assert (LA := sp_len _ _ HA). assert (LB := sp_len _ _ HB). constructor.
  - intros x Lx. apply axpy_length; auto.
  - intros t x z Lx Lz. rewrite (sp_lin _ _ HA), (sp_lin _ _ HB) by assumption.
    assert (L1 := LA x Lx). assert (L2 := LA z Lz). assert (L3 := LB x Lx). assert (L4 := LB z Lz).
    apply list_nth_ext.
    + rewrite !(axpy_length _ _ _ n); auto using axpy_length.
    + intro i. rewrite !axpy_nth; [ring|..]; rewrite ?(axpy_length _ _ _ n); auto; try congruence; auto using axpy_length.
  - intros x z Lx Lz. rewrite !(ip_axpy_r 1 n) by auto. rewrite (sp_sym _ _ HA x z), (sp_sym _ _ HB x z) by assumption. reflexivity.
  - intros x Lx. rewrite (ip_axpy_r 1 n) by auto. generalize (sp_pos _ _ HA x Lx) (sp_pos _ _ HB x Lx). lra.
Qed.

Fixpoint kmul (k x : list R) : list R := match k, x with a :: k', c :: x' => a * c :: kmul k' x' | _, _ => [] end.
Lemma kmul_length : forall k x n, length k = n -> length x = n -> length (kmul k x) = n.
Proof. induction k as [|a k IH]; intros [|c x] n H1 H2; cbn in *; try lia. destruct n; [lia|]. rewrite (IH x n); lia. Qed.

Lemma kmul_psd : forall k, Forall (Rle 0) k -> sym_psd (length k) (kmul k).
Proof.
  intros k Hk. constructor.
  - intros x Lx. apply kmul_length; [reflexivity|exact Lx].
  - intros t. induction k as [|a k IH]; intros [|c x] [|d z] Lx Lz; cbn in Lx, Lz; try lia; [reflexivity|].
    inversion Hk; subst. cbn. rewrite IH by (assumption || lia). f_equal. ring.
  - induction k as [|a k IH]; intros [|c x] [|d z] Lx Lz; cbn in Lx, Lz; try lia; [reflexivity|].
    inversion Hk; subst. cbn. rewrite (IH ltac:(assumption) x z) by lia. ring.
  - induction Hk as [|a k Ha Hk IH]; intros [|c x] Lx; cbn in Lx; try lia; [cbn; lra|].
    cbn. specialize (IH x ltac:(lia)). generalize (Rle_0_sqr c). unfold Rsqr. nra.
Qed.

Lemma applyT_length : forall (D : list (list (nat * R))) (v : list R), length (applyT (N := R_arith) D v) = length D.
Proof. intros. rewrite applyT_map, map_length. reflexivity. Qed.

Lemma congruence_psd : forall (D : list (list (nat * R))) (m : nat) (mob : list R -> list R), cols_below D m -> sym_psd m mob ->
  sym_psd (length D) (fun x => applyT (N := R_arith) D (mob (applyD (N := R_arith) D m x))).
Proof.
  intros D m mob HD HM.
  assert (LM : forall x, length (mob (applyD (N := R_arith) D m x)) = m) by (intro; apply (sp_len _ _ HM), applyD_length).
  constructor.
  - intros x Lx. apply applyT_length.
  - intros t x z Lx Lz. rewrite applyD_lin by assumption. rewrite (sp_lin _ _ HM) by apply applyD_length.
    apply applyT_lin. rewrite !LM. reflexivity.
  - intros x z Lx Lz. rewrite <- !(adjoint D m) by auto. rewrite (sp_sym _ _ HM) by apply applyD_length. reflexivity.
  - intros x Lx. rewrite <- (adjoint D m) by auto. apply (sp_pos _ _ HM), applyD_length.
Qed.

Lemma kmul_map : forall (Y k X : list R), length Y = length k -> length X = length k ->
  map (fun p : R * (R * R) => fst p + fst (snd p) * snd (snd p)) (combine Y (combine k X)) = axpy 1 (kmul k X) Y.
Proof.
  induction Y as [|a Y IH]; intros [|c k] [|d X] L1 L2; cbn in L1, L2; try lia; [reflexivity|].
  cbn. rewrite IH by lia. f_equal. ring.
Qed.

Lemma opMul_R : forall (D : list (list (nat * R))) (m : nat) (mob : list R -> list R) (k : list R) (X : list R), length k = length D -> length X = length D ->
  opMul (N := R_arith) D m mob k X = axpy 1 (kmul k X) (applyT (N := R_arith) D (mob (applyD (N := R_arith) D m X))).
Proof.
  intros. unfold opMul. cbv zeta. rarith. apply kmul_map; [rewrite applyT_length|]; lia.
Qed.

Lemma opMul_psd : forall (D : list (list (nat * R))) (m : nat) (mob : list R -> list R) (k : list R), cols_below D m -> sym_psd m mob -> length k = length D -> Forall (Rle 0) k ->
  sym_psd (length D) (opMul (N := R_arith) D m mob k).
Proof.
  intros D m mob k HD HM Lk Hk.
  apply (sym_psd_ext _ (fun x => axpy 1 (kmul k x) (applyT (N := R_arith) D (mob (applyD (N := R_arith) D m x))))).
  - intros x Lx. symmetry. apply opMul_R; assumption.
  - apply sym_psd_sum; [apply congruence_psd; assumption|]. rewrite <- Lk. apply kmul_psd. exact Hk.
Qed.

(** ** Entries *)
Lemma nth_map_seq : forall (f : nat -> R) m c, (c < m)%nat -> nth c (map f (seq 0 m)) 0 = f c.
Proof.
  intros f m c H. rewrite (nth_indep _ 0 (f 0%nat)) by (rewrite map_length, seq_length; exact H).
  rewrite map_nth, seq_nth by exact H. reflexivity.
Qed.

Lemma applyD_force : forall (D : list (list (nat * R))) (m : nat) (x : list R), length x = length D -> is_force D m x (applyD (N := R_arith) D m x).
Proof.
  intros D m x. split; [apply applyD_length|]. intros c Hc. revert x H. induction D as [|row D IH]; intros x Lx.
  - unfold at_. rewrite applyD_nil, zeros_nth. reflexivity.
  - destruct x as [|a x]; [discriminate|]. unfold at_. rewrite applyD_cons, axpy_nth by (rewrite applyD_length, scat_length; reflexivity).
    cbn in Lx. fold (at_ (applyD (N := R_arith) D m x) c). rewrite (IH x) by lia.
    unfold big. cbn [length seq map fold_right]. rewrite <- seq_shift, map_map.
    assert (E : nth c (scat row m) 0 = entry (row :: D) 0 c).
    { unfold scat. rewrite nth_map_seq by exact Hc. reflexivity. }
    rewrite E. cbn [nth]. unfold at_. cbn [nth]. rewrite Rplus_comm. f_equal. apply Rmult_comm.
Qed.

Lemma applyT_gap : forall (D : list (list (nat * R))) (m : nat) (w : list R), cols_below D m -> length w = m -> is_gap D m w (applyT (N := R_arith) D w).
Proof.
  intros D m w HD Lw. split; [apply applyT_length|]. intros i Hi. unfold at_. rewrite applyT_map.
  rewrite (nth_indep _ 0 (rowdot [] w)) by (rewrite map_length; exact Hi). rewrite (map_nth (fun row => rowdot row w)).
  subst m. rewrite <- ip_scat by (intros e He; apply (HD (nth i D []) e); [apply nth_In; exact Hi|exact He]).
  unfold scat. rewrite ip_map_nth. reflexivity.
Qed.

Lemma opApply_R : forall (D : list (list (nat * R))) (m : nat) (mob : list R -> list R) (k : list R) (alpha : R) (beta : R) (X : list R) (Y : list R), cols_below D m -> sym_psd m mob ->
  length k = length D -> length X = length D -> length Y = length D ->
  exists Z f v g, opApply (N := R_arith) D m mob k alpha beta X Y = (Z, (f, v)) /\
    is_force D m X f /\ v = mob f /\ is_gap D m v g /\ length Z = length D /\
    forall i, (i < length D)%nat -> at_ Z i = alpha * (at_ g i + at_ k i * at_ X i) + beta * at_ Y i.
Proof.
  intros D m mob k alpha beta X Y HD HM Lk LX LY. unfold opApply. cbv zeta.
  set (f := applyD (N := R_arith) D m X). set (g := applyT (N := R_arith) D (mob f)).
  assert (Lg : length g = length D) by apply applyT_length.
  eexists _, f, (mob f), g. split; [reflexivity|].
  split; [apply applyD_force; exact LX|]. split; [reflexivity|].
  split; [apply applyT_gap; [exact HD|apply (sp_len _ _ HM), applyD_length]|].
  clearbody g. clear f HD HM. rarith. revert g k X Y Lg Lk LX LY. generalize (length D). clear D.
  induction n as [|n IH]; intros [|g0 g] [|k0 k] [|x0 X] [|y0 Y] L1 L2 L3 L4; try discriminate.
  - split; [reflexivity|]. intros; lia.
  - injection L1 as L1. injection L2 as L2. injection L3 as L3. injection L4 as L4.
    destruct (IH g k X Y L1 L2 L3 L4) as [I1 I2]. split.
    + cbn. f_equal. exact I1.
    + intros [|i] Hi; [cbn; ring|]. exact (I2 i ltac:(lia)).
Qed.

Lemma opApply_mul : forall (D : list (list (nat * R))) (m : nat) (mob : list R -> list R) (k : list R) (X : list R) (Y : list R), length k = length D -> length X = length D -> length Y = length D ->
  fst (opApply (N := R_arith) D m mob k 1 0 X Y) = opMul (N := R_arith) D m mob k X.
Proof.
  intros D m mob k X Y Lk LX LY. rewrite opMul_R by assumption. unfold opApply. cbv zeta. cbn [fst].
  set (g := applyT (N := R_arith) D (mob (applyD (N := R_arith) D m X))).
  assert (Lg : length g = length D) by apply applyT_length.
  rarith. clearbody g. revert g k X Y Lg Lk LX LY. generalize (length D).
  induction n as [|n IH]; intros [|g0 g] [|k0 k] [|x0 X] [|y0 Y] L1 L2 L3 L4; try discriminate; [reflexivity|].
  injection L1 as L1. injection L2 as L2. injection L3 as L3. injection L4 as L4.
  cbn. f_equal; [ring|]. exact (IH g k X Y L1 L2 L3 L4).
Qed.
