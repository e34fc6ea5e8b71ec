(** Boundaries (C27, C28). *)
From Coq Require Import List Arith ZArith Reals Lra Psatz Lia Bool Permutation.
From Flocq Require Import Core.
From Verif Require Import Outcome ListUtil MPIProofs Arith ParticleModel ConModel VecModel VecSpec VecProofs SylModel BoundaryModel BoundarySpec QueueProofs.
Import ListNotations.
Local Open Scope R_scope.

Lemma allowed_dec : forall b q, {allowed b q} + {~ allowed b q}.
Proof.
  intros [c r [|]|c n|c a r [|]] q; cbn [allowed].
  - destruct (Rle_lt_dec (dist3 q c) r); [left|right]; lra.
  - destruct (Rle_lt_dec r (dist3 q c)); [left|right]; lra.
  - destruct (Rle_lt_dec 0 (dot3 (sub3 q c) n)); [left|right]; lra.
  - destruct (Rle_lt_dec (norm3 (reject a (sub3 q c))) r); [left|right]; lra.
  - destruct (Rle_lt_dec r (norm3 (reject a (sub3 q c)))); [left|right]; lra.
Qed.

Definition project_spec (b : boundary R_arith) (q P d : vec R) : Prop :=
  nearest b q P /\ d = scale3 (dist3 q P) (inward b P) /\ unit3 (inward b P) /\
  (allowed b q -> q = add3 P d) /\ (~ allowed b q -> q = sub3 P d).

Lemma abs_sign : forall x : R, x = Rabs x \/ x = - Rabs x.
Proof. intro x. unfold Rabs. destruct (Rcase_abs x); lra. Qed.

(** shared by sphere and tube: v the radial vector, P = q + (r/|v| - 1) v *)
Lemma radial : forall (v q P : vec R) r (inside : bool), v <> zero3 -> 0 < r -> P = sub3 q (scale3 (1 - r / norm3 v) v) ->
  let u := scale3 ((if inside then -1 else 1) / r) (scale3 (r / norm3 v) v) in
  let d := if (inside && Rlt_bool r (norm3 v)) || (negb inside && negb (Rlt_bool r (norm3 v))) then scale3 (-1) (sub3 q P) else sub3 q P in
  dist3 q P = Rabs (norm3 v - r) /\ d = scale3 (dist3 q P) u /\ unit3 u /\
  ((if inside then norm3 v <= r else r <= norm3 v) -> q = add3 P d) /\
  (~ (if inside then norm3 v <= r else r <= norm3 v) -> q = sub3 P d).
Proof.
  intros v q P r inside Hv Hr EP u d. pose proof (norm3_pos v Hv) as Hn. set (R := norm3 v) in *.
  assert (EQ : sub3 q P = scale3 (1 - r / R) v) by (rewrite EP; veq; ring).
  assert (ED : dist3 q P = Rabs (R - r)).
  { unfold dist3. rewrite EQ, norm3_scale. fold R. rewrite <- (Rabs_pos_eq R) at 2 by lra. rewrite <- Rabs_mult. f_equal. field. lra. }
  assert (Eu : u = scale3 ((if inside then -1 else 1) / R) v).
  { unfold u. destruct inside; veq; field; lra. }
  split; [exact ED|]. split; [|split].
  - rewrite ED, Eu. unfold d. rewrite EQ. case (Rlt_bool_spec r R); intro C; destruct inside; cbn [andb orb negb];
      (first [rewrite (Rabs_pos_eq (R - r)) by lra | rewrite (Rabs_left1 (R - r)) by lra]); veq; field; lra.
  - rewrite Eu. unfold unit3. dot3s. rewrite <- norm3_sq. fold R. destruct inside; field; lra.
  - unfold d. case (Rlt_bool_spec r R); intro C; destruct inside; cbn [andb orb negb]; split; intro H; try lra.
    + veq; ring.
    + veq; ring.
    + veq; ring.
    + assert (E0 : R = r) by lra. rewrite EQ, E0. replace (1 - r / r) with 0 by (field; lra). rewrite EP, E0.
      replace (1 - r / r) with 0 by (field; lra). veq; ring.
    + veq; ring.
Qed.

Lemma project_ok : forall b q P d, regular b -> off_centre b q -> project (N := R_arith) b q = (P, d) -> project_spec b q P d.
Proof.
  intros [c r inside|c n|c a r inside] q P d Hb Hq E; cbn [regular off_centre project] in *.
  - (* sphere *)
    vecR. rarith. set (v := sub3 q c) in *.
    assert (Hv : v <> zero3). { intro H. apply Hq. unfold v in H. unfold zero3, sub3 in H. injection H as H1 H2 H3. apply vec_eq; lra. }
    pose proof (norm3_pos v Hv) as Hn. injection E as EP Ed.
    assert (EP' : P = sub3 q (scale3 (1 - r / norm3 v) v)).
    { rewrite <- EP. remember (norm3 v) as k eqn:Ek; clear Ek. unfold v. veq; field; lra. }
    destruct (radial v q P r inside Hv Hb EP') as (D & Dd & Du & Da & Dn).
    assert (ES : sub3 P c = scale3 (r / norm3 v) v).
    { rewrite <- EP. remember (norm3 v) as k eqn:Ek; clear Ek. veq; field; lra. }
    assert (EQ : sub3 v (scale3 (r * (1 / norm3 v)) v) = sub3 q P).
    { rewrite EP'. remember (norm3 v) as k eqn:Ek; clear Ek. veq; field; lra. }
    rewrite EQ in Ed.
    assert (Ed' : d = if (inside && Rlt_bool r (norm3 v)) || (negb inside && negb (Rlt_bool r (norm3 v))) then scale3 (-1) (sub3 q P) else sub3 q P).
    { rewrite <- Ed. replace (- (1)) with (-1) by lra. reflexivity. }
    rewrite <- Ed' in Dd, Da, Dn. unfold project_spec, nearest. cbn [surface inward allowed]. rewrite ES.
    change (dist3 q c) with (norm3 v).
    split; [split|split; [exact Dd|split; [exact Du|split; [exact Da|exact Dn]]]].
    + unfold dist3. rewrite ES, norm3_scale, Rabs_pos_eq; [field; lra|]. apply Rlt_le, Rdiv_lt_0_compat; lra.
    + intros s Hs. rewrite D, <- Hs. unfold dist3. replace (sub3 q s) with (sub3 v (sub3 s c)); [apply triangle3_rev|].
      unfold v. veq; ring.
  - (* wall *)
    vecR. rarith. set (t := dot3 (sub3 q c) n) in *. injection E as EP Ed.
    assert (EQ : sub3 q P = scale3 t n) by (rewrite <- EP; veq; ring).
    rewrite EP in Ed. rewrite EQ in Ed. unfold project_spec, nearest. cbn [surface inward allowed]. fold t.
    assert (D : dist3 q P = Rabs t).
    { unfold dist3. rewrite EQ, norm3_scale. apply norm3_unit in Hb. rewrite Hb. ring. }
    assert (HP : dot3 (sub3 P c) n = 0).
    { rewrite <- EP. dot3s. unfold unit3 in Hb. rewrite Hb. unfold t. dot3s. ring. }
    split; [split; [exact HP|]|].
    + intros s Hs. rewrite D. replace t with (dot3 (sub3 q s) n).
      * pose proof (cauchy3_abs (sub3 q s) n) as K. apply norm3_unit in Hb. rewrite Hb, Rmult_1_r in K. exact K.
      * unfold t. dot3s. lra.
    + rewrite D. split; [|split; [exact Hb|]].
      * rewrite <- Ed. case (Rlt_bool_spec t 0); intro C; [rewrite Rabs_left by lra|rewrite Rabs_pos_eq by lra]; veq; ring.
      * rewrite <- Ed, <- EP. case (Rlt_bool_spec t 0); intro C; split; intro H; try lra; veq; ring.
  - (* tube *)
    destruct Hb as [Ha Hr]. vecR. rarith. set (v := reject a (sub3 q c)) in *.
    assert (Ev : sub3 q (add3 c (scale3 (dot3 (sub3 q c) a) a)) = v) by (unfold v; veq; ring).
    rewrite Ev in E. rewrite normalized_R in E by exact Hq. injection E as EP Ed.
    pose proof (norm3_pos v Hq) as Hn.
    assert (EP' : P = sub3 q (scale3 (1 - r / norm3 v) v)).
    { rewrite <- EP. assert (E1 : add3 c (scale3 (dot3 (sub3 q c) a) a) = sub3 q v) by (rewrite <- Ev; veq; ring).
      rewrite E1. remember (norm3 v) as k eqn:Ek; clear Ek. clearbody v. veq; field; lra. }
    destruct (radial v q P r inside Hq Hr EP') as (D & Dd & Du & Da & Dn).
    assert (Hav : dot3 v a = 0) by (apply reject_orth; exact Ha).
    assert (ES : reject a (sub3 P c) = scale3 (r / norm3 v) v).
    { assert (H1 : sub3 P c = sub3 (sub3 q c) (scale3 (1 - r / norm3 v) v)) by (rewrite EP'; veq; ring).
      rewrite H1, reject_sub. fold v.
      assert (H2 : reject a (scale3 (1 - r / norm3 v) v) = scale3 (1 - r / norm3 v) v).
      { unfold reject. rewrite dot3_scale_l, Hav. veq; ring. }
      rewrite H2. veq; ring. }
    assert (Ed' : d = if (inside && Rlt_bool r (norm3 v)) || (negb inside && negb (Rlt_bool r (norm3 v))) then scale3 (-1) (sub3 q P) else sub3 q P).
    { rewrite <- Ed, <- EP. replace (- (1)) with (-1) by lra. destruct (Rlt_bool r (norm3 v)), inside; reflexivity. }
    rewrite <- Ed' in Dd, Da, Dn. unfold project_spec, nearest. cbn [surface inward allowed]. rewrite ES. fold v.
    split; [split|split; [exact Dd|split; [exact Du|split; [exact Da|exact Dn]]]].
    + rewrite norm3_scale, Rabs_pos_eq; [field; lra|]. apply Rlt_le, Rdiv_lt_0_compat; lra.
    + intros s Hs. rewrite D, <- Hs. eapply Rle_trans; [apply triangle3_rev|]. unfold v. rewrite <- reject_sub.
      eapply Rle_trans; [apply reject_norm_le; exact Ha|]. unfold dist3. apply Req_le. f_equal. veq; ring.
Qed.

(** ** Collecting *)
Lemma surface_allowed : forall b q, surface b q -> allowed b q.
Proof. intros [c r [|]|c n|c a r [|]] q; cbn; intros; lra. Qed.

Lemma checkEnd_R : forall (buf : R) b (s : sylinder R_arith) (q : vec R) (rad : R), regular b -> off_centre b q -> 0 <= buf -> 0 < radiusCol s ->
  checked buf b s (q, rad) (checkEnd (N := R_arith) buf b s q rad).
Proof.
  intros buf b s q rad Hb Hq Hbuf Hr. unfold checkEnd.
  destruct (project (N := R_arith) b q) as [P d] eqn:E.
  destruct (project_ok b q P d Hb Hq E) as (Hn & Ed & Hu & Ha & Hna). cbv zeta. vecR. rarith.
  pose proof (dist3_nonneg q P) as Hd.
  assert (Nd : norm3 d = dist3 q P).
  { rewrite Ed, norm3_scale, Rabs_pos_eq by exact Hd. apply norm3_unit in Hu. rewrite Hu. ring. }
  assert (Inw : dist3 q P <> 0 -> scale3 (1 / norm3 d) d = inward b P).
  { intro H0. rewrite Nd, Ed. veq; field; exact H0. }
  rewrite Nd in *. set (D := dist3 q P) in *.
  destruct (allowed_dec b q) as [A|A].
  - exists P, D. split; [split; [exact Hn|split; [reflexivity|contradiction]]|].
    assert (E0 : sub3 q P = d). { rewrite (Ha A). veq; ring. }
    rewrite E0. rewrite Rlt_bool_false by apply dot3_self. cbn [fst snd].
    replace (1 + buf * 2) with (1 + 2 * buf) by ring.
    case (Rlt_bool_spec D ((1 + 2 * buf) * radiusCol s)); intro C; split; intro C'; try lra; [|reflexivity].
    eexists. split; [reflexivity|]. unfold wall_block. cbn. repeat split. exact Inw.
  - exists P, (- D). split; [split; [exact Hn|split; [contradiction|reflexivity]]|].
    assert (HD : D <> 0).
    { intro H0. apply A. apply surface_allowed. destruct Hn as [HP _]. rewrite (Hna A), Ed, H0.
      replace (sub3 P (scale3 0 (inward b P))) with P; [exact HP|]. veq; ring. }
    assert (E0 : sub3 q P = opp3 d). { rewrite (Hna A). veq; ring. }
    rewrite E0. dot3s. rewrite Rlt_bool_true.
    + cbn [fst snd]. split; intro C; [|exfalso; nra].
      eexists. split; [reflexivity|]. unfold wall_block. cbn. repeat split. intro. apply Inw. exact HD.
    + pose proof (norm3_sq d) as K. fold D in Nd. rewrite Nd in K. nra.
Qed.

Lemma checkObject_R : forall (buf : R) b (s : sylinder R_arith), regular b -> (forall e, In e (ends s) -> off_centre b (fst e)) ->
  0 <= buf -> 0 < radiusCol s ->
  exists ls, checkObject (N := R_arith) buf b s = concat ls /\ Forall2 (checked buf b s) (ends s) ls.
Proof.
  intros buf b s Hb He Hbuf Hr. unfold checkObject, ends in *. rarith. vecR.
  replace (lengthCol s * (1 * bpow radix2 (-1))) with (lengthCol s / 2) by (cbn; lra).
  destruct (isSphere (N := R_arith) true s).
  - eexists [_]. cbn [concat]. rewrite app_nil_r. split; [reflexivity|]. constructor; [|constructor].
    apply checkEnd_R; try assumption. apply (He _ (or_introl eq_refl)).
  - eexists [_; _]. cbn [concat]. rewrite app_nil_r. split; [reflexivity|].
    constructor; [|constructor; [|constructor]]; apply checkEnd_R; try assumption.
    + apply (He _ (or_introl eq_refl)).
    + apply (He _ (or_intror (or_introl eq_refl))).
Qed.

(** the whole collection *)
Lemma collect_perm : forall {N : arith} (buf : N) plan bs (ss : list (sylinder N)) p,
  length plan = length bs ->
  Forall (fun op => Permutation (fst op) (seq 0 (length ss)) /\ forall i, (i < length ss)%nat -> (snd op i < length p)%nat) plan ->
  exists p', collectBoundaryCollision buf plan bs ss p = Done p' /\ length p' = length p /\
    Permutation (concat p') (concat p ++ flat_map (fun b => flat_map (checkObject buf b) ss) bs).
Proof.
  intros N buf plan bs ss. unfold collectBoundaryCollision. revert plan.
  induction bs as [|b bs IH]; intros [|[order who] plan] p L H; try discriminate.
  - exists p. cbn. rewrite app_nil_r. auto.
  - inversion H as [|? ? [HP Hw] H']; subst. cbn [combine ofold fst snd] in *.
    destruct (loop_work ss (checkObject buf b) who order HP) as (work & Ew & Pw & Tw). rewrite Ew. cbn [obind].
    destruct (pushAll_perm work p) as (p1 & E1 & L1 & P1); [apply Tw; exact Hw|]. rewrite E1. cbn [obind].
    destruct (IH plan p1) as (p2 & E2 & L2 & P2); [injection L; auto|rewrite L1; exact H'|].
    exists p2. split; [exact E2|]. split; [lia|]. rewrite P2, P1, Pw. cbn [flat_map]. rewrite app_assoc. apply Permutation_refl.
Qed.

Lemma constructed_regular : forall c n r inside, n <> zero3 -> 0 < r ->
  regular (newSphereShell (N := R_arith) c r inside) /\ regular (newWall (N := R_arith) c n) /\
  regular (newTube (N := R_arith) c n r inside).
Proof.
  intros c n r inside Hn Hr. split; [exact Hr|]. split; [exact (normalized_unit n Hn)|split; [exact (normalized_unit n Hn)|exact Hr]].
Qed.

Lemma wall_example :
  let b := Wall (N := R_arith) (Vec 0 0 0) (Vec 0 0 1) in regular b /\ off_centre b (Vec 1 2 (-3)) /\ ~ allowed b (Vec 1 2 (-3)).
Proof. cbn. unfold unit3, dot3. cbn. repeat split; lra. Qed.
