From Coq Require Import List Arith ZArith Lia Bool Permutation Reals Lra Psatz Sorted.
From Flocq Require Import Core.
From Verif Require Import Outcome ListUtil Arith ParticleModel DomainModel TreeModel TreeSpec TreeProofs TreeLink TreeLevels TreeOct TreeMoment TreeLists TreeSearch.
Import ListNotations.
Local Open Scope R_scope.

Notation val := (fun x : R_arith => x).
Notation ok := (@all_ok R_arith).

Lemma gap_cases l h x : gap (N := R_arith) l h x = if Rlt_bool h x then x - h else if Rlt_bool x l then l - x else 0.
Proof. reflexivity. Qed.
Lemma gap_far l h x r : l <= h -> 0 <= r -> gap (N := R_arith) l h x ^ 2 <= r ^ 2 -> l <= x + r /\ x - r <= h.
Proof. intros Hlh Hr. rewrite gap_cases. destruct (Rlt_bool_spec h x); [|destruct (Rlt_bool_spec x l)]; intros H'; split; nra. Qed.
Lemma pow_maj_sq a b : Rabs a <= Rabs b -> a ^ 2 <= b ^ 2.
Proof. intros H. apply Rsqr_le_abs_1 in H. unfold Rsqr in H. lra. Qed.
Lemma three a b c a' b' c' : a <= a' -> b <= b' -> c <= c' -> a + b + c <= a' + b' + c'. Proof. lra. Qed.
Lemma gap_least l h x q : l <= q <= h -> gap (N := R_arith) l h x ^ 2 <= (q - x) ^ 2.
Proof. intros (Hq1 & Hq2). rewrite gap_cases. destruct (Rlt_bool_spec h x); [|destruct (Rlt_bool_spec x l)]; [apply pow_maj_sq; apply Rabs_le; rewrite Rabs_minus_sym, Rabs_pos_eq by lra; split; lra|apply pow_maj_sq; apply Rabs_le; rewrite Rabs_pos_eq by lra; split; lra|]. replace (0 ^ 2) with 0 by ring. apply pow2_ge_0. Qed.
Definition nearest1 (l h x : R) : R := if Rlt_bool h x then h else if Rlt_bool x l then l else x.
Lemma nearest_in l h x : l <= h -> l <= nearest1 l h x <= h.
Proof. intros H. unfold nearest1. rcase; [lra|]. rcase; lra. Qed.
Lemma nearest_gap l h x : (nearest1 l h x - x) ^ 2 = gap (N := R_arith) l h x ^ 2.
Proof. rewrite gap_cases. unfold nearest1. rcase; [nra|]. rcase; nra. Qed.
Lemma dist_eq (tin : ort R_arith) p : distanceMinSQ (N := R_arith) tin p = gap (N := R_arith) (vx (olow tin)) (vx (ohigh tin)) (vx p) ^ 2 + gap (N := R_arith) (vy (olow tin)) (vy (ohigh tin)) (vy p) ^ 2 + gap (N := R_arith) (vz (olow tin)) (vz (ohigh tin)) (vz p) ^ 2.
Proof.
  unfold distanceMinSQ. cbv zeta. set (A := gap (N := R_arith) (vx (olow tin)) (vx (ohigh tin)) (vx p)). set (B := gap (N := R_arith) (vy (olow tin)) (vy (ohigh tin)) (vy p)). set (C := gap (N := R_arith) (vz (olow tin)) (vz (ohigh tin)) (vz p)). clearbody A B C. cbn in A, B, C |- *. ring.
Qed.
Definition fat (o : ort R) : Prop := forall c, In c coords -> c (olow o) <= c (ohigh o).
Lemma member_reals tin tout (e : site R_arith) : fat tin -> isInEpList (N := R_arith) tin tout e = true <-> reached tin tout e.
Proof.
  intros Hf. unfold isInEpList. rewrite orb_true_iff.
  assert (H1 : a_le (distanceMinSQ (N := R_arith) tin (s_pos e)) (a_mul (s_rad e) (s_rad e)) = true <-> (exists q, inBox tin q /\ (vx q - vx (s_pos e)) ^ 2 + (vy q - vy (s_pos e)) ^ 2 + (vz q - vz (s_pos e)) ^ 2 <= s_rad e ^ 2)).
  { assert (E : a_le (distanceMinSQ (N := R_arith) tin (s_pos e)) (a_mul (s_rad e) (s_rad e)) = true <-> (distanceMinSQ (N := R_arith) tin (s_pos e) : R) <= s_rad e ^ 2).
    { cbn [a_le a_mul R_arith]. replace ((s_rad e : R) ^ 2) with (s_rad e * s_rad e : R) by ring. case Rle_bool_spec; intros H; split; intros; try reflexivity; try assumption; try discriminate. lra. }
    rewrite E, dist_eq. split.
    - intros H. exists (Vec (nearest1 (vx (olow tin)) (vx (ohigh tin)) (vx (s_pos e))) (nearest1 (vy (olow tin)) (vy (ohigh tin)) (vy (s_pos e))) (nearest1 (vz (olow tin)) (vz (ohigh tin)) (vz (s_pos e)))). cbn [vx vy vz]. rewrite !nearest_gap. split; [|assumption].
      intros c Hc. assert (Hfc := Hf c Hc). destruct Hc as [<-|[<-|[<-|[]]]]; cbn [vx vy vz]; apply nearest_in; assumption.
    - intros (q & Hq & H). assert (Qx := gap_least _ _ (vx (s_pos e)) _ (Hq vx ltac:(cbn; auto))). assert (Qy := gap_least _ _ (vy (s_pos e)) _ (Hq vy ltac:(cbn; auto))). assert (Qz := gap_least _ _ (vz (s_pos e)) _ (Hq vz ltac:(cbn; auto))). exact (Rle_trans _ _ _ (three _ _ _ _ _ _ Qx Qy Qz) H). }
  assert (H2 : overlapsPos (N := R_arith) tout (s_pos e) = true <-> inBox tout (s_pos e)).
  { unfold overlapsPos. rewrite negb_true_iff, !orb_false_iff. cbn [a_lt R_arith]. split.
    - intros (((((A1 & A2) & A3) & A4) & A5) & A6). repeat match goal with H : Rlt_bool ?x ?y = false |- _ => let K := fresh in assert (K : y <= x) by (revert H; case Rlt_bool_spec; intros; [discriminate|assumption]); clear H end. intros c [<-|[<-|[<-|[]]]]; split; assumption.
    - intros H. destruct (H vx ltac:(cbn; auto)), (H vy ltac:(cbn; auto)), (H vz ltac:(cbn; auto)). rewrite !Rlt_bool_false by assumption. auto 10. }
  unfold reached. rewrite <- H1, <- H2. reflexivity.
Qed.

Lemma coord_R c (p : vec R) : In c coords -> forall q, (c q - c p) ^ 2 <= (vx q - vx p) ^ 2 + (vy q - vy p) ^ 2 + (vz q - vz p) ^ 2.
Proof. intros Hc q. assert (A := pow2_ge_0 (vx q - vx p)). assert (B := pow2_ge_0 (vy q - vy p)). assert (C := pow2_ge_0 (vz q - vz p)). destruct Hc as [<-|[<-|[<-|[]]]]; lra. Qed.
Lemma ball_low c (e : site R_arith) : In c coords -> (c (olow (ball e)) : R) = c (s_pos e) - s_rad e.
Proof. intros [<-|[<-|[<-|[]]]]; reflexivity. Qed.
Lemma ball_high c (e : site R_arith) : In c coords -> (c (ohigh (ball e)) : R) = c (s_pos e) + s_rad e.
Proof. intros [<-|[<-|[<-|[]]]]; reflexivity. Qed.

Lemma open_reals (tin tout : ort R_arith) (e : site R_arith) m : fat tin -> 0 <= s_rad e -> reached tin tout e -> box_in val (point e) (v_in m) -> box_in val (ball e) (v_out m) -> openBit tin tout m = true.
Proof.
  intros Hf Hr He B1 B2. assert (Hok : forall o, okB ok o) by (intros o c _; split; exact I). unfold openBit. apply orb_true_iff. destruct He as [(q & Hq & Hd)|He].
  - left. apply (overlapsBox_ok ok val reals_ordered); try apply Hok. intros c Hc. destruct (B2 c Hc) as (L & H). rewrite ball_low in L by assumption. rewrite ball_high in H by assumption. destruct (Hq c Hc) as (Q1 & Q2). assert (Hd' := coord_R c (s_pos e) Hc q). cbn in *.
    assert (Hx : (c q - c (s_pos e)) ^ 2 <= s_rad e ^ 2) by lra. assert (Hy : Rabs (c q - c (s_pos e)) <= s_rad e) by (apply Rabs_le; split; nra). apply Rabs_le_inv in Hy. split; lra.
  - right. apply (overlapsBox_ok ok val reals_ordered); try apply Hok. intros c Hc. destruct (B1 c Hc) as (L & H). destruct (He c Hc). cbn [point olow ohigh] in *. cbn in *. split; lra.
Qed.

Lemma hull_fat (fs : list (site R_arith)) e tin : In e fs -> hull ok val (map point fs) tin -> fat tin /\ inBox tin (s_pos e).
Proof.
  intros He (_ & H & _). assert (Hb := H (point e) (in_map _ _ _ He)). split; intros c Hc; destruct (Hb c Hc) as (A & B); cbn [point olow ohigh] in A, B; cbn in A, B; [|auto]. apply (Rle_trans _ (c (s_pos e))); assumption.
Qed.

Lemma G_reals (e f : site R_arith) : usable ok val [e; f] -> apart val e f <= s_rad e ^ 2 -> box_in val (point f) (ball e).
Proof.
  intros Hu H c Hc. destruct (Hu e (or_introl eq_refl)) as (_ & _ & _ & Hr). rewrite ball_low, ball_high by assumption. cbn [point olow ohigh]. unfold apart in H. assert (Hd := coord_R c (s_pos f) Hc (s_pos e)). cbn in *.
  assert (Hx : (c (s_pos e) - c (s_pos f)) ^ 2 <= s_rad e ^ 2) by lra. assert (Hy : Rabs (c (s_pos e) - c (s_pos f)) <= s_rad e) by (apply Rabs_le; split; nra). apply Rabs_le_inv in Hy. split; lra.
Qed.
Lemma S_reals tin tout fs (e f : site R_arith) : In e fs -> hull ok val (map point fs) tin -> usable ok val [e; f] -> tight (apart val e f) <= s_rad f ^ 2 ->
  isInEpList tin tout f = true /\ forall m, okB ok (v_out m) -> box_in val (ball f) (v_out m) -> openBit tin tout m = true.
Proof.
  intros He Hh Hu H. destruct (hull_fat _ _ _ He Hh) as (Hf & Hq). destruct (Hu f (or_intror (or_introl eq_refl))) as (_ & _ & _ & Hr). unfold tight, apart in H.
  assert (Hrd : reached tin tout f) by (left; exists (s_pos e); split; [assumption|exact H]). split; [apply member_reals; assumption|].
  intros m _ Hb. unfold openBit. apply orb_true_iff. left. apply (overlapsBox_ok ok val reals_ordered); try (intros c _; split; exact I). intros c Hc. destruct (Hb c Hc) as (L & B). rewrite ball_low in L by assumption. rewrite ball_high in B by assumption. destruct (Hq c Hc) as (Q1 & Q2). assert (Hd := coord_R c (s_pos f) Hc (s_pos e)). cbn in *.
  assert (Hx : (c (s_pos e) - c (s_pos f)) ^ 2 <= s_rad f ^ 2) by lra. assert (Hy : Rabs (c (s_pos e) - c (s_pos f)) <= s_rad f) by (apply Rabs_le; split; nra). apply Rabs_le_inv in Hy. split; lra.
Qed.

Local Open Scope Z_scope.
(** the list of a group is exactly the particles its boxes reach *)
Lemma exact_list limit keys eps tc moms (g : group R_arith) fs e0 : builds ok val limit keys eps (tc, moms) -> length eps = length keys -> 2 * Z.of_nat (length keys) <= 2 ^ 31 ->
  usable ok val eps -> In e0 fs -> hull ok val (map point fs) (g_in g) ->
  exists l, interactionList tc moms eps limit g = Done l /\ StronglySorted Z.lt l /\ forall k, In k l <-> exists e, at_ eps k e /\ reached (g_in g) (g_out g) e.
Proof.
  intros HB Hlen HN Hu He0 Hh. destruct (hull_fat _ _ _ He0 Hh) as (Hf & _). destruct (builds_walk _ _ _ _ _ _ _ HB) as (p & lev_max & Hlm & P0 & P1 & P5 & Q).
  destruct (list_ok ok val keys limit tc eps moms p lev_max P5 Q HN Hlen (g_in g) (g_out g) (reached (g_in g) (g_out g))) with (fuel := 22%nat) (l := 0) (i := 0) (a := 0) (n := Z.of_nat (length keys)) (acc := @nil Z) as (l & E & L1 & L2 & L3); try lia; [| |change (0 + 1) with 1; lia|destruct HB as (HB & _); exact HB|].
  - intros e _ He. apply member_reals; assumption.
  - intros e m Hin He _ B1 B2. apply (open_reals _ _ e); try assumption. apply Hu. assumption.
  - exists l. split; [exact E|]. split; [assumption|]. intros k. split.
    + intros Hk. destruct (L2 k Hk) as (_ & e & H1 & H2). exists e. split; [assumption|]. apply member_reals; assumption.
    + intros (e & H1 & H2). apply (L3 k e); try assumption. apply at_lt in H1. lia.
Qed.
