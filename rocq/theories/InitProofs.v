(** Proofs about the random initial configuration. *)
From Coq Require Import List Arith ZArith Bool Reals Lra Lia Permutation.
From Flocq Require Import Core.
From Verif Require Import Outcome ListUtil Arith ParticleModel ConModel VecModel VecSpec VecProofs SylModel SylSpec SylProofs GeoModel GeoProofs StepModel StepProofs VtpModel VtpProofs StatModel StatProofs InitModel InitSpec.
From Verif Require MixProofs.
Import ListNotations.

Lemma drawLength_ok {N : arith} (m : N) ls : (exists l, In l ls /\ a_le m l = false) -> exists l, drawLength m ls = Done l /\ In l ls /\ a_le m l = false.
Proof.
  induction ls as [|x ls IH]; intros (l & Hl & E); [contradiction|]. cbn [drawLength]. destruct (a_le m x) eqn:Ex.
  - destruct IH as (l' & E' & Hl' & H'); [destruct Hl as [->|Hl]; [congruence|eauto]|]. exists l'. split; [exact E'|]. split; [right; exact Hl'|exact H'].
  - exists x. split; [reflexivity|]. split; [left; reflexivity|exact Ex].
Qed.
Local Open Scope R_scope.
Lemma dmin_R (a b : R) : dmin (N := R_arith) a b = Rmin a b.
Proof. unfold dmin. rarith. unfold Rmin. destruct (Rle_dec a b); rcase; lra. Qed.
Lemma vget3 {N : arith} (f : nat -> N) : vx (vec3 f) = f 0%nat /\ vy (vec3 f) = f 1%nat /\ vz (vec3 f) = f 2%nat.
Proof. auto. Qed.

Lemma circ_aux (y z rad b : R) : y * y + z * z = rad * rad * b -> 0 <= b < 1 -> 0 < rad -> y * y + z * z < rad * rad /\ - rad < y < rad /\ - rad < z < rad.
Proof. intros E [B0 B1] Hr. assert (0 < rad * rad) by nra. assert (y * y + z * z < rad * rad) by nra. repeat split; nra. Qed.

Lemma circ_shift (y z l h l' h' rad : R) : y * y + z * z < rad * rad ->
  (y + ((h - l) * (1 * / 2) + l) - (l + h) / 2) * (y + ((h - l) * (1 * / 2) + l) - (l + h) / 2) + (z + ((h' - l') * (1 * / 2) + l') - (l' + h') / 2) * (z + ((h' - l') * (1 * / 2) + l') - (l' + h') / 2) < rad * rad.
Proof. intros H. replace (y + ((h - l) * (1 * / 2) + l) - (l + h) / 2) with y by field. replace (z + ((h' - l') * (1 * / 2) + l') - (l' + h') / 2) with z by field. exact H. Qed.

Section Init.
  Variables (Pi eps dmax : R) (perp : vec R -> vec R -> vec R) (c : initConfig R_arith).
  Let low := i_low c.
  Let high := i_high c.
  Let half_edge := Rmin (Rmin (vx high - vx low) (vy high - vy low)) (vz high - vz low) / 2.

  Lemma maxLength_R : maxLength (N := R_arith) c = half_edge.
  Proof. unfold maxLength, boxEdge. cbn [vec3 vx vy vz]. rarith. rewrite !dmin_R. unfold half_edge, low, high. cbn [vget]. change (bpow radix2 (-1)) with (/ 2). unfold Rdiv. ring. Qed.

  Lemma initObject_ok u i r : openBox low high -> uniform r -> (0 < i_lengthSigma c -> exists l, In l (r_len r) /\ l < half_edge) ->
    exists s, initObject (N := R_arith) sin cos Pi eps dmax perp c u i r = Done s /\
      s_gid s = Z.of_nat i /\ radius s = i_diameter c / 2 /\ radiusCol s = i_diameter c / 2 /\ lengthCol s = slength s /\
      (i_lengthSigma c <= 0 -> slength s = i_length c) /\ (0 < i_lengthSigma c -> In (slength s) (r_len r) /\ slength s < half_edge) /\
      within low high (spos s) /\ orient s = getOrient (N := R_arith) sin cos Pi eps perp (i_orient c) r.
  Proof.
    intros HB HU HL. unfold initObject.
    assert (HLn : exists l, (if a_lt (a := R_arith) (a_Z (a := R_arith) 0) (i_lengthSigma c) then drawLength (N := R_arith) (maxLength (N := R_arith) c) (r_len r) else Done (i_length c)) = Done l /\
      (i_lengthSigma c <= 0 -> l = i_length c) /\ (0 < i_lengthSigma c -> In l (r_len r) /\ l < half_edge)).
    { rarith. rcase.
      - destruct (HL H) as (l & Hl & Hlt). destruct (drawLength_ok (N := R_arith) (maxLength (N := R_arith) c) (r_len r)) as (l' & E & Hl' & H').
        + exists l. split; [exact Hl|]. rewrite maxLength_R. rarith. apply Rle_bool_false. exact Hlt.
        + exists l'. split; [exact E|]. split; [lra|]. intros _. split; [exact Hl'|]. rewrite maxLength_R in H'. rarith. revert H'. case Rle_bool_spec; [discriminate|auto].
      - exists (i_length c). split; [reflexivity|]. split; [reflexivity|lra]. }
    destruct HLn as (l & -> & Hl1 & Hl2). cbn [obind]. eexists. split; [reflexivity|]. cbn [clearObject newSylinder s_gid radius radiusCol lengthCol slength spos orient].
    split; [reflexivity|]. split; [reflexivity|]. split; [reflexivity|]. split; [reflexivity|]. split; [exact Hl1|]. split; [exact Hl2|]. split; [|reflexivity].
    destruct HU as (Hp & _). destruct HB as (B0 & B1 & B2). pose proof (Hp 0%nat) as P0. pose proof (Hp 1%nat) as P1. pose proof (Hp 2%nat) as P2.
    unfold within, boxEdge. cbn [vec3 vx vy vz vget] in *. fold low high. rarith. repeat split; nra.
  Qed.

  Lemma circleObject_ok r s : openBox low high -> uniform r -> within low high (spos s) ->
    let s' := circleObject (N := R_arith) sin cos Pi c r s in
    within low high (spos s') /\ inCircle low high (spos s') /\ vx (spos s') = vx (spos s) /\ s' = withPose s (spos s') (orient s).
  Proof.
    intros HB (_ & _ & _ & HC) HW. unfold circleObject. rewrite dmin_R. fold low high. rarith. change (bpow radix2 (-1)) with (/ 2).
    set (rad := 1 * / 2 * Rmin (vz high - vz low) (vy high - vy low)).
    pose proof (circle_R Pi rad (fst (r_circ r)) (snd (r_circ r)) (proj1 HC)) as E.
    change (@a_sub R_arith) with Rminus. 
    destruct (getRandPointInCircle (N := R_arith) cos sin Pi rad (fst (r_circ r)) (snd (r_circ r))) as [y z] eqn:Eyz.
    destruct HB as (B0 & B1 & B2). destruct HW as (W0 & _ & _).
    assert (Hr1 : rad <= (vy high - vy low) / 2) by (unfold rad; pose proof (Rmin_r (vz high - vz low) (vy high - vy low)); lra).
    assert (Hr2 : rad <= (vz high - vz low) / 2) by (unfold rad; pose proof (Rmin_l (vz high - vz low) (vy high - vy low)); lra).
    assert (Hr0 : 0 < rad) by (unfold rad, Rmin; destruct (Rle_dec (vz high - vz low) (vy high - vy low)); lra).
    destruct (circ_aux y z rad (snd (r_circ r)) E HC Hr0) as (Hlt & Hy & Hz). cbn zeta.
    match goal with |- context [@getRandPointInCircle ?n ?a ?b ?c ?d ?e ?f] => assert (Ht : @getRandPointInCircle n a b c d e f = (y, z)) by exact Eyz; rewrite Ht end.
    cbn zeta. cbn [withPose spos orient vx vy vz]. split; [|split; [|split; reflexivity]].
    - unfold within. cbn [vx vy vz]. split; [exact W0|]. split; lra.
    - unfold inCircle. cbn [vx vy vz]. replace (Rmin (vy high - vy low) (vz high - vz low) / 2) with rad by (unfold rad; rewrite Rmin_comm; field).
      exact (circ_shift y z (vy low) (vy high) (vz low) (vz high) rad Hlt).
  Qed.

  Definition objectOk (r : randoms R_arith) (i : nat) (s : sylinder R_arith) : Prop :=
    s_gid s = Z.of_nat i /\ radius s = i_diameter c / 2 /\ radiusCol s = i_diameter c / 2 /\ lengthCol s = slength s /\
    (i_lengthSigma c <= 0 -> slength s = i_length c) /\ (0 < i_lengthSigma c -> In (slength s) (r_len r) /\ slength s < half_edge) /\
    within low high (spos s) /\ (i_circular c = true -> inCircle low high (spos s)) /\ orient s = getOrient (N := R_arith) sin cos Pi eps perp (i_orient c) r.

  Lemma setInitial_ok o1 o2 us rs mem : openBox low high -> length mem = i_number c -> Permutation o1 (seq 0 (i_number c)) -> Permutation o2 (seq 0 (i_number c)) ->
    (forall i, (i < i_number c)%nat -> uniform (rs i) /\ (0 < i_lengthSigma c -> exists l, In l (r_len (rs i)) /\ l < half_edge)) ->
    exists ss, setInitialFromConfig (N := R_arith) sin cos Pi eps dmax perp 0 o1 o2 c us rs mem = Done ss /\ length ss = i_number c /\
      forall i s, nth_error ss i = Some s -> objectOk (rs i) i s.
  Proof.
    intros HB HL P1 P2 HR. unfold setInitialFromConfig. cbn [Nat.eqb negb].
    set (dflt := newSylinder (N := R_arith) dmax (us 0%nat) 0 0 0 0 0 (Vec 0 0 0) (Quat (N := R_arith) 0 0 0 0) : sylinder R_arith).
    set (g := fun i (_ : sylinder R_arith) => match initObject (N := R_arith) sin cos Pi eps dmax perp c (us i) i (rs i) with Done s => s | _ => dflt end).
    destruct (forEach_ok o1 (fun i _ => initObject (N := R_arith) sin cos Pi eps dmax perp c (us i) i (rs i)) g mem) as (ss & E & L & W).
    { rewrite HL. exact P1. }
    { intros i s Es. assert (Hi : (i < i_number c)%nat) by (rewrite <- HL; apply nth_error_Some; congruence). destruct (HR i Hi) as (HU & HN).
      destruct (initObject_ok (us i) i (rs i) HB HU HN) as (s' & E' & _). unfold g. rewrite E'. reflexivity. }
    rewrite E. cbn [obind].
    assert (H1 : forall i s, nth_error ss i = Some s -> (i < i_number c)%nat /\ initObject (N := R_arith) sin cos Pi eps dmax perp c (us i) i (rs i) = Done s).
    { intros i s Es. assert (Hi : (i < i_number c)%nat) by (rewrite <- HL, <- L; apply nth_error_Some; congruence). split; [exact Hi|].
      rewrite W in Es. destruct (nth_error mem i) as [m|]; [|discriminate]. cbn [option_map] in Es. destruct (HR i Hi) as (HU & HN).
      destruct (initObject_ok (us i) i (rs i) HB HU HN) as (s' & E' & _). unfold g in Es. rewrite E' in *. congruence. }
    destruct (i_circular c) eqn:Ec.
    - destruct (forEach_ok o2 (fun i s => Done (circleObject (N := R_arith) sin cos Pi c (rs i) s)) (fun i s => circleObject (N := R_arith) sin cos Pi c (rs i) s) ss) as (ss' & E' & L' & W').
      { rewrite L, HL. exact P2. } { reflexivity. }
      exists ss'. split; [exact E'|]. split; [congruence|]. intros i s' Es'. rewrite W' in Es'. destruct (nth_error ss i) as [s|] eqn:Es; [|discriminate]. cbn [option_map] in Es'.
      destruct (H1 i s Es) as (Hi & Ei). destruct (HR i Hi) as (HU & HN). destruct (initObject_ok (us i) i (rs i) HB HU HN) as (s0 & E0 & A1 & A2 & A3 & A4 & A5 & A6 & A7 & A8).
      assert (s0 = s) by congruence. subst s0. assert (s' = circleObject (N := R_arith) sin cos Pi c (rs i) s) by congruence. subst s'.
      destruct (circleObject_ok (rs i) s HB HU A7) as (C1 & C2 & _ & C4). unfold objectOk.
      split; [rewrite C4; exact A1|]. split; [rewrite C4; exact A2|]. split; [rewrite C4; exact A3|]. split; [rewrite C4; exact A4|]. split; [rewrite C4; exact A5|]. split; [rewrite C4; exact A6|].
      split; [exact C1|]. split; [intros _; exact C2|]. rewrite C4. exact A8.
    - exists ss. split; [reflexivity|]. split; [congruence|]. intros i s Es. destruct (H1 i s Es) as (Hi & Ei). destruct (HR i Hi) as (HU & HN).
      destruct (initObject_ok (us i) i (rs i) HB HU HN) as (s0 & E0 & A). assert (s0 = s) by congruence. subst s0. unfold objectOk. intuition congruence.
  Qed.

  (** orientation *)
  Lemma orient_random r : uniform r -> (forall k, (k < 3)%nat -> vget (i_orient c) k < -1 \/ 1 < vget (i_orient c) k) -> (forall k, 0 <= vget (r_dir r) k < 1) ->
    unitq (getOrient (N := R_arith) sin cos PI eps perp (i_orient c) r).
  Proof.
    intros (_ & Hq & _) HO HD. unfold getOrient. rarith.
    pose proof (HO 0%nat ltac:(lia)) as O0. pose proof (HO 1%nat ltac:(lia)) as O1. pose proof (HO 2%nat ltac:(lia)) as O2. cbn [vget] in *.
    pose proof (HD 0%nat) as D0. pose proof (HD 1%nat) as D1. pose proof (HD 2%nat) as D2. cbn [vget] in *. cbn [vx vy vz].
    assert (P : forall x, (x < -1 \/ 1 < x) -> Rlt_bool x (-1) || Rlt_bool 1 x = true).
    { intros x [H|H]; [rewrite Rlt_bool_true by lra; reflexivity|rewrite (Rlt_bool_true 1) by lra; apply orb_true_r]. }
    rewrite !P by assumption. rewrite !Req_bool_false by lra. cbn [negb andb]. apply random_unit. pose proof (Hq 0%nat) as Q. cbn [vget] in Q. lra.
  Qed.
  Lemma orient_fixed r : (forall a b, norm3 (perp a b) = 1 /\ dot3 (perp a b) a = 0) -> 0 < eps <= 1 ->
    (forall k, (k < 3)%nat -> -1 <= vget (i_orient c) k <= 1) -> let d := i_orient c in let n := norm3 d in 0 < n -> (-1 + eps <= vz d / n \/ (vx d = 0 /\ vy d = 0)) ->
    let q := getOrient (N := R_arith) sin cos Pi eps perp (i_orient c) r in unitq q /\ qrot (N := R_arith) q (Vec 0 0 1) = Vec (vx d / n) (vy d / n) (vz d / n).
  Proof.
    intros Hp He HO d n Hn Hc. unfold getOrient. 
    pose proof (HO 0%nat ltac:(lia)) as O0. pose proof (HO 1%nat ltac:(lia)) as O1. pose proof (HO 2%nat ltac:(lia)) as O2. cbn [vget] in *. rarith.
    assert (P : forall x, -1 <= x <= 1 -> Rlt_bool x (-1) || Rlt_bool 1 x = false) by (intros x H; rewrite !Rlt_bool_false by lra; reflexivity).
    rewrite !P by assumption. cbn [vx vy vz]. rewrite Req_bool_true by reflexivity. cbn [negb andb].
    clear P. subst d n. destruct (i_orient c) as [x y z]. cbn [vx vy vz] in *. exact (from_ez eps perp (Vec x y z) Hp He Hn Hc).
  Qed.
End Init.

(** fields that are the same for all new objects, any arithmetic *)
Lemma forEach_all {S} (P : S -> Prop) f : (forall i s s', f i s = Done s' -> P s') -> forall order ss ss',
  (forall i s, nth_error ss i = Some s -> In i order \/ P s) -> forEach order f ss = Done ss' -> Forall P ss'.
Proof.
  intros Hf. induction order as [|k order IH]; intros ss ss' H E; unfold forEach in E; cbn [ofold] in E.
  - injection E as <-. apply Forall_forall. intros s Hs. apply In_nth_error in Hs. destruct Hs as (i & Hi). destruct (H i s Hi) as [[]|Hp]. exact Hp.
  - destruct (mread ss k) as [s| |] eqn:Er; cbn [obind] in E; try discriminate. destruct (f k s) as [s'| |] eqn:Ef; cbn [obind] in E; try discriminate.
    destruct (mwrite ss k s') as [ss1| |] eqn:Ew; cbn [obind] in E; try discriminate. apply (IH ss1 ss'); [|exact E].
    intros i t Ei. destruct (Nat.eq_dec i k) as [->|Nk].
    + right. rewrite (proj2 (MixProofs.nth_mwrite _ _ _ _ Ew)), Nat.eqb_refl in Ei. injection Ei as <-. exact (Hf _ _ _ Ef).
    + rewrite (proj2 (MixProofs.nth_mwrite _ _ _ _ Ew)) in Ei. destruct (Nat.eqb_spec i k); [contradiction|]. destruct (H i t Ei) as [[->|Hi]|Hp]; [contradiction|left; exact Hi|right; exact Hp].
Qed.
Lemma setInitial_new {N : arith} (fsin fcos : N -> N) Pi eps dmax perp c o1 o2 us rs mem ss : Permutation o1 (seq 0 (length mem)) ->
  setInitialFromConfig fsin fcos Pi eps dmax perp 0 o1 o2 c us rs mem = Done ss ->
  Forall (fun s => s_index s = (-1)%Z /\ s_rank s = (-1)%Z /\ s_group s = (-1)%Z /\ immovable s = false) ss.
Proof.
  intros HP E. unfold setInitialFromConfig in E. cbn [Nat.eqb negb] in E.
  destruct (forEach o1 _ mem) as [s1| |] eqn:E1; cbn [obind] in E; try discriminate.
  set (P := fun s : sylinder N => s_index s = (-1)%Z /\ s_rank s = (-1)%Z /\ s_group s = (-1)%Z /\ immovable s = false).
  assert (F1 : Forall P s1).
  { refine (forEach_all P _ _ o1 mem s1 _ E1).
    - intros i s s' Ei. unfold initObject in Ei. destruct (if a_lt _ _ then _ else _) as [l| |]; cbn [obind] in Ei; try discriminate. injection Ei as <-. repeat split.
    - intros i s Ei. left. apply (Permutation_in i (Permutation_sym HP)). apply in_seq. split; [lia|]. apply nth_error_Some. congruence. }
  destruct (i_circular c); [|injection E as <-; exact F1].
  clear E1. revert s1 F1 E. induction o2 as [|k o IH]; intros s1 F1 E; unfold forEach in E; cbn [ofold] in E; [injection E as <-; exact F1|].
  destruct (mread s1 k) as [s| |] eqn:Er; cbn [obind] in E; try discriminate.
  destruct (mwrite s1 k _) as [s2| |] eqn:Ew; cbn [obind] in E; try discriminate. apply (IH s2); [|exact E].
  apply Forall_forall. intros t Ht. apply In_nth_error in Ht. destruct Ht as (i & Ei). rewrite (proj2 (MixProofs.nth_mwrite _ _ _ _ Ew)) in Ei.
  rewrite Forall_forall in F1. destruct (Nat.eqb_spec i k); [injection Ei as <-|exact (F1 t (nth_error_In _ _ Ei))].
  unfold mread in Er. destruct (nth_error s1 k) as [s0|] eqn:E0; [|discriminate]. injection Er as ->. unfold circleObject. destruct (getRandPointInCircle _ _ _ _ _ _).
  exact (F1 s (nth_error_In _ _ E0)).
Qed.
