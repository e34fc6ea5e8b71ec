(** Proofs about removeParticle and getSampleParticle. *)
From Coq Require Import List Arith ZArith Reals Lia Lra Bool Permutation Sorted.
From Flocq Require Import Core BinarySingleNaN.
From Verif Require Import Outcome ListUtil MPIModel MPIProofs SortModel SortSpec SortProofs
  CommProofs F64 PointsModel PointsProofs ParticleModel ParticleSpec.
Import ListNotations.

Lemma NoDup_map_in {A B} (f : A -> B) l :
  (forall x y, In x l -> In y l -> f x = f y -> x = y) -> NoDup l -> NoDup (map f l).
Proof.
  intros Hi Hn. induction Hn as [|a l Ha Hn IH]; cbn; constructor.
  - intros H. apply in_map_iff in H. destruct H as (b & E & Hb).
    apply Hi in E; [subst; contradiction | now right | now left].
  - apply IH. intros x y Hx Hy. apply Hi; now right.
Qed.

Lemma filter_length {A} (f : A -> bool) l :
  length (filter f l) + length (filter (fun a => negb (f a)) l) = length l.
Proof. induction l as [|a l IH]; cbn; [reflexivity|]. destruct (f a); cbn; lia. Qed.

(** ** swap *)

(** transposition of i and j *)
Definition tau (i j k : nat) : nat := if k =? i then j else if k =? j then i else k.

Lemma tau_invol i j k : tau i j (tau i j k) = k.
Proof.
  unfold tau. destruct (Nat.eqb_spec k i), (Nat.eqb_spec k j); subst;
    repeat match goal with |- context [?a =? ?b] => destruct (Nat.eqb_spec a b) end; lia.
Qed.
Lemma tau_lt i j k n : i < n -> j < n -> k < n -> tau i j k < n.
Proof. unfold tau. intros. destruct (k =? i), (k =? j); lia. Qed.
Lemma tau_inj i j k l : tau i j k = tau i j l -> k = l.
Proof. intros H. rewrite <- (tau_invol i j k), H. apply tau_invol. Qed.

Lemma swap_map {A} (f : nat -> A) n i j : i < n -> j < n ->
  swap (map f (seq 0 n)) i j = Done (map (fun k => f (tau i j k)) (seq 0 n)).
Proof.
  intros Hi Hj. unfold swap. rewrite !mread_map_seq by assumption. cbn [obind].
  rewrite mwrite_map_seq by assumption. cbn [obind].
  rewrite mwrite_map_seq by assumption. f_equal. apply map_ext. intros k. unfold tau.
  destruct (Nat.eqb_spec k i), (Nat.eqb_spec k j); reflexivity.
Qed.

(** ** sorting and unique on Z *)

Lemma unique_in l z : In z (unique l) <-> In z l.
Proof.
  induction l as [|a r IH]; [reflexivity|]. destruct r as [|b r]; [reflexivity|].
  change (unique (a :: b :: r)) with (if Z.eqb a b then unique (b :: r) else a :: unique (b :: r)).
  destruct (Z.eqb_spec a b) as [->|E].
  - rewrite IH. cbn. tauto.
  - cbn [In] in *. rewrite IH. tauto.
Qed.

Lemma unique_sorted l : StronglySorted (fun a b => (b <? a)%Z = false) l ->
  StronglySorted Z.lt (unique l).
Proof.
  induction l as [|a r IH]; intros H; [exact (SSorted_nil _)|]. destruct r as [|b r].
  - change (unique [a]) with [a]. apply SSorted_cons; constructor.
  - change (unique (a :: b :: r)) with (if Z.eqb a b then unique (b :: r) else a :: unique (b :: r)).
    inversion H as [|? ? Hr Ha]; subst. destruct (Z.eqb_spec a b) as [->|E]; [apply IH, Hr|].
    constructor; [apply IH, Hr|]. apply Forall_forall. intros z Hz. apply (proj1 (unique_in _ _)) in Hz.
    rewrite Forall_forall in Ha. pose proof (Ha b (or_introl eq_refl)) as Hb. apply Z.ltb_ge in Hb.
    inversion Hr as [|? ? _ Hbz]; subst. destruct Hz as [<-|Hz]; [lia|].
    rewrite Forall_forall in Hbz. specialize (Hbz z Hz). apply Z.ltb_ge in Hbz. lia.
Qed.

Lemma stable_sort_Z_sorted l : StronglySorted (fun a b => (b <? a)%Z = false) (stable_sort Z.ltb l).
Proof.
  pose proof (stable_sort_sorted (D := unit) Z.ltb Zltb_swo (map (fun z => (z, tt)) l)) as H.
  rewrite <- (stable_sort_map Z.ltb (fun p q => Z.ltb (fst p) (fst q)) (fun z => (z, tt))) in H by reflexivity.
  revert H. generalize (stable_sort Z.ltb l) as s. induction s as [|a s IH]; cbn; intros H; [constructor|].
  inversion H as [|? ? Hs Ha]; subst. constructor; [apply IH, Hs|].
  rewrite Forall_map in Ha. exact Ha.
Qed.

Lemma sorted_unique_index idx :
  let u := unique (stable_sort Z.ltb idx) in
  StronglySorted Z.lt u /\ forall z, In z u <-> In z idx.
Proof.
  cbv zeta. split; [apply unique_sorted, stable_sort_Z_sorted|].
  intros z. rewrite unique_in. split; intros H.
  - apply (Permutation_in z (Permutation_sym (stable_sort_perm Z.ltb idx)) H).
  - apply (Permutation_in z (stable_sort_perm Z.ltb idx) H).
Qed.

(** ** removeParticle *)

Section Remove.
  Context {P : Type} (f : nat -> P) (n : nat).

  (** invariant of the loop: [m] indices were already handled, the last m
      positions hold them; the positions up to the next index are untouched *)
  Lemma remove_loop : forall (todo : list nat) (sigma : nat -> nat) (done : list nat),
    StronglySorted (fun a b => b < a) todo ->
    (forall a, In a todo -> a + length done < n) ->
    (forall k, k < n -> sigma k < n) -> (forall k l, k < n -> l < n -> sigma k = sigma l -> k = l) ->
    (forall k a, In a todo -> k <= a -> sigma k = k) ->
    (forall b, In b done -> exists k, n - length done <= k < n /\ sigma k = b) ->
    exists sigma',
      ofold removeStep (map Z.of_nat todo)
        (map (fun k => f (sigma k)) (seq 0 n), (Z.of_nat n - 1 - Z.of_nat (length done))%Z)
      = Done (map (fun k => f (sigma' k)) (seq 0 n),
              (Z.of_nat n - 1 - Z.of_nat (length done + length todo))%Z) /\
      (forall k, k < n -> sigma' k < n) /\
      (forall k l, k < n -> l < n -> sigma' k = sigma' l -> k = l) /\
      (forall b, In b done \/ In b todo -> exists k, n - (length done + length todo) <= k < n /\ sigma' k = b).
  Proof.
    induction todo as [|a todo IH]; intros sigma done Hs Hb Hr Hinj Hid Htail.
    - exists sigma. cbn [map ofold length]. rewrite Nat.add_0_r.
      split; [reflexivity|]. split; [assumption|]. split; [assumption|].
      intros b [H|[]]. apply Htail, H.
    - inversion Hs as [|? ? Hs' Ha]; subst. rewrite Forall_forall in Ha.
      pose proof (Hb a (or_introl eq_refl)) as Hal.
      set (iloc := n - 1 - length done).
      assert (Eil : (Z.of_nat n - 1 - Z.of_nat (length done))%Z = Z.of_nat iloc) by (unfold iloc; lia).
      assert (Hai : a <= iloc) by (unfold iloc; lia).
      assert (Hin : iloc < n) by (unfold iloc; lia).
      cbn [map ofold]. unfold removeStep at 1. rewrite Eil.
      destruct (Z.leb_spec 0 (Z.of_nat a)), (Z.leb_spec 0 (Z.of_nat iloc)); try lia. cbn [andb].
      rewrite !Nat2Z.id. rewrite (swap_map (fun k => f (sigma k))) by lia. cbn [obind].
      specialize (IH (fun k => sigma (tau a iloc k)) (a :: done) Hs').
      cbn [length] in IH.
      replace (Z.of_nat n - 1 - Z.of_nat (S (length done)))%Z with (Z.of_nat iloc - 1)%Z in IH by lia.
      replace (S (length done) + length todo) with (length done + S (length todo)) in IH by lia.
      destruct IH as (sg & E & R1 & R2 & R3).
      + intros b Hbt. specialize (Ha b Hbt). specialize (Hb b (or_intror Hbt)). lia.
      + intros k Hk. apply Hr. apply tau_lt; lia.
      + intros k l Hk Hl E. apply (tau_inj a iloc). apply Hinj; [apply tau_lt; lia | apply tau_lt; lia | exact E].
      + intros k b Hbt Hkb. specialize (Ha b Hbt). unfold tau.
        destruct (Nat.eqb_spec k a); [lia|]. destruct (Nat.eqb_spec k iloc); [lia|].
        apply (Hid k a); [now left | lia].
      + intros b [<-|Hbd].
        * exists iloc. split; [unfold iloc; lia|]. unfold tau.
          rewrite Nat.eqb_refl. destruct (Nat.eqb_spec iloc a) as [E'|E'].
          -- rewrite E'. apply (Hid a a); [now left | lia].
          -- apply (Hid a a); [now left | lia].
        * destruct (Htail b Hbd) as (k & Hk & Ek). exists k. split; [lia|]. unfold tau.
          destruct (Nat.eqb_spec k a); [unfold iloc in *; lia|].
          destruct (Nat.eqb_spec k iloc); [unfold iloc in *; lia|]. exact Ek.
      + exists sg. cbn [length]. split; [exact E|]. split; [assumption|]. split; [assumption|].
        intros b Hbb. apply R3. cbn [In] in *. tauto.
  Qed.
End Remove.

Lemma StronglySorted_rev_lt (l : list Z) : StronglySorted Z.lt l ->
  StronglySorted (fun a b => (b < a)%Z) (rev l).
Proof.
  induction 1 as [|a l Hl IH Ha]; cbn [rev]; [constructor|].
  apply StronglySorted_app; [assumption | repeat constructor |].
  intros x y Hx [<-|[]]. apply in_rev in Hx. rewrite Forall_forall in Ha. apply Ha, Hx.
Qed.

(** strictly descending naturals below n: element t is below n - t *)
Lemma desc_bound (l : list nat) n : StronglySorted (fun a b => b < a) l ->
  Forall (fun a => a < n) l -> length l <= n.
Proof.
  intros S. revert n. induction S as [|a l Hl IH Ha]; intros n Hn; cbn; [lia|].
  inversion Hn as [|? ? Han Hn']; subst. specialize (IH a).
  assert (length l <= a).
  { apply IH. eapply Forall_impl; [|exact Ha]. cbn. lia. }
  lia.
Qed.

Lemma desc_NoDup (l : list nat) : StronglySorted (fun a b => b < a) l -> NoDup l.
Proof.
  induction 1 as [|a l Hl IH Ha]; constructor; [|assumption].
  intros Hin. rewrite Forall_forall in Ha. specialize (Ha a Hin). lia.
Qed.

Lemma existsb_of_nat i idx : existsb (Z.eqb (Z.of_nat i)) idx = true <-> In (Z.of_nat i) idx.
Proof.
  rewrite existsb_exists. split.
  - intros (z & Hz & E). apply Z.eqb_eq in E. subst z. exact Hz.
  - intros H. exists (Z.of_nat i). split; [exact H | apply Z.eqb_refl].
Qed.

Lemma survivors_map {P} (f : nat -> P) n idx :
  survivors (map f (seq 0 n)) idx
  = map f (filter (fun i => negb (existsb (Z.eqb (Z.of_nat i)) idx)) (seq 0 n)).
Proof.
  unfold survivors. rewrite map_length, seq_length.
  generalize (seq 0 n) as l. induction l as [|a l IH]; [reflexivity|].
  cbn [map combine filter fst]. destruct (negb _); cbn [map snd]; rewrite IH; reflexivity.
Qed.

Lemma nodup_length_unique idx u : StronglySorted Z.lt u -> (forall z, In z u <-> In z idx) ->
  length (nodup Z.eq_dec idx) = length u.
Proof.
  intros Hs Hin.
  assert (ND : NoDup u).
  { clear Hin. induction Hs as [|a l Hl IH Ha]; constructor; [|assumption].
    intros H. rewrite Forall_forall in Ha. specialize (Ha a H). lia. }
  apply Nat.le_antisymm; apply NoDup_incl_length.
  - apply NoDup_nodup.
  - intros z Hz. apply nodup_In in Hz. apply Hin, Hz.
  - exact ND.
  - intros z Hz. apply nodup_In. apply Hin, Hz.
Qed.

Lemma removeParticle_spec {P} (ptcl : list P) (idx : list Z) :
  Forall (fun z => (0 <= z < Z.of_nat (length ptcl))%Z) idx ->
  exists out, removeParticle ptcl idx = Done out /\
    Permutation out (survivors ptcl idx) /\
    length out + length (nodup Z.eq_dec idx) = length ptcl.
Proof.
  intros HI. destruct ptcl as [|p0 ptcl0] eqn:EP.
  { destruct idx as [|z idx]; [|inversion HI as [|? ? Hz]; cbn in Hz; lia].
    exists []. split; [reflexivity|]. split; [constructor | reflexivity]. }
  rewrite <- EP in *. clear EP ptcl0.
  set (n := length ptcl) in *. set (f := fun i => nth i ptcl p0).
  assert (EF : ptcl = map f (seq 0 n)) by apply map_seq_nth.
  unfold removeParticle.
  destruct (sorted_unique_index idx) as (Us & Ui). set (u := unique (stable_sort Z.ltb idx)) in *.
  set (todo := map Z.to_nat (rev u)).
  assert (Hu : forall z, In z u -> (0 <= z < Z.of_nat n)%Z).
  { intros z Hz. apply Ui in Hz. rewrite Forall_forall in HI. apply HI, Hz. }
  assert (ET : rev u = map Z.of_nat todo).
  { unfold todo. rewrite map_map. symmetry. rewrite <- (map_id (rev u)) at 2.
    apply map_ext_in. intros z Hz. apply in_rev in Hz. apply Z2Nat.id. apply Hu in Hz. lia. }
  assert (Ts : StronglySorted (fun a b => b < a) todo).
  { pose proof (StronglySorted_rev_lt u Us) as S. unfold todo.
    assert (G : forall l, (forall z, In z l -> (0 <= z)%Z) -> StronglySorted (fun a b => (b < a)%Z) l ->
              StronglySorted (fun a b => b < a) (map Z.to_nat l)).
    { intros l Hl Sl. induction Sl as [|a l Sl IH Ha]; cbn; constructor.
      - apply IH. intros z Hz. apply Hl. now right.
      - rewrite Forall_map. apply Forall_forall. intros z Hz. rewrite Forall_forall in Ha.
        pose proof (Ha z Hz). pose proof (Hl z (or_intror Hz)). lia. }
    apply G; [|exact S]. intros z Hz. apply in_rev in Hz. apply Hu in Hz. lia. }
  assert (Tn : forall a, In a todo -> a < n).
  { intros a Ha. unfold todo in Ha. apply in_map_iff in Ha. destruct Ha as (z & <- & Hz).
    apply in_rev in Hz. apply Hu in Hz. lia. }
  assert (Tl : length todo <= n) by (apply desc_bound; [assumption | apply Forall_forall, Tn]).
  assert (TL : length todo = length (nodup Z.eq_dec idx)).
  { unfold todo. rewrite map_length, rev_length. symmetry. apply nodup_length_unique; assumption. }
  destruct (remove_loop f n todo (fun k => k) []) as (sg & E & R1 & R2 & R3); cbn [length]; auto.
  { intros a Ha. specialize (Tn a Ha). lia. }
  { intros b []. }
  cbn [length Nat.add] in E. rewrite Z.sub_0_r in E. change (fun k : nat => f k) with f in E.
  rewrite ET.
  assert (Ei : (ptcl, (Z.of_nat n - 1)%Z) = (map f (seq 0 n), (Z.of_nat n - 1)%Z)) by (rewrite <- EF; reflexivity).
  fold n. rewrite Ei, E. cbn [obind].
  eexists. split; [reflexivity|].
  replace (Z.to_nat (Z.of_nat n - 1 - Z.of_nat (length todo) + 1)) with (n - length todo) by lia.
  rewrite firstn_map.
  assert (FS : firstn (n - length todo) (seq 0 n) = seq 0 (n - length todo)).
  { replace (seq 0 n) with (seq 0 (n - length todo) ++ seq (n - length todo) (length todo)).
    - rewrite firstn_app, seq_length, Nat.sub_diag. cbn [firstn]. rewrite app_nil_r.
      apply firstn_all2. rewrite seq_length. lia.
    - change (n - length todo) with (0 + (n - length todo)) at 2. rewrite <- seq_app. f_equal. lia. }
  rewrite FS. split.
  - replace (survivors ptcl idx) with (survivors (map f (seq 0 n)) idx) by (rewrite <- EF; reflexivity).
    rewrite survivors_map.
    rewrite <- (map_map sg f). apply Permutation_map.
    apply NoDup_Permutation_bis.
    + apply NoDup_map_in; [|apply seq_NoDup].
      intros k l Hk Hl. apply in_seq in Hk, Hl. apply R2; lia.
    + rewrite map_length, seq_length.
      pose proof (filter_length (fun i => existsb (Z.eqb (Z.of_nat i)) idx) (seq 0 n)) as FL.
      rewrite seq_length in FL.
      assert (length todo <= length (filter (fun i => existsb (Z.eqb (Z.of_nat i)) idx) (seq 0 n))).
      { apply NoDup_incl_length; [apply desc_NoDup, Ts|]. intros a Ha. apply filter_In. split.
        - apply in_seq. specialize (Tn a Ha). lia.
        - apply existsb_of_nat. apply Ui. rewrite in_rev, ET. apply in_map, Ha. }
      lia.
    + intros x Hx. apply in_map_iff in Hx. destruct Hx as (k & <- & Hk). apply in_seq in Hk.
      apply filter_In. split; [apply in_seq; specialize (R1 k ltac:(lia)); lia|].
      apply negb_true_iff. destruct (existsb _ idx) eqn:Ex; [exfalso|reflexivity].
      apply existsb_of_nat in Ex. apply Ui in Ex. rewrite in_rev, ET in Ex.
      apply in_map_iff in Ex. destruct Ex as (a & Ea & Ha). apply Nat2Z.inj in Ea. subst a.
      destruct (R3 (sg k) (or_intror Ha)) as (k' & Hk' & Ek').
      cbn [length Nat.add] in Hk'. assert (k' = k) by (apply R2; [lia | lia | exact Ek']). lia.
  - rewrite map_length, seq_length, <- TL. lia.
Qed.

(** ** getSampleParticle *)

(** the scaled draw stays in range in double precision *)
Lemma scaled_draw_lt n k : (0 < n <= 2 ^ 31)%Z -> (0 <= k < 2 ^ 53)%Z ->
  (0 <= rnd64 (IZR n * (IZR k * bpow radix2 (-53))) < IZR n)%R.
Proof.
  intros Hn Hk.
  assert (Hn0 : (0 < IZR n)%R) by (apply (IZR_lt 0); lia).
  assert (Hk0 : (0 <= IZR k)%R) by (apply (IZR_le 0); lia).
  assert (B53 : (0 < bpow radix2 (-53))%R) by apply bpow_gt_0.
  set (x := (IZR n * (IZR k * bpow radix2 (-53)))%R).
  assert (Hx0 : (0 <= x)%R) by (unfold x; apply Rmult_le_pos; [lra | apply Rmult_le_pos; lra]).
  split.
  { rewrite <- (rnd64_int 0) by lia. apply rnd64_mono. exact Hx0. }
  assert (Fn : generic_format radix2 fexp64 (IZR n)) by (apply int_format; lia).
  assert (XU : (x <= IZR n - IZR n * bpow radix2 (-53))%R).
  { unfold x. replace (IZR n - IZR n * bpow radix2 (-53))%R
      with (IZR n * ((IZR (2 ^ 53) - 1) * bpow radix2 (-53)))%R.
    - apply Rmult_le_compat_l; [lra|]. apply Rmult_le_compat_r; [lra|].
      rewrite <- minus_IZR. apply IZR_le. lia.
    - change (IZR (2 ^ 53)) with (bpow radix2 53).
      replace ((bpow radix2 53 - 1) * bpow radix2 (-53))%R with (bpow radix2 53 * bpow radix2 (-53) - bpow radix2 (-53))%R by ring.
      rewrite <- bpow_plus. change (bpow radix2 (53 + -53)) with 1%R. ring. }
  (* the predecessor of n *)
  set (p := pred radix2 fexp64 (IZR n)).
  assert (Hp : (IZR n - p < IZR n * bpow radix2 (-52))%R /\ (p < IZR n)%R).
  { split; [|apply pred_lt_id; lra].
    unfold p. rewrite pred_eq_pos by lra. unfold pred_pos.
    destruct (Req_bool_spec (IZR n) (bpow radix2 (mag radix2 (IZR n) - 1))) as [E|E].
    - ring_simplify. 
      assert (M : (mag radix2 (IZR n) : Z) = (mag_val radix2 (IZR n) (mag radix2 (IZR n)))) by reflexivity.
      set (e := (mag radix2 (IZR n) : Z)) in *.
      assert (He : (1 <= e <= 40)%Z).
      { split.
        - unfold e. apply mag_ge_bpow. rewrite Rabs_pos_eq by lra. apply (IZR_le 1). lia.
        - unfold e. apply mag_le_bpow; [lra|]. rewrite Rabs_pos_eq by lra.
          apply Rle_lt_trans with (IZR (2 ^ 31)); [apply IZR_le; lia|].
          change (IZR (2 ^ 31)) with (bpow radix2 31). apply bpow_lt. lia. }
      replace (fexp64 (e - 1)) with (e - 1 - 53)%Z.
      2:{ rewrite fexp64_FLT. unfold FLT_exp, emax64, prec64. lia. }
      rewrite E at 1. rewrite <- bpow_plus. apply bpow_lt. lia.
    - ring_simplify.
      rewrite ulp_neq_0 by lra. unfold cexp.
      set (e := (mag radix2 (IZR n) : Z)) in *.
      assert (He : (1 <= e <= 40)%Z).
      { split.
        - unfold e. apply mag_ge_bpow. rewrite Rabs_pos_eq by lra. apply (IZR_le 1). lia.
        - unfold e. apply mag_le_bpow; [lra|]. rewrite Rabs_pos_eq by lra.
          apply Rle_lt_trans with (IZR (2 ^ 31)); [apply IZR_le; lia|].
          change (IZR (2 ^ 31)) with (bpow radix2 31). apply bpow_lt. lia. }
      replace (fexp64 e) with (e - 1 + -52)%Z.
      2:{ rewrite fexp64_FLT. unfold FLT_exp, emax64, prec64. lia. }
      rewrite bpow_plus. apply Rmult_lt_compat_r; [apply bpow_gt_0|].
      pose proof (bpow_mag_le radix2 (IZR n) ltac:(lra)) as H1. fold e in H1.
      rewrite Rabs_pos_eq in H1 by lra. lra. }
  destruct Hp as [Hp Hpn].
  assert (Fp : generic_format radix2 fexp64 p) by (apply generic_format_pred; [typeclasses eauto | exact Fn]).
  assert (SP : succ radix2 fexp64 p = IZR n) by (apply succ_pred; [typeclasses eauto | exact Fn]).
  apply Rle_lt_trans with p; [|exact Hpn].
  apply round_N_le_midp; [typeclasses eauto | exact Fp |].
  rewrite SP.
  assert (B52 : bpow radix2 (-52) = (2 * bpow radix2 (-53))%R).
  { change (-52)%Z with (1 + -53)%Z. rewrite bpow_plus. reflexivity. }
  rewrite B52 in Hp. lra.
Qed.

Lemma f_lit_res53 k : (0 <= k < 2 ^ 53)%Z ->
  B2R (f_lit k (-53)) = (IZR k * bpow radix2 (-53))%R /\ is_finite (f_lit k (-53)) = true.
Proof.
  intros Hk. pose proof (binary_normalize_correct prec64 emax64 _ _ mode_NE k (-53) false) as H.
  cbv zeta in H. unfold F2R in H. cbn [Fnum Fexp] in H.
  assert (G : generic_format radix2 fexp64 (IZR k * bpow radix2 (-53))).
  { apply generic_format_FLT. apply (FLT_spec radix2 (3 - emax64 - prec64) prec64 _ (Float radix2 k (-53))).
    - reflexivity.
    - cbn [Fnum]. change (Zpower radix2 prec64) with (2 ^ 53)%Z. lia.
    - cbn. vm_compute. discriminate. }
  rewrite round_generic in H by (try exact G; apply valid_rnd_N).
  rewrite Rlt_bool_true in H.
  - destruct H as (A & B & _). split; assumption.
  - rewrite Rabs_mult, (Rabs_pos_eq (bpow radix2 (-53))) by apply bpow_ge_0.
    apply Rle_lt_trans with (Rabs (IZR k) * 1)%R.
    + apply Rmult_le_compat_l; [apply Rabs_pos|]. change 1%R with (bpow radix2 0). apply bpow_le. lia.
    + rewrite Rmult_1_r. apply bpow_emax_big. lia.
Qed.

Lemma uniformDraw_range i last k :
  (0 <= i <= last)%Z -> (last < INT_MAX)%Z -> (0 <= k < 2 ^ 53)%Z ->
  exists j, uniformDraw i last k = Done j /\ (i <= j <= last)%Z.
Proof.
  intros Hi Hl Hk. unfold INT_MAX in Hl. unfold uniformDraw.
  rewrite as_int_ok by (unfold INT_MIN, INT_MAX; lia). cbn [obind].
  set (n := (last - i + 1)%Z).
  destruct (f_ofZ_exact n) as (N1 & N2); [lia|].
  destruct (f_lit_res53 k Hk) as (K1 & K2).
  pose proof (scaled_draw_lt n k ltac:(lia) Hk) as [S1 S2].
  destruct (fmul_R (f_ofZ n) (f_lit k (-53)) N2 K2) as (M1 & M2).
  { rewrite N1, K1. rewrite Rabs_pos_eq by lra. apply Rlt_trans with (IZR n); [exact S2|].
    pose proof (bpow_emax_big n ltac:(lia)) as B. rewrite Rabs_pos_eq in B; [exact B|].
    apply (IZR_le 0). lia. }
  unfold double_to_int, f_finite. rewrite M2, f_trunc_R, M1, N1, K1.
  set (y := rnd64 (IZR n * (IZR k * bpow radix2 (-53)))) in *.
  assert (T : (0 <= Ztrunc y < n)%Z).
  { rewrite Ztrunc_floor by lra. split.
    - rewrite <- (Zfloor_IZR 0). apply Zfloor_le. exact S1.
    - apply lt_IZR. apply Rle_lt_trans with y; [apply Zfloor_lb | exact S2]. }
  rewrite as_int_ok by (unfold INT_MIN, INT_MAX; lia). cbn [obind].
  rewrite as_int_ok by (unfold INT_MIN, INT_MAX; lia).
  eexists. split; [reflexivity|]. lia.
Qed.

Section Sample.
  Context {P Pos : Type} (getPos : P -> Pos) (f : nat -> P) (n : nat).

  (** composition of the transpositions of a list of (i, j) *)
  Fixpoint shuffle (sw : list (nat * nat)) : nat -> nat :=
    match sw with
    | [] => fun k => k
    | (i, j) :: r => fun k => tau i j (shuffle r k)
    end.

  Lemma sample_loop : forall (draws : list Z) (i0 : nat) (g : nat -> P) (rec0 : list nat) m,
    m <= length draws -> i0 + m <= n -> (Z.of_nat n <= INT_MAX)%Z ->
    Forall (fun k => (0 <= k < 2 ^ 53)%Z) draws ->
    exists js, length js = m /\ Forall (fun j => j < n) js /\
      ofold (sampleStep n) (combine (seq i0 m) draws) (map g (seq 0 n), rec0)
      = Done (map (fun k => g (shuffle (combine (seq i0 m) js) k)) (seq 0 n), rec0 ++ js).
  Proof.
    induction draws as [|k draws IH]; intros i0 g rec0 m Hm Hi Hn HD.
    - cbn in Hm. replace m with 0 by lia. exists []. split; [reflexivity|]. split; [constructor|].
      cbn. rewrite app_nil_r. reflexivity.
    - destruct m as [|m].
      { exists []. split; [reflexivity|]. split; [constructor|]. cbn. rewrite app_nil_r. reflexivity. }
      inversion HD as [|? ? Hk HD']; subst.
      destruct (uniformDraw_range (Z.of_nat i0) (Z.of_nat n - 1) k) as (j & Ej & Hj); [lia|lia|exact Hk|].
      cbn [seq combine ofold]. unfold sampleStep at 1. rewrite Ej. cbn [obind].
      destruct (Z.ltb_spec j 0); [lia|].
      rewrite swap_map by lia. cbn [obind].
      destruct (IH (S i0) (fun k => g (tau i0 (Z.to_nat j) k)) (rec0 ++ [Z.to_nat j]) m) as (js & L & F & E);
        [cbn in Hm; lia | lia | assumption | assumption |].
      exists (Z.to_nat j :: js). split; [cbn; lia|]. split; [constructor; [lia|assumption]|].
      rewrite E. f_equal. f_equal. rewrite <- app_assoc. reflexivity.
  Qed.

  Lemma shuffle_app a b k : shuffle (a ++ b) k = shuffle a (shuffle b k).
  Proof. induction a as [|[i j] a IH]; cbn; [reflexivity|]. rewrite IH. reflexivity. Qed.

  Lemma shuffle_rev sw k : shuffle sw (shuffle (rev sw) k) = k.
  Proof.
    revert k. induction sw as [|[i j] sw IH]; intros k; cbn [rev]; [reflexivity|].
    rewrite shuffle_app. cbn [shuffle]. rewrite IH. apply tau_invol.
  Qed.

  Lemma shuffle_lt sw k : Forall (fun ij => fst ij < n /\ snd ij < n) sw -> k < n -> shuffle sw k < n.
  Proof.
    intros H Hk. induction H as [|[i j] sw [Hi Hj] H IH]; cbn in *; [assumption|]. apply tau_lt; assumption.
  Qed.

  Lemma shuffle_inj sw k l : shuffle sw k = shuffle sw l -> k = l.
  Proof.
    revert k l. induction sw as [|[i j] sw IH]; cbn; intros k l H; [assumption|].
    apply IH. apply (tau_inj i j), H.
  Qed.

  Lemma combine_seq_app (i0 m : nat) (js : list nat) : length js = m ->
    forall j, combine (seq i0 (S m)) (js ++ [j]) = combine (seq i0 m) js ++ [(i0 + m, j)].
  Proof.
    revert i0 m. induction js as [|x js IH]; intros i0 m H j; cbn in H; subst m.
    - cbn. rewrite Nat.add_0_r. reflexivity.
    - change (seq i0 (S (S (length js)))) with (i0 :: seq (S i0) (S (length js))).
      cbn [app combine]. rewrite (IH (S i0) (length js) eq_refl).
      change (seq i0 (S (length js))) with (i0 :: seq (S i0) (length js)). cbn [combine app].
      rewrite Nat.add_succ_r. reflexivity.
  Qed.

  Lemma undo_loop (js : list nat) (g : nat -> P) : forall rest,
    Forall (fun j => j < n) js -> length js <= n ->
    ofold (undoStep (js ++ rest)) (rev (seq 0 (length js))) (map g (seq 0 n))
    = Done (map (fun k => g (shuffle (rev (combine (seq 0 (length js)) js)) k)) (seq 0 n)).
  Proof.
    revert g. induction js as [|j js IH] using rev_ind; intros g rest HF HL.
    - reflexivity.
    - rewrite app_length in *. cbn [length] in *. rewrite Nat.add_1_r in *.
      apply Forall_app in HF. destruct HF as [HF Hj]. inversion Hj; subst.
      rewrite (combine_seq_app 0 (length js) js eq_refl), rev_app_distr.
      rewrite seq_S, rev_app_distr. cbn [rev app ofold]. cbn [Nat.add].
      unfold undoStep at 1.
      assert (R : mread ((js ++ [j]) ++ rest) (length js) = Done j).
      { unfold mread. rewrite <- app_assoc, nth_error_app2, Nat.sub_diag by lia. reflexivity. }
      rewrite R. cbn [obind]. rewrite swap_map by lia. cbn [obind].
      rewrite <- app_assoc. rewrite IH by (assumption || lia). reflexivity.
  Qed.

  Lemma getSample_spec (wanted : Z) (draws : list Z) :
    (0 <= wanted)%Z -> (Z.of_nat n <= INT_MAX)%Z ->
    Forall (fun k => (0 <= k < 2 ^ 53)%Z) draws ->
    Nat.min (Z.to_nat wanted) n <= length draws ->
    exists idx, length idx = Nat.min (Z.to_nat wanted) n /\ NoDup idx /\ Forall (fun i => i < n) idx /\
      getSampleParticle getPos (map f (seq 0 n)) wanted draws
      = Done (map (fun i => getPos (f i)) idx, map f (seq 0 n)).
  Proof.
    intros Hw Hn HD HL. unfold getSampleParticle. rewrite map_length, seq_length.
    set (m := Nat.min (Z.to_nat wanted) n) in *.
    assert (Em : Z.to_nat (if (wanted <? Z.of_nat n)%Z then wanted else Z.of_nat n) = m).
    { destruct (Z.ltb_spec wanted (Z.of_nat n)); unfold m; lia. }
    rewrite Em.
    destruct (Z.ltb_spec (if (wanted <? Z.of_nat n)%Z then wanted else Z.of_nat n) 0) as [L|_].
    { destruct (Z.ltb_spec wanted (Z.of_nat n)); lia. }
    destruct (Nat.ltb_spec (length draws) m) as [L|_]; [lia|].
    destruct (sample_loop draws 0 f [] m) as (js & Lj & Fj & E); [lia|unfold m; lia|assumption|assumption|].
    rewrite E. cbn [obind app].
    set (sw := combine (seq 0 m) js).
    assert (Fsw : Forall (fun ij => fst ij < n /\ snd ij < n) sw).
    { apply Forall_forall. intros [i j] Hij. cbn. split.
      - apply in_combine_l, in_seq in Hij. unfold m in *. lia.
      - apply in_combine_r in Hij. rewrite Forall_forall in Fj. apply Fj, Hij. }
    exists (map (shuffle sw) (seq 0 m)). split; [now rewrite map_length, seq_length|]. split.
    { apply NoDup_map_in; [|apply seq_NoDup]. intros k l _ _. apply shuffle_inj. }
    split.
    { apply Forall_map, Forall_forall. intros k Hk. apply in_seq in Hk. apply shuffle_lt; [assumption|].
      unfold m in Hk. lia. }
    rewrite (omap_pure _ (fun i => getPos (f (shuffle sw i)))).
    2:{ intros i Hi. apply in_seq in Hi. rewrite mread_map_seq by (unfold m in *; lia). reflexivity. }
    cbn [obind].
    pose proof (undo_loop js (fun k => f (shuffle sw k)) [] Fj) as U.
    rewrite Lj, app_nil_r in U. rewrite U by (unfold m; lia). cbn [obind].
    rewrite map_map. f_equal. f_equal. apply map_ext. intros k. fold sw. rewrite shuffle_rev. reflexivity.
  Qed.
End Sample.

Lemma getSample_list {P Pos} (getPos : P -> Pos) (ptcl : list P) (wanted : Z) (draws : list Z) :
  (0 <= wanted)%Z -> (Z.of_nat (length ptcl) <= INT_MAX)%Z ->
  Forall (fun k => (0 <= k < 2 ^ 53)%Z) draws ->
  Nat.min (Z.to_nat wanted) (length ptcl) <= length draws ->
  exists idx samples, getSampleParticle getPos ptcl wanted draws = Done (samples, ptcl) /\
    length samples = Nat.min (Z.to_nat wanted) (length ptcl) /\ NoDup idx /\
    Forall2 (fun i s => exists p, nth_error ptcl i = Some p /\ s = getPos p) idx samples.
Proof.
  intros Hw Hn HD HL. destruct ptcl as [|p0 ptcl0] eqn:EP.
  - exists [], []. unfold getSampleParticle. cbn [length Z.of_nat].
    destruct (Z.ltb_spec wanted 0); [lia|]. cbn. repeat split; try constructor. lia.
  - rewrite <- EP in *. clear EP ptcl0.
    destruct (getSample_spec getPos (fun i => nth i ptcl p0) (length ptcl) wanted draws Hw Hn HD HL)
      as (idx & Li & ND & FI & E).
    rewrite <- map_seq_nth in E.
    exists idx, (map (fun i => getPos (nth i ptcl p0)) idx). split; [exact E|].
    split; [rewrite map_length; exact Li|]. split; [exact ND|].
    clear - FI. induction FI as [|i idx Hi FI IH]; cbn [map]; constructor; [|exact IH].
    exists (nth i ptcl p0). split; [apply nth_error_nth'; exact Hi | reflexivity].
Qed.
