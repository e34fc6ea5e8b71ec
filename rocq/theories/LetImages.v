(** Periodic images of LetModel over the reals. *)
From Coq Require Import List Arith ZArith Lia Bool Permutation Reals Lra Psatz.
From Flocq Require Import Core.
From Verif Require Import Outcome ListUtil Arith ParticleModel VecModel TreeModel TreeSpec TreeLink TreeSearch LetModel LetSpec LetWalk.
Import ListNotations.
Local Open Scope Z_scope.

Lemma nodup_app {A} (l l' : list A) : NoDup l -> NoDup l' -> (forall x, In x l -> ~ In x l') -> NoDup (l ++ l').
Proof.
  intros H. induction H as [|x l Hx Hl IH]; intros H' D; [assumption|]. cbn. constructor.
  - rewrite in_app_iff. intros [X|X]; [contradiction|]. apply (D x); [now left|assumption].
  - apply IH; [assumption|]. intros y Hy. apply D. now right.
Qed.
Lemma nodup_flat {A B} (f : A -> list B) (pr : B -> A) l : NoDup l -> (forall x, In x l -> NoDup (f x)) -> (forall x y, In y (f x) -> pr y = x) -> NoDup (flat_map f l).
Proof.
  intros H Hf Hp. induction H as [|x l Hx Hl IH]; [constructor|]. cbn [flat_map]. apply nodup_app; [apply Hf; now left|apply IH; intros; apply Hf; now right|].
  intros y Hy Hy'. apply in_flat_map in Hy'. destruct Hy' as (z & Hz & Hy'). apply Hp in Hy, Hy'. congruence.
Qed.
Lemma find_unique {A} (f : A -> bool) l a : In a l -> f a = true -> (forall b, In b l -> f b = true -> b = a) -> find f l = Some a.
Proof.
  intros Ha Fa U. induction l as [|x l IH]; [destruct Ha|]. cbn. destruct (f x) eqn:E; [f_equal; apply U; [now left|assumption]|].
  apply IH; [destruct Ha; [subst; congruence|assumption]|]. intros b Hb. apply U. now right.
Qed.
Lemma find_none {A} (f : A -> bool) l : (forall b, In b l -> f b = false) -> find f l = None.
Proof. intros U. induction l as [|x l IH]; [reflexivity|]. cbn. rewrite U by now left. apply IH. intros b Hb. apply U. now right. Qed.
Lemma vec_eq {T} (u v : vec T) : vx u = vx v -> vy u = vy v -> vz u = vz v -> u = v.
Proof. destruct u, v. cbn. intros -> -> ->. reflexivity. Qed.

Definition norm (k : vec Z) : Z := Z.max (Z.abs (vx k)) (Z.max (Z.abs (vy k)) (Z.abs (vz k))).

Lemma levelIds_in pa lev k : 1 <= lev -> In k (levelIds pa lev) <-> lattice pa k /\ norm k = lev.
Proof.
  intros Hl. unfold levelIds, lattice, norm. rewrite in_flat_map. setoid_rewrite in_flat_map. setoid_rewrite in_flat_map. setoid_rewrite zrange_in.
  split.
  - intros (x & Hx & y & Hy & z & Hz & Hin).
    destruct (vx pa), (vy pa), (vz pa); cbn [negb orb andb] in Hin; rewrite ?orb_false_r, ?orb_true_r in Hin; cbn [andb] in Hin; rewrite ?andb_true_r in Hin;
    repeat match type of Hin with context [Z.abs ?a =? ?b] => destruct (Z.eqb_spec (Z.abs a) b) end; cbn [negb andb In] in Hin; try tauto; destruct Hin as [<-|[]]; cbn [vx vy vz]; (split; [repeat split; intros; try discriminate; lia|lia]).
  - intros ((Lx & Ly & Lz) & Hn). exists (vx k). split; [destruct (vx pa); [lia|rewrite Lx by reflexivity; lia]|]. exists (vy k). split; [destruct (vy pa); [lia|rewrite Ly by reflexivity; lia]|]. exists (vz k). split; [destruct (vz pa); [lia|rewrite Lz by reflexivity; lia]|].
    assert (E : In k [Vec (vx k) (vy k) (vz k)]) by (left; destruct k; reflexivity).
    match goal with |- In k (if ?b then _ else _) => destruct b eqn:Eb; [|exact E] end. exfalso.
    apply andb_true_iff in Eb. destruct Eb as (Eb & Ez). apply andb_true_iff in Eb. destruct Eb as (Ex & Ey).
    destruct (vx pa), (vy pa), (vz pa); cbn [negb orb] in *; rewrite ?orb_false_r in *; repeat match goal with H : negb (?a =? ?b) = true |- _ => apply negb_true_iff, Z.eqb_neq in H end;
    try specialize (Lx eq_refl); try specialize (Ly eq_refl); try specialize (Lz eq_refl); lia.
Qed.
Lemma levelIds_nodup pa lev : NoDup (levelIds pa lev).
Proof.
  unfold levelIds. apply (nodup_flat _ vx); [apply zrange_nodup| |].
  - intros x _. apply (nodup_flat _ vy); [apply zrange_nodup| |].
    + intros y _. apply (nodup_flat _ vz); [apply zrange_nodup| |].
      * intros z _. match goal with |- NoDup (if ?b then _ else _) => destruct b end; repeat constructor; intros [].
      * intros z v Hv. match type of Hv with In _ (if ?b then _ else _) => destruct b end; [destruct Hv|]. destruct Hv as [<-|[]]. reflexivity.
    + intros y v Hv. apply in_flat_map in Hv. destruct Hv as (z & _ & Hv). match type of Hv with In _ (if ?b then _ else _) => destruct b end; [destruct Hv|]. destruct Hv as [<-|[]]. reflexivity.
  - intros x v Hv. apply in_flat_map in Hv. destruct Hv as (y & _ & Hv). apply in_flat_map in Hv. destruct Hv as (z & _ & Hv). match type of Hv with In _ (if ?b then _ else _) => destruct b end; [destruct Hv|]. destruct Hv as [<-|[]]. reflexivity.
Qed.

(** the images from level lev to level last *)
Definition shells (pa : vec bool) (lev last : Z) : list (vec Z) := flat_map (levelIds pa) (zrange lev (last + 1)).
Lemma shells_in pa lev last k : 1 <= lev -> In k (shells pa lev last) <-> lattice pa k /\ lev <= norm k <= last.
Proof.
  intros Hl. unfold shells. rewrite in_flat_map. split.
  - intros (l & Hx & Hk). apply zrange_in in Hx. apply levelIds_in in Hk; [|lia]. destruct Hk as (? & <-). split; [assumption|lia].
  - intros (Hk & Hn). exists (norm k). split; [apply zrange_in; lia|]. apply levelIds_in; [lia|auto].
Qed.
Lemma shells_nodup pa lev last : 1 <= lev -> NoDup (shells pa lev last).
Proof.
  intros Hl. unfold shells. assert (H : forall l, NoDup l -> (forall x, In x l -> 1 <= x) -> NoDup (flat_map (levelIds pa) l)).
  { intros l H. induction H as [|x l Hx Hn IH]; intros Hp; [constructor|]. cbn [flat_map]. apply nodup_app; [apply levelIds_nodup|apply IH; intros; apply Hp; now right|].
    intros y Hy Hy'. apply in_flat_map in Hy'. destruct Hy' as (z & Hz & Hy'). apply levelIds_in in Hy; [|apply Hp; now left]. apply levelIds_in in Hy'; [|apply Hp; now right]. destruct Hy as (_ & E), Hy' as (_ & E'). rewrite E in E'. congruence. }
  apply H; [apply zrange_nodup|]. intros x Hx. apply zrange_in in Hx. lia.
Qed.

(** the loop over the levels, for images that are hit level by level *)
Section Levels.
  Context {N : arith} (pa : vec bool) (size : vec N) (my target : ort N) (last : Z).
  Let hit (k : vec Z) : bool := overlapsBox my (shiftBox target (imageShift size k)).
  Hypothesis Hgap : forall lev, 1 <= lev -> (forall k, lattice pa k -> norm k = lev -> hit k = false) -> forall k, lattice pa k -> lev <= norm k -> hit k = false.
  Hypothesis Hlast : forall k, lattice pa k -> hit k = true -> norm k <= last.

  Lemma filter_map_shift ids : filter (fun v => overlapsBox my (shiftBox target v)) (map (imageShift size) ids) = map (imageShift size) (filter hit ids).
  Proof using. induction ids as [|k ids IH]; [reflexivity|]. cbn [map filter]. unfold hit at 1. destruct (overlapsBox my (shiftBox target (imageShift size k))); cbn [map]; rewrite IH; reflexivity. Qed.
  Lemma filter_empty (l : list (vec Z)) : (forall k, In k l -> hit k = false) -> filter hit l = [].
  Proof using. intros H. induction l as [|x l IH]; [reflexivity|]. cbn. rewrite H by now left. apply IH. intros k Hk. apply H. now right. Qed.

  Lemma imageLevels_ok fuel : forall lev acc, 1 <= lev -> (Z.to_nat (last + 1 - lev) < fuel)%nat ->
    imageLevels fuel pa size my target lev acc = Done (acc ++ map (imageShift size) (filter hit (shells pa lev last))).
  Proof using Hgap Hlast.
    induction fuel as [|fuel IH]; intros lev acc Hl Hf; [lia|]. cbn [imageLevels]. rewrite filter_map_shift.
    destruct (filter hit (levelIds pa lev)) as [|k ks] eqn:E; cbn [map].
    - rewrite filter_empty; [rewrite app_nil_r; reflexivity|]. intros k Hk. apply shells_in in Hk; [|assumption]. destruct Hk as (K1 & K2). apply (Hgap lev); try assumption; [|lia].
      intros k' K1' K2'. destruct (hit k') eqn:Eh; [|reflexivity]. assert (In k' (filter hit (levelIds pa lev))) by (apply filter_In; split; [apply levelIds_in; auto|assumption]). rewrite E in H. destruct H.
    - assert (Hk : In k (filter hit (levelIds pa lev))) by (rewrite E; now left). apply filter_In in Hk. destruct Hk as (Hk & Hh). apply levelIds_in in Hk; [|assumption]. destruct Hk as (K1 & K2). assert (K3 := Hlast k K1 Hh).
      rewrite IH by lia. rewrite <- app_assoc. do 2 f_equal. unfold shells at 2. rewrite (zrange_cons lev) by lia. cbn [flat_map]. rewrite filter_app, E, map_app. reflexivity.
  Qed.
End Levels.

(** ** Reals *)
Local Open Scope R_scope.

Lemma overlaps_meets (root my target : ort R) k : @overlapsBox R_arith my (@shiftBox R_arith target (@imageShift R_arith (@fullLength R_arith root) k)) = true <-> meets root my target k.
Proof.
  rewrite (overlapsBox_iff all_ok (fun x => x) reals_ordered) by (intros c _; split; exact I). unfold meets.
  split.
  - intros H c i [E|[E|[E|[]]]]; injection E as <- <-; [apply (H vx)|apply (H vy)|apply (H vz)]; cbn; auto.
  - intros H c [<-|[<-|[<-|[]]]]; [apply (H vx (vx k))|apply (H vy (vy k))|apply (H vz (vz k))]; cbn; auto.
Qed.

Lemma axis_bound L a b c d : 0 < L -> exists M, (0 <= M)%Z /\ forall k : Z, a <= d + IZR k * L -> c + IZR k * L <= b -> (Z.abs k <= M)%Z.
Proof.
  intros HL. set (u := up ((b - c) / L)). set (v := up ((d - a) / L)). exists (Z.max (Z.abs u) (Z.abs v)). split; [lia|].
  destruct (archimed ((b - c) / L)) as (U & _). destruct (archimed ((d - a) / L)) as (V & _). fold u in U. fold v in V. intros k H1 H2.
  assert (IZR k < IZR u). { apply Rle_lt_trans with ((b - c) / L); [|exact U]. apply (Rmult_le_reg_r L); [assumption|]. unfold Rdiv. rewrite Rmult_assoc, Rinv_l, Rmult_1_r by lra. lra. }
  assert (IZR (- k) < IZR v). { rewrite opp_IZR. apply Rle_lt_trans with ((d - a) / L); [|exact V]. apply (Rmult_le_reg_r L); [assumption|]. unfold Rdiv. rewrite Rmult_assoc, Rinv_l, Rmult_1_r by lra. lra. }
  apply lt_IZR in H. apply lt_IZR in H0. lia.
Qed.
(** an axis along which image k is met is met at every image between, if x is in the box of the simulation [lo, lo + L) and the target meets [lo, lo + L] *)
Lemma axis_clamp L lo a b c d x (k : Z) lev : 0 < L -> (1 <= lev)%Z -> a <= x <= b -> lo <= x < lo + L -> lo <= d -> c <= lo + L -> a <= d + IZR k * L -> c + IZR k * L <= b ->
  let k' := Z.max (- lev) (Z.min lev k) in a <= d + IZR k' * L /\ c + IZR k' * L <= b.
Proof.
  intros HL Hlev [Hx1 Hx2] [Hx3 Hx4] Hd Hc H1 H2. assert (E : 1 * L <= IZR lev * L) by (apply Rmult_le_compat_r; [lra|]; apply IZR_le; assumption).
  destruct (Z_lt_le_dec lev k) as [A|A]; [|destruct (Z_lt_le_dec k (- lev)) as [B|B]].
  - replace (Z.max (- lev) (Z.min lev k)) with lev by lia. apply IZR_lt in A. apply (Rmult_lt_compat_r L) in A; [|assumption]. split; lra.
  - replace (Z.max (- lev) (Z.min lev k)) with (- lev)%Z by lia. cbv zeta. apply IZR_lt in B. apply (Rmult_lt_compat_r L) in B; [|assumption]. rewrite opp_IZR in *. split; lra.
  - replace (Z.max (- lev) (Z.min lev k)) with k by lia. auto.
Qed.

Section Images.
  Context (pa : vec bool) (root my target : ort R).
  Let size := @fullLength R_arith root.
  Let hit (k : vec Z) : bool := @overlapsBox R_arith my (@shiftBox R_arith target (@imageShift R_arith size k)).
  Hypotheses (HL : periodic_box pa root) (HT : domain_in pa root target).
  (** my holds a point of the box of the simulation, or nothing *)
  Definition holding : Prop := (exists x, inside root x /\ inBox my x) \/ my = @emptyBox R_arith.
  Hypothesis HM : holding.

  Lemma empty_misses k : my = @emptyBox R_arith -> (vx pa || vy pa || vz pa)%bool = true -> ~ meets root my target k.
  Proof using HL HT.
    intros -> Hp H. assert (P : 0 < 2 ^ 97) by (apply pow_lt; lra). assert (E : @boxInit R_arith = 16777215 * 2 ^ 97) by apply (o_init _ _ _ reals_ordered).
    assert (X : forall c i, In (c, i) [(vx, vx k); (vy, vy k); (vz, vz k)] -> 0 < edge root c < 2 * 16777215 * 2 ^ 97 -> c (olow root) <= c (olow target) /\ c (olow target) <= c (ohigh target) /\ c (ohigh target) <= c (ohigh root) -> False).
    { intros c i Hc Hl Ht. specialize (H c i Hc). assert (E1 : c (olow (@emptyBox R_arith)) = 16777215 * 2 ^ 97) by (destruct Hc as [Y|[Y|[Y|[]]]]; injection Y as <- <-; exact E).
      assert (E2 : c (ohigh (@emptyBox R_arith)) = - (16777215 * 2 ^ 97)) by (destruct Hc as [Y|[Y|[Y|[]]]]; injection Y as <- <-; cbn [emptyBox ohigh vx vy vz]; cbn [a_neg R_arith]; f_equal; exact E).
      destruct H as (Ha & Hb). assert (Ha' : 16777215 * 2 ^ 97 <= c (ohigh target) + IZR i * edge root c) by (rewrite <- E1; exact Ha). assert (Hb' : c (olow target) + IZR i * edge root c <= - (16777215 * 2 ^ 97)) by (rewrite <- E2; exact Hb).
      clear Ha Hb E1 E2 E. unfold edge in *. lra. }
    destruct HL as (L1 & L2 & L3), HT as (T1 & T2 & T3).
    destruct (vx pa) eqn:Ex; [apply (X vx (vx k)); [cbn; auto|auto|auto]|destruct (vy pa) eqn:Ey; [apply (X vy (vy k)); [cbn; auto|auto|auto]|destruct (vz pa) eqn:Ez; [apply (X vz (vz k)); [cbn; auto|auto|auto]|discriminate]]].
  Qed.

  (** the axes one by one *)
  Definition ax (c : vec R -> R) (i : Z) : Prop := c (olow my) <= c (ohigh target) + IZR i * edge root c /\ c (olow target) + IZR i * edge root c <= c (ohigh my).
  Lemma meets_ax k : meets root my target k <-> ax vx (vx k) /\ ax vy (vy k) /\ ax vz (vz k).
  Proof using.
    unfold meets, ax. split.
    - intros H. split; [|split]; apply H; cbn; auto.
    - intros (H1 & H2 & H3) c i [E|[E|[E|[]]]]; injection E as <- <-; assumption.
  Qed.
  Lemma hit_meets k : hit k = true <-> meets root my target k. Proof using. apply overlaps_meets. Qed.

  Lemma ax_bound : exists M, (0 <= M)%Z /\ forall k, lattice pa k -> meets root my target k -> (norm k <= M)%Z.
  Proof using HL.
    destruct HL as (L1 & L2 & L3).
    assert (X : forall c (b : bool), (b = true -> 0 < edge root c < 2 * 16777215 * 2 ^ 97) -> exists M, (0 <= M)%Z /\ forall i, (b = false -> i = 0%Z) -> ax c i -> (Z.abs i <= M)%Z).
    { intros c b Hb. destruct b.
      - destruct (axis_bound (edge root c) (c (olow my)) (c (ohigh my)) (c (olow target)) (c (ohigh target))) as (M & M1 & M2); [specialize (Hb eq_refl); lra|]. exists M. split; [assumption|]. intros i _ (A1 & A2). apply M2; assumption.
      - exists 0%Z. split; [lia|]. intros i Hi _. rewrite Hi by reflexivity. cbn. lia. }
    destruct (X vx (vx pa) L1) as (Mx & X1 & X2). destruct (X vy (vy pa) L2) as (My & Y1 & Y2). destruct (X vz (vz pa) L3) as (Mz & Z1 & Z2).
    exists (Z.max Mx (Z.max My Mz)). split; [lia|]. intros k (K1 & K2 & K3) Hm. apply meets_ax in Hm. destruct Hm as (A1 & A2 & A3). unfold norm. specialize (X2 _ K1 A1). specialize (Y2 _ K2 A2). specialize (Z2 _ K3 A3). lia.
  Qed.

  Lemma clamp_meets x k lev : inside root x -> inBox my x -> (1 <= lev)%Z -> lattice pa k -> meets root my target k ->
    let f i := Z.max (- lev) (Z.min lev i) in meets root my target (Vec (f (vx k)) (f (vy k)) (f (vz k))).
  Proof using HL HT.
    intros Hx Hm Hlev (K1 & K2 & K3) H f. apply meets_ax in H. apply meets_ax. destruct H as (A1 & A2 & A3). destruct HL as (L1 & L2 & L3), HT as (T1 & T2 & T3).
    assert (X : forall c (b : bool) i, In c coords -> (b = false -> i = 0%Z) -> (b = true -> 0 < edge root c < 2 * 16777215 * 2 ^ 97) -> (b = true -> c (olow root) <= c (olow target) /\ c (olow target) <= c (ohigh target) /\ c (ohigh target) <= c (ohigh root)) -> ax c i -> ax c (f i)).
    { intros c b i Hc Hi Hl Ht (A & B). destruct b; [|rewrite Hi by reflexivity; replace (f 0%Z) with 0%Z by (unfold f; lia); rewrite Hi in A, B by reflexivity; split; assumption].
      specialize (Hl eq_refl). specialize (Ht eq_refl). assert (Hx' := Hx c Hc). assert (Hm' := Hm c Hc). unfold edge in Hl.
      apply (axis_clamp (edge root c) (c (olow root)) _ _ _ _ (c x)); try assumption; unfold edge in *; lra. }
    cbn [vx vy vz]. split; [|split]; [apply (X vx (vx pa))|apply (X vy (vy pa))|apply (X vz (vz pa))]; try assumption; cbn; auto.
  Qed.

  Lemma images_ok : exists F ks, (forall fuel acc, (F <= fuel)%nat -> @imageShifts R_arith fuel pa size my target acc = Done (acc ++ map (@imageShift R_arith size) ks)) /\ NoDup ks /\
    (forall k, In k ks -> lattice pa k /\ ((vx pa || vy pa || vz pa)%bool = true -> meets root my target k)) /\
    (forall k, lattice pa k -> meets root my target k -> In k ks) /\ (meets root my target origin -> exists ks', ks = origin :: ks').
  Proof using HL HT HM.
    assert (EZ : @imageShift R_arith size origin = Vec (@a_Z R_arith 0) (@a_Z R_arith 0) (@a_Z R_arith 0)) by (unfold imageShift, origin; cbn [vx vy vz]; cbn [a_mul a_Z R_arith]; rewrite !Rmult_0_l; reflexivity).
    destruct (vx pa || vy pa || vz pa)%bool eqn:Ep.
    - destruct ax_bound as (M & M0 & M1).
      assert (Hgap : forall lev, (1 <= lev)%Z -> (forall k, lattice pa k -> norm k = lev -> hit k = false) -> forall k, lattice pa k -> (lev <= norm k)%Z -> hit k = false).
      { intros lev Hl Hn k Hk Hk'. destruct (hit k) eqn:Eh; [|reflexivity]. exfalso. apply hit_meets in Eh. destruct HM as [(x & X1 & X2)|E]; [|exact (empty_misses k E Ep Eh)].
        assert (C := clamp_meets x k lev X1 X2 Hl Hk Eh). cbv zeta in C. apply hit_meets in C. rewrite Hn in C; [discriminate| |].
        - destruct Hk as (K1 & K2 & K3). split; [|split]; cbn [vx vy vz]; intros Hp; [rewrite K1|rewrite K2|rewrite K3]; try assumption; lia.
        - clear - Hl Hk'. unfold norm in *. cbn [vx vy vz]. assert (Ec : forall i, Z.abs (Z.max (- lev) (Z.min lev i)) = Z.min (Z.abs i) lev) by (intros; lia). rewrite !Ec. clear Ec. lia. }
      assert (Hlast : forall k, lattice pa k -> hit k = true -> (norm k <= M)%Z) by (intros k Hk Hh; apply M1; [assumption|]; apply hit_meets; assumption).
      exists (Z.to_nat (M + 2)), (filter hit (origin :: shells pa 1 M)). split; [|split; [|split; [|split]]].
      + intros fuel acc Hf. unfold imageShifts.
        assert (Ep' : negb (vx pa) && negb (vy pa) && negb (vz pa) = false) by (destruct (vx pa), (vy pa), (vz pa); try reflexivity; discriminate). rewrite Ep'.
        rewrite (imageLevels_ok pa size my target M Hgap Hlast) by lia. f_equal. cbn [filter]. fold hit.
        assert (E0 : hit origin = @overlapsBox R_arith my target).
        { unfold hit. rewrite EZ. unfold shiftBox, vadd. cbn [vx vy vz a_add a_Z R_arith]. destruct target as [[a b c] [d e f]]. cbn [olow ohigh vx vy vz]. rewrite !Rplus_0_r. reflexivity. }
        rewrite E0. destruct (@overlapsBox R_arith my target); [|reflexivity]. rewrite <- app_assoc. cbn [map app]. rewrite EZ. reflexivity.
      + apply NoDup_filter. constructor; [|apply shells_nodup; lia]. intros H. apply shells_in in H; [|lia]. destruct H as (_ & H). cbn in H. lia.
      + intros k Hk. apply filter_In in Hk. destruct Hk as (Hk & Hh). apply hit_meets in Hh. split; [|auto]. destruct Hk as [<-|Hk]; [repeat split; reflexivity|]. apply shells_in in Hk; [|lia]. tauto.
      + intros k Hk Hh. apply filter_In. apply hit_meets in Hh. split; [|assumption]. destruct (Z.eq_dec (norm k) 0) as [E|E].
        * left. unfold norm in E. apply vec_eq; cbn [origin vx vy vz]; lia.
        * right. apply shells_in; [lia|]. split; [assumption|]. specialize (Hlast k Hk Hh). unfold norm in *. lia.
      + intros H0. apply hit_meets in H0. cbn [filter]. rewrite H0. eexists. reflexivity.
    - exists 0%nat, [origin]. assert (Ep' : negb (vx pa) && negb (vy pa) && negb (vz pa) = true) by (destruct (vx pa), (vy pa), (vz pa); try reflexivity; discriminate).
      split; [|split; [|split; [|split]]].
      + intros fuel acc _. unfold imageShifts. rewrite Ep'. cbn [map]. rewrite EZ. reflexivity.
      + repeat constructor. intros [].
      + intros k [<-|[]]. split; [repeat split; reflexivity|discriminate].
      + intros k (K1 & K2 & K3) _. left. destruct (vx pa), (vy pa), (vz pa); try discriminate. apply vec_eq; cbn [origin vx vy vz]; symmetry; auto.
      + intros _. exists []. reflexivity.
  Qed.
End Images.

(** ** The image of a particle received *)
Lemma axis_unique L lo x (k i : Z) : 0 < L -> lo <= x < lo + L -> lo <= x + IZR k * L + IZR i * L < lo + L -> (i = - k)%Z.
Proof.
  intros HL H1 H2. assert (A : IZR (k + i) * L < 1 * L) by (rewrite plus_IZR; lra). assert (B : IZR (-1) * L < IZR (k + i) * L) by (rewrite plus_IZR; lra).
  apply Rmult_lt_reg_r in A, B; [|assumption|assumption]. apply lt_IZR in A, B. lia.
Qed.

Lemma containsPos_inside (o : ort R) (p : vec R) : @containsPos R_arith o p = true <-> inside o p.
Proof.
  unfold containsPos. rewrite negb_true_iff. rewrite !orb_false_iff.
  assert (A : forall a b : R, @a_lt R_arith a b = false <-> b <= a) by (intros a b; cbn [a_lt R_arith]; case Rlt_bool_spec; intros H; split; intros X; try discriminate; try reflexivity; lra).
  assert (B : forall a b : R, @a_le R_arith a b = false <-> b < a) by (intros a b; cbn [a_le R_arith]; case Rle_bool_spec; intros H; split; intros X; try discriminate; try reflexivity; lra).
  rewrite !A, !B. split.
  - intros H c [<-|[<-|[<-|[]]]]; split; tauto.
  - intros H. assert (Hx := H vx ltac:(cbn; auto)). assert (Hy := H vy ltac:(cbn; auto)). assert (Hz := H vz ltac:(cbn; auto)). tauto.
Qed.

Section Id.
  Context (pa : vec bool) (root : ort R) (x : vec R) (k : vec Z).
  Hypotheses (HL : periodic_box pa root) (Hx : inside root x) (Hk : lattice pa k).
  Let p : vec R := away root (Vec (- vx k) (- vy k) (- vz k))%Z x.

  Lemma inside_image i : lattice pa i -> (@containsPos R_arith root (@vadd R_arith p (@imageShift R_arith (@fullLength R_arith root) i)) = true <-> i = Vec (- vx k) (- vy k) (- vz k))%Z.
  Proof using HL Hx Hk.
    intros (I1 & I2 & I3). rewrite containsPos_inside. destruct HL as (L1 & L2 & L3), Hk as (K1 & K2 & K3). unfold p, away. cbn [vadd imageShift fullLength vsub vx vy vz a_add a_mul a_sub a_Z R_arith].
    assert (Hxx := Hx vx ltac:(cbn; auto)). assert (Hxy := Hx vy ltac:(cbn; auto)). assert (Hxz := Hx vz ltac:(cbn; auto)).
    assert (U : forall L lo hi x (k i : Z) (b : bool), (b = true -> 0 < L < 2 * 16777215 * 2 ^ 97) -> L = hi - lo -> (b = false -> k = 0%Z) -> (b = false -> i = 0%Z) -> lo <= x < hi -> (lo <= x - IZR (- k) * L + IZR i * L < hi <-> (i = - k)%Z)).
    { clear. intros L lo hi x k i b Hb E Ek Ei Hx. destruct b.
      - specialize (Hb eq_refl). rewrite opp_IZR. split; intros H; [apply (axis_unique L lo x); lra|]. rewrite H, opp_IZR. lra.
      - rewrite Ek, Ei by reflexivity. split; [reflexivity|]. intros _. cbn. lra. }
    assert (Ux := U (edge root vx) (vx (olow root)) (vx (ohigh root)) (vx x) (vx k) (vx i) (vx pa) L1 eq_refl K1 I1 Hxx).
    assert (Uy := U (edge root vy) (vy (olow root)) (vy (ohigh root)) (vy x) (vy k) (vy i) (vy pa) L2 eq_refl K2 I2 Hxy).
    assert (Uz := U (edge root vz) (vz (olow root)) (vz (ohigh root)) (vz x) (vz k) (vz i) (vz pa) L3 eq_refl K3 I3 Hxz).
    unfold edge in *. split.
    - intros H. apply vec_eq; cbn [vx vy vz]; [apply Ux, (H vx)|apply Uy, (H vy)|apply Uz, (H vz)]; cbn; auto.
    - intros E c Hc. rewrite E in *. cbn [vx vy vz] in *. destruct Hc as [<-|[<-|[<-|[]]]]; cbn [vx vy vz]; [apply Ux|apply Uy|apply Uz]; reflexivity.
  Qed.

  Lemma imageId_ok fuel : (Z.to_nat (norm k) < fuel)%nat -> @imageId R_arith fuel pa root p = Done k.
  Proof using HL Hx Hk.
    intros Hf. unfold imageId.
    assert (E0 : p = @vadd R_arith p (@imageShift R_arith (@fullLength R_arith root) origin)).
    { unfold imageShift, origin, vadd. destruct p as [a b c]. cbn [vx vy vz a_add a_mul a_Z R_arith]. rewrite !Rmult_0_l, !Rplus_0_r. reflexivity. }
    destruct (@containsPos R_arith root p) eqn:Ec.
    - rewrite E0 in Ec. apply inside_image in Ec; [|repeat split; reflexivity]. f_equal. destruct k as [a b c]. cbn [vx vy vz origin] in Ec. injection Ec as Ea Eb Ec'. apply vec_eq; cbn [vx vy vz]; lia.
    - assert (Hn : (1 <= norm k)%Z).
      { destruct (Z_lt_le_dec (norm k) 1) as [H|H]; [|assumption]. exfalso. assert (E : origin = Vec (- vx k)%Z (- vy k)%Z (- vz k)%Z) by (unfold norm in H; apply vec_eq; cbn [origin vx vy vz]; lia).
        rewrite E0 in Ec. rewrite (proj2 (inside_image origin ltac:(repeat split; reflexivity)) E) in Ec. discriminate. }
      assert (HH : forall fuel lev, (1 <= lev <= norm k)%Z -> (Z.to_nat (norm k - lev) < fuel)%nat -> @imageIdLevels R_arith fuel pa root p lev = Done k).
      { clear Hf fuel. induction fuel as [|fuel IH]; intros lev Hl Hf; [lia|]. cbn [imageIdLevels]. destruct (Z.eq_dec lev (norm k)) as [->|Hne].
        - rewrite (find_unique _ _ (Vec (- vx k) (- vy k) (- vz k))%Z).
          + cbn [vx vy vz]. rewrite !Z.opp_involutive. destruct k; reflexivity.
          + apply levelIds_in; [lia|]. split; [destruct Hk as (K1 & K2 & K3); split; [|split]; cbn [vx vy vz]; intros H; [rewrite K1|rewrite K2|rewrite K3]; try assumption; reflexivity|]. unfold norm. cbn [vx vy vz]. lia.
          + apply inside_image; [|reflexivity]. destruct Hk as (K1 & K2 & K3); split; [|split]; cbn [vx vy vz]; intros H; [rewrite K1|rewrite K2|rewrite K3]; try assumption; reflexivity.
          + intros b Hb Hc. apply levelIds_in in Hb; [|lia]. apply inside_image; tauto.
        - rewrite find_none; [apply IH; lia|]. intros b Hb. match goal with |- ?t = false => destruct t eqn:E; [|reflexivity] end. exfalso. apply levelIds_in in Hb; [|lia]. destruct Hb as (B1 & B2). apply inside_image in E; [|assumption]. rewrite E in B2. unfold norm in *. cbn [vx vy vz] in B2. lia. }
      apply HH; lia.
  Qed.
End Id.
