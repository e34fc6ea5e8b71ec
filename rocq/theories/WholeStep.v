(** Proofs about a step on all ranks. *)
From Coq Require Import List Arith ZArith Bool Reals Lia Lra Permutation.
From Flocq Require Import Core.
From Verif Require Import Outcome ListUtil Arith ParticleModel VecModel VecSpec VecProofs SylModel SylSpec MobProofs ConModel ConSpec StepModel StepSpec StepProofs QPModel QPSpec QPReal PipeModel PipeSpec PipeProofs WholeModel WholeSpec WholeProofs WholeSolve.
Import ListNotations.
Local Open Scope R_scope.

(** ** On one rank *)

Section Any.
  Context {N : arith}.
  Variables (flog fsin fcos : N -> N) (Pi tenth : N) (c : stepConfig N) (mob : list N -> list N).
  Local Open Scope arith_scope.

  (** what a step stores in one object before the constraints *)
  Definition before (fNB vNB : option (list N)) (w : nat -> draws N) (i : nat) (s : sylinder N) : sylinder N :=
    let s1 := if a_Z 0 <? c_KBT c then
                setBrown s (fst (brownObject flog fsin fcos Pi tenth c (w i) s)) (snd (brownObject flog fsin fcos Pi tenth c (w i) s)) else s in
    let s2 := match fNB with Some f => setForceNonB s1 (lin f i) (rot f i) | None => s1 end in
    setVelNonB s2 (more_lin c vNB i (base_lin c mob fNB i)) (more_rot c vNB i (base_rot c mob fNB i)).
  Lemma before_with fNB vNB w i s : exists m, before fNB vNB w i s = withMot s m.
  Proof using. unfold before. cbv zeta. destruct (a_Z 0 <? c_KBT c), fNB; eexists; reflexivity. Qed.

  Lemma before_ok : forall fNB vNB w ord (ss : list (sylinder N)), (forall k, Permutation (ord k) (seq 0 (length ss))) ->
    (forall x, length x = (6 * length ss)%nat -> length (mob x) = (6 * length ss)%nat) -> sized (length ss) fNB -> sized (length ss) vNB ->
    exists sc vnc, stepBefore flog fsin fcos Pi tenth c mob fNB vNB w ord ss = Done (sc, vnc) /\ length sc = length ss /\ length vnc = (6 * length ss)%nat /\
      forall i s, nth_error ss i = Some s ->
        let B := brownObject flog fsin fcos Pi tenth c (w i) s in
        nth_error sc i = Some (before fNB vNB w i s) /\
        lin vnc i = (if a_Z 0 <? c_KBT c then plus1 (pl (c_monolayer c) (fst B)) (more_lin c vNB i (base_lin c mob fNB i)) else more_lin c vNB i (base_lin c mob fNB i)) /\
        rot vnc i = (if a_Z 0 <? c_KBT c then plus1 (pr (c_monolayer c) (snd B)) (more_rot c vNB i (base_rot c mob fNB i)) else more_rot c vNB i (base_rot c mob fNB i)).
  Proof using.
    intros fNB vNB w ord ss Ho Hm Hf Hv. unfold stepBefore.
    assert (S0 : exists s0 vB, (if a_Z 0 <? c_KBT c then do r <- calcVelocityBrown flog fsin fcos Pi tenth c w (ord 5%nat) (ord 6%nat) ss; Done (fst r, Some (snd r))
              else Done (ss, None)) = Done (s0, vB) /\ length s0 = length ss /\ sized (length ss) vB /\
       forall i s, nth_error ss i = Some s -> let B := brownObject flog fsin fcos Pi tenth c (w i) s in
         nth_error s0 i = Some (if a_Z 0 <? c_KBT c then setBrown s (fst B) (snd B) else s) /\
         (forall v, more_lin c vB i v = if a_Z 0 <? c_KBT c then plus1 (pl (c_monolayer c) (fst B)) v else v) /\
         (forall v, more_rot c vB i v = if a_Z 0 <? c_KBT c then plus1 (pr (c_monolayer c) (snd B)) v else v)).
    { destruct (a_Z 0 <? c_KBT c).
      - destruct (brown_ok flog fsin fcos Pi tenth c w (ord 5%nat) (ord 6%nat) ss (Ho _) (Ho _)) as (s0 & x & E & L & K & P). rewrite E. cbn [obind fst snd].
        exists s0, (Some x). split; [reflexivity|]. split; [exact L|]. split; [exact K|]. intros i s Hi. destruct (P i s Hi) as (v & om & E1 & E2 & E3 & E4).
        cbv zeta. rewrite E1. cbn [fst snd]. split; [exact E2|]. unfold more_lin, more_rot. rewrite E3, E4. split; reflexivity.
      - exists ss, None. split; [reflexivity|]. split; [reflexivity|]. split; [exact I|]. intros i s Hi. cbv zeta. split; [exact Hi|]. split; reflexivity. }
    destruct S0 as (s0 & vB & E0 & L0 & K0 & P0). rewrite E0. cbn [obind].
    destruct (nonCon_ok c mob fNB vNB vB ord s0) as (sc & vnc & E1 & L1 & K1 & P1); try (rewrite L0; first [assumption | apply Ho]).
    rewrite E1. rewrite L0 in *. exists sc, vnc. split; [reflexivity|]. split; [exact L1|]. split; [exact K1|].
    intros i s Hi. cbv zeta. destruct (P0 i s Hi) as (A1 & A2 & A3). destruct (P1 i _ A1) as (B1 & B2 & B3). rewrite A2 in B2. rewrite A3 in B3.
    split; [exact B1|split; [exact B2|exact B3]].
  Qed.

  Lemma after_ok : forall ord fu vu fb vb (sc : list (sylinder N)), (forall k, Permutation (ord k) (seq 0 (length sc))) ->
    length fu = (6 * length sc)%nat -> length vu = (6 * length sc)%nat -> length fb = (6 * length sc)%nat -> length vb = (6 * length sc)%nat ->
    exists ss1 ss2, stepAfter fsin fcos c ord fu vu fb vb sc = Done (ss1, ss2) /\ length ss1 = length sc /\ length ss2 = length sc /\
      forall i s, nth_error sc i = Some s ->
        let t := sumObject (setConstraint s (lin vu i) (rot vu i) (lin vb i) (rot vb i) (lin fu i) (rot fu i) (lin fb i) (rot fb i)) in
        nth_error ss1 i = Some t /\ nth_error ss2 i = Some (if c_fixed c then t else stepEuler fsin fcos (c_dt c) t).
  Proof using.
    intros ord fu vu fb vb sc Ho Lfu Lvu Lfb Lvb. unfold stepAfter, saveForceVelocityConstraints.
    destruct (forEach_ok (ord 7%nat) (fun i s =>
      do vc <- read3 vu (6 * i); do oc <- read3 vu (6 * i + 3); do vb' <- read3 vb (6 * i); do ob <- read3 vb (6 * i + 3);
      do fc <- read3 fu (6 * i); do tc <- read3 fu (6 * i + 3); do fb' <- read3 fb (6 * i); do tb <- read3 fb (6 * i + 3);
      Done (setConstraint s vc oc vb' ob fc tc fb' tb))
      (fun i s => setConstraint s (lin vu i) (rot vu i) (lin vb i) (rot vb i) (lin fu i) (rot fu i) (lin fb i) (rot fb i)) sc (Ho _)) as (s3 & E3 & L3 & P3).
    { intros i s Hi. assert (i < length sc)%nat by (apply nth_error_Some; congruence).
      rewrite (read_lin vu (length sc)) by assumption. cbn [obind]. rewrite (read_rot vu (length sc)) by assumption. cbn [obind].
      rewrite (read_lin vb (length sc)) by assumption. cbn [obind]. rewrite (read_rot vb (length sc)) by assumption. cbn [obind].
      rewrite (read_lin fu (length sc)) by assumption. cbn [obind]. rewrite (read_rot fu (length sc)) by assumption. cbn [obind].
      rewrite (read_lin fb (length sc)) by assumption. cbn [obind]. rewrite (read_rot fb (length sc)) by assumption. reflexivity. }
    rewrite E3. cbn [obind]. unfold sumForceVelocity.
    destruct (forEach_ok (ord 8%nat) (fun _ s => Done (sumObject s)) (fun _ s => sumObject s) s3) as (s4 & E4 & L4 & P4); [rewrite L3; apply Ho|reflexivity|].
    rewrite E4. cbn [obind].
    assert (Q : forall i s, nth_error sc i = Some s -> nth_error s4 i = Some (sumObject (setConstraint s (lin vu i) (rot vu i) (lin vb i) (rot vb i) (lin fu i) (rot fu i) (lin fb i) (rot fb i)))).
    { intros i s Hi. rewrite P4, P3, Hi. reflexivity. }
    unfold stepEulerAll. destruct (c_fixed c).
    + cbn [obind]. exists s4, s4. split; [reflexivity|]. split; [lia|]. split; [lia|]. intros i s Hi. split; apply Q, Hi.
    + destruct (forEach_ok (ord 9%nat) (fun _ s => Done (stepEuler fsin fcos (c_dt c) s)) (fun _ s => stepEuler fsin fcos (c_dt c) s) s4) as (s5 & E5 & L5 & P5);
        [rewrite L4, L3; apply Ho|reflexivity|]. rewrite E5. cbn [obind]. exists s4, s5. split; [reflexivity|]. split; [lia|]. split; [lia|].
      intros i s Hi. split; [apply Q, Hi|]. rewrite P5, (Q i s Hi). reflexivity.
  Qed.
End Any.

(** ** The mobility of all ranks *)

Lemma blockApply_app : forall bs1 bs2 x1 x2, length x1 = (6 * length bs1)%nat -> blockApply (bs1 ++ bs2) (x1 ++ x2) = blockApply bs1 x1 ++ blockApply bs2 x2.
Proof.
  induction bs1 as [|[T Q] bs IH]; intros bs2 x1 x2 H.
  - destruct x1; [reflexivity|discriminate].
  - cbn [length] in H. destruct (six_cases x1 _ H) as (a0 & a1 & a2 & a3 & a4 & a5 & x' & -> & Hx'). cbn [blockApply app list6]. rewrite IH by exact Hx'. reflexivity.
Qed.

Definition mobAll (mu : R) (ranks : list ranked) := map (fun p => mobOf mu (pr_ptcl p)) ranks.
Lemma mobAll_ok mu y (ranks : list ranked) : (forall r p, nth_error ranks r = Some p -> Permutation (y_mob (y r)) (seq 0 (length (pr_ptcl p)))) ->
  calcMobOperator (N := R_arith) ln PI mu y ranks = Done (mobAll mu ranks).
Proof.
  intros H. unfold calcMobOperator, mobAll.
  destruct (PipeProofs.omap_seq (fun r p => calcMobMatrix (N := R_arith) ln PI mu (y_mob (y r)) (y_mobJunk (y r)) (pr_ptcl p)) (fun _ p m => m = mobOf mu (pr_ptcl p)) ranks) as (ys & E & L & P).
  { intros r p Hp. exists (mobOf mu (pr_ptcl p)). split; [|reflexivity]. unfold mobOf. apply calcMob_ok. exact (H r p Hp). }
  rewrite E. f_equal. apply nth_error_ext_len; [rewrite map_length; exact L|]. intros i m Hm. destruct (nth_error ranks i) as [p|] eqn:Ep.
  - erewrite map_nth_error by exact Ep. destruct (P i p m Ep Hm) as (_ & ->). reflexivity.
  - exfalso. apply nth_error_None in Ep. pose proof (nth_error_lt _ _ _ Hm). rewrite L in H0. exact (Nat.lt_irrefl _ (Nat.lt_le_trans _ _ _ H0 Ep)).
Qed.

Lemma sizes_sum (ranks : list ranked) : sum_list (PipeSpec.sizes ranks) = length (objects ranks).
Proof. unfold PipeSpec.sizes, objects. rewrite concat_length, map_map. reflexivity. Qed.

Lemma mobility_blocks mu : forall (ranks : list ranked) x, length x = (6 * length (objects ranks))%nat ->
  mobilityApply (N := R_arith) (mobAll mu ranks) (PipeSpec.sizes ranks) x = blockApply (map (mobBlocks (N := R_arith) ln PI mu) (objects ranks)) x.
Proof.
  unfold mobilityApply. induction ranks as [|p ranks IH]; intros x H.
  - destruct x; [reflexivity|discriminate].
  - unfold mobAll, PipeSpec.sizes, objects in *. cbn [map concat combine parts fst snd] in *. rewrite app_length in H. rewrite map_app.
    rewrite <- (firstn_skipn (6 * length (pr_ptcl p)) x) at 3. rewrite blockApply_app by (rewrite map_length, firstn_length; lia). f_equal.
    + apply mobApply_blocks. rewrite firstn_length. lia.
    + apply IH. rewrite skipn_length. lia.
Qed.

Lemma mobility_psd mu (ranks : list ranked) : 0 < mu -> Forall proper (objects ranks) -> sym_psd (6 * length (objects ranks)) (mobilityApply (N := R_arith) (mobAll mu ranks) (PipeSpec.sizes ranks)).
Proof.
  intros Hm Hp. apply (MobProofs.sym_psd_ext _ _ (blockApply (map (mobBlocks (N := R_arith) ln PI mu) (objects ranks)))); [apply mobility_blocks|]. rewrite <- (map_length (mobBlocks (N := R_arith) ln PI mu) (objects ranks)) at 1. apply block_psd.
  intros T Q Hi. apply in_map_iff in Hi. destruct Hi as (s & E & Hs). apply (blocks_psd mu s); [exact Hm| |exact E]. rewrite Forall_forall in Hp. apply Hp, Hs.
Qed.

Lemma mobility_responds mu (ranks : list ranked) x g s : length x = (6 * length (objects ranks))%nat -> nth_error (objects ranks) g = Some s ->
  let z := mobilityApply (N := R_arith) (mobAll mu ranks) (PipeSpec.sizes ranks) x in responds mu s (force_of x g) (torque_of x g) (force_of z g) (torque_of z g).
Proof.
  intros H Hg z. unfold z. rewrite mobility_blocks, <- mobApply_blocks by exact H. exact (proj2 (mob_moves mu (objects ranks) x H) g s Hg).
Qed.

(** ** All ranks *)

Lemma nth_combine {A B} : forall (l : list A) (m : list B) i a b, nth_error l i = Some a -> nth_error m i = Some b -> nth_error (combine l m) i = Some (a, b).
Proof. induction l as [|x l IH]; intros [|z m] [|i] a b X Y; cbn in *; try discriminate; [congruence|]. apply IH; assumption. Qed.

Section Whole.
  Variables (tenth : R) (c : stepConfig R_arith) (v : solveConfig R_arith) (fuel : nat) (y : nat -> fate R_arith) (fNB vNB : nat -> option (list R)) (ranks : list ranked).
  Let mu := c_viscosity c.
  Let n := length (objects ranks).
  Hypotheses (Hmob : forall r p, nth_error ranks r = Some p -> Permutation (y_mob (y r)) (seq 0 (length (pr_ptcl p))))
    (Hord : forall r p k, nth_error ranks r = Some p -> Permutation (y_ord (y r) k) (seq 0 (length (pr_ptcl p))))
    (HfNB : forall r p, nth_error ranks r = Some p -> sized (N := R_arith) (length (pr_ptcl p)) (fNB r)) (HvNB : forall r p, nth_error ranks r = Some p -> sized (N := R_arith) (length (pr_ptcl p)) (vNB r)).

  Lemma pre_all : exists pre, omap (fun r => do p <- mread ranks r; do m <- mread (mobAll mu ranks) r;
      stepBefore (N := R_arith) ln sin cos PI tenth c (mobApply (N := R_arith) m (6 * length (pr_ptcl p))) (fNB r) (vNB r) (y_draws (y r)) (y_ord (y r)) (pr_ptcl p)) (seq 0 (length ranks)) = Done pre /\
    length pre = length ranks /\
    forall r p sc vnc, nth_error ranks r = Some p -> nth_error pre r = Some (sc, vnc) -> length sc = length (pr_ptcl p) /\ length vnc = (6 * length (pr_ptcl p))%nat /\
      forall i s, nth_error (pr_ptcl p) i = Some s -> exists m, nth_error sc i = Some (withMot (N := R_arith) s m) /\
        (c_monolayer c = false \/ c_KBT c <= 0 -> (c_KBT c <= 0 -> velBrown (mot s) = zero3 /\ omegaBrown (mot s) = zero3) ->
          lin_R vnc i = add3 (velNonB m) (velBrown m) /\ rot_R vnc i = add3 (omegaNonB m) (omegaBrown m)).
  Proof using Hord HfNB HvNB.
    destruct (PipeProofs.omap_seq (fun r p => do m <- mread (mobAll mu ranks) r;
      stepBefore (N := R_arith) ln sin cos PI tenth c (mobApply (N := R_arith) m (6 * length (pr_ptcl p))) (fNB r) (vNB r) (y_draws (y r)) (y_ord (y r)) (pr_ptcl p))
      (fun r p o => length (fst o) = length (pr_ptcl p) /\ length (snd o) = (6 * length (pr_ptcl p))%nat /\
      forall i s, nth_error (pr_ptcl p) i = Some s -> exists m, nth_error (fst o) i = Some (withMot (N := R_arith) s m) /\
        (c_monolayer c = false \/ c_KBT c <= 0 -> (c_KBT c <= 0 -> velBrown (mot s) = zero3 /\ omegaBrown (mot s) = zero3) ->
          lin_R (snd o) i = add3 (velNonB m) (velBrown m) /\ rot_R (snd o) i = add3 (omegaNonB m) (omegaBrown m))) ranks) as (pre & E & L & P).
    { intros r p Hp. unfold mread at 1, mobAll. erewrite map_nth_error by exact Hp. cbn [obind].
      assert (Lm : forall x, length x = (6 * length (pr_ptcl p))%nat -> length (mobApply (N := R_arith) (mobOf mu (pr_ptcl p)) (6 * length (pr_ptcl p)) x) = (6 * length (pr_ptcl p))%nat).
      { intros x Hx. exact (proj1 (mob_moves mu (pr_ptcl p) x Hx)). }
      destruct (before_ok (N := R_arith) ln sin cos PI tenth c _ (fNB r) (vNB r) (y_draws (y r)) (y_ord (y r)) (pr_ptcl p) (fun k => Hord r p k Hp) Lm (HfNB r p Hp) (HvNB r p Hp)) as (sc & vnc & E & L1 & L2 & P).
      exists (sc, vnc). split; [exact E|]. cbn [fst snd]. split; [exact L1|]. split; [exact L2|]. intros i s Hi. destruct (P i s Hi) as (A & B & C). cbv zeta in B, C.
      destruct (before_with (N := R_arith) ln sin cos PI tenth c (mobApply (N := R_arith) (mobOf mu (pr_ptcl p)) (6 * length (pr_ptcl p))) (fNB r) (vNB r) (y_draws (y r)) i s) as (m & Em).
      exists m. split; [rewrite <- Em; exact A|]. intros H1 H2. unfold lin_R, rot_R. rewrite B, C. clear A B C. apply (f_equal mot) in Em.
      assert (Em' : mot (withMot (N := R_arith) s m) = m) by reflexivity. rewrite Em' in Em. rewrite <- Em. clear Em Em'. unfold before. cbv zeta.
      change (a_lt (a_Z 0) (c_KBT c)) with (Rlt_bool 0 (c_KBT c)). destruct (Rlt_bool_spec 0 (c_KBT c)) as [K|K].
      - destruct H1 as [H1|H1]; [|lra]. rewrite !plus1_R, H1. unfold pl, pr. destruct (fNB r); cbn [mot withMot setVelNonB setForceNonB setBrown velNonB velBrown omegaNonB omegaBrown];
        (split; [match goal with |- add3 ?a ?b = _ => destruct a, b end|match goal with |- add3 ?a ?b = _ => destruct a, b end]; veq; ring).
      - destruct (H2 K) as (Z1 & Z2). destruct (fNB r); cbn [mot withMot setVelNonB setForceNonB setBrown velNonB velBrown omegaNonB omegaBrown]; rewrite Z1, Z2; split; symmetry; apply add3_0r. }
    exists pre. split; [exact E|]. split; [exact L|]. intros r p sc vnc Hp Hr. exact (proj2 (P r p (sc, vnc) Hp Hr)).
  Qed.

  (** the pieces of a vector *)
  Lemma vec_piece (xs : list (list R)) X g s r p i : X = concat xs -> map (@length R) xs = map (fun l => (6 * length l)%nat) (map pr_ptcl ranks) -> nth_error ranks r = Some p -> nth_error (pr_ptcl p) i = Some s ->
    (forall (xs : list (list R)) (d : nat), map (@length R) xs = map (fun l => (6 * length l)%nat) (map pr_ptcl ranks) -> (d < 6)%nat ->
      exists x, nth_error xs r = Some x /\ length x = (6 * length (pr_ptcl p))%nat /\ nth (6 * g + d) (concat xs) 0 = nth (6 * i + d) x 0) ->
    exists x, nth_error xs r = Some x /\ length x = (6 * length (pr_ptcl p))%nat /\ lin_R X g = lin_R x i /\ rot_R X g = rot_R x i.
  Proof using.
    intros -> L Hp Hi H. destruct (H xs 0%nat L ltac:(lia)) as (x & E & Lx & _). exists x. split; [exact E|]. split; [exact Lx|].
    assert (N : forall d, (d < 6)%nat -> nth (6 * g + d) (concat xs) 0 = nth (6 * i + d) x 0). { intros d Hd. destruct (H xs d L Hd) as (x' & E' & _ & N). rewrite E in E'. injection E' as <-. exact N. }
    unfold lin_R, rot_R, lin, rot. rarith. rewrite <- !N by lia. rewrite <- (Nat.add_0_r (6 * g)), <- (Nat.add_0_r (6 * i)) at 1. rewrite <- (N 0%nat) by lia. rewrite !Nat.add_0_r. split; reflexivity.
  Qed.

  Lemma parts6 (x : list R) : length x = (6 * n)%nat -> x = concat (parts (map (Nat.mul 6) (PipeSpec.sizes ranks)) x) /\
    map (@length R) (parts (map (Nat.mul 6) (PipeSpec.sizes ranks)) x) = map (fun l => (6 * length l)%nat) (map pr_ptcl ranks).
  Proof using.
    intros H. destruct (parts_ok (map (Nat.mul 6) (PipeSpec.sizes ranks)) x) as (A & B); [rewrite sum6, sizes_sum; exact H|]. split; [symmetry; exact A|]. rewrite B. unfold PipeSpec.sizes. rewrite !map_map. reflexivity.
  Qed.

  Local Notation kept := (WholeSpec.kept ranks).
  Lemma kept_sizes ranks' : kept ranks' -> map (@length syl) (map pr_ptcl ranks') = map (@length syl) (map pr_ptcl ranks).
  Proof using. unfold WholeSpec.kept. clear. induction 1 as [|p p' l l' (ss & -> & L)]; [reflexivity|]. cbn [map]. rewrite IHForall2. f_equal. exact L. Qed.

  (** what has become of the objects *)
  Definition results (fu vu fb vb vnc : list R) (r1 r2 : list ranked) : Prop :=
    kept r1 /\ kept r2 /\ forall g s, nth_error (objects ranks) g = Some s -> exists t, nth_error (objects r1) g = Some t /\
      nth_error (objects r2) g = Some (if c_fixed c then t else stepEuler (N := R_arith) sin cos (c_dt c) t) /\
      t = withMot (N := R_arith) s (mot t) /\ totals (N := R_arith) (mot t) /\ constraint_parts (N := R_arith) fu vu fb vb g (mot t) /\
      (c_monolayer c = false \/ c_KBT c <= 0 -> (c_KBT c <= 0 -> velBrown (mot s) = zero3 /\ omegaBrown (mot s) = zero3) ->
        lin_R vnc g = add3 (velNonB (mot t)) (velBrown (mot t)) /\ rot_R vnc g = add3 (omegaNonB (mot t)) (omegaBrown (mot t))).

  Lemma whole_step : exists ranks0 vnc, same_bodies ranks ranks0 /\ kept ranks0 /\ length vnc = (6 * n)%nat /\
    forall collect,
    let solve pools := solveAll (N := R_arith) fuel y (c_dt c) v (mobilityApply (N := R_arith) (mobAll mu ranks) (PipeSpec.sizes ranks)) (PipeSpec.sizes ranks) vnc pools in
    let run := runStepAll (N := R_arith) ln sin cos PI tenth c v fuel y (mobAll mu ranks) fNB vNB collect ranks in
    (forall pools pools' fu vu fb vb hist, collect ranks0 = Done (Some pools) -> solve pools = Done (Some (pools', (fu, vu, fb, vb), hist)) ->
      length fu = (6 * n)%nat -> length vu = (6 * n)%nat -> length fb = (6 * n)%nat -> length vb = (6 * n)%nat ->
      exists r1 r2, run = Done (Some (r1, r2, pools', hist)) /\ results fu vu fb vb vnc r1 r2) /\
    (forall r1 r2 pools' hist, run = Done (Some (r1, r2, pools', hist)) -> exists pools fu vu fb vb, collect ranks0 = Done (Some pools) /\ solve pools = Done (Some (pools', (fu, vu, fb, vb), hist))).
  Proof using Hord HfNB HvNB.
    destruct pre_all as (pre & Epre & Lpre & Ppre).
    set (ranks0 := map (fun pq => withPtcl (fst pq) (fst (snd pq))) (combine ranks pre)). set (vnc := concat (map snd pre)). exists ranks0, vnc.
    assert (L0 : length ranks0 = length ranks) by (unfold ranks0; rewrite map_length, combine_length; lia).
    assert (N0 : forall r p, nth_error ranks r = Some p -> exists sc vr, nth_error pre r = Some (sc, vr) /\ nth_error ranks0 r = Some (withPtcl p sc)).
    { intros r p Hp. pose proof (nth_error_lt _ _ _ Hp). destruct (nth_error pre r) as [(sc, vr)|] eqn:Er; [|apply nth_error_None in Er; lia]. exists sc, vr. split; [reflexivity|].
      unfold ranks0. rewrite nth_error_map, (nth_combine _ _ _ _ _ Hp Er). reflexivity. }
    assert (K0 : kept ranks0).
    { apply Forall2_nth_intro; [auto|]. intros r p Hp. destruct (N0 r p Hp) as (sc & vr & E1 & E2). eexists. split; [exact E2|]. exists sc. split; [reflexivity|]. exact (proj1 (Ppre r p sc vr Hp E1)). }
    assert (S0 : PipeSpec.sizes ranks0 = PipeSpec.sizes ranks). { pose proof (kept_sizes _ K0) as X. rewrite !map_map in X. exact X. }
    assert (Xnc : map (@length R) (map snd pre) = map (fun l => (6 * length l)%nat) (map pr_ptcl ranks)).
    { apply nth_error_ext_len; [rewrite !map_length; exact Lpre|]. intros r a Ha. rewrite !nth_error_map in *. destruct (nth_error pre r) as [(sc, vr)|] eqn:Er; [|discriminate]. cbn in Ha. injection Ha as <-.
      destruct (nth_error ranks r) as [p|] eqn:Ep; [|exfalso; apply nth_error_None in Ep; pose proof (nth_error_lt _ _ _ Er); lia]. cbn. destruct (Ppre r p sc vr Ep Er) as (_ & Lv & _). change (num R_arith) with R in Lv. rewrite Lv. reflexivity. }
    assert (Lnc : length vnc = (6 * n)%nat).
    { unfold vnc. refine (eq_trans (concat_length (map snd pre)) _). refine (eq_trans (f_equal sum_list Xnc) _). unfold n, objects. rewrite concat_length. rewrite !map_map. clear. induction ranks as [|p l IH]; [reflexivity|]. cbn [map]. rewrite !sum_list_cons, IH. lia. }
    split; [|split; [exact K0|split; [exact Lnc|]]].
    { apply Forall2_nth_intro; [auto|]. intros r p Hp. destruct (N0 r p Hp) as (sc & vr & E1 & E2). eexists. split; [exact E2|]. exists sc. split; [reflexivity|].
      destruct (Ppre r p sc vr Hp E1) as (A & _ & B). apply Forall2_nth_intro; [auto|]. intros i s Hi. destruct (B i s Hi) as (m & Em & _). eexists. split; [exact Em|]. exists m. reflexivity. }
    intros collect. cbv zeta.
    assert (Erun : runStepAll (N := R_arith) ln sin cos PI tenth c v fuel y (mobAll mu ranks) fNB vNB collect ranks =
      do pools <- collect ranks0;
      match pools with
      | None => Done None
      | Some pools =>
        do x <- solveAll (N := R_arith) fuel y (c_dt c) v (mobilityApply (N := R_arith) (mobAll mu ranks) (PipeSpec.sizes ranks)) (PipeSpec.sizes ranks) vnc pools;
        match x with
        | None => Done None
        | Some (pools, (fu, vu, fb, vb), hist) =>
            let cut := parts (map (Nat.mul 6) (PipeSpec.sizes ranks)) in
            do out <- omap (fun r => do p <- mread ranks0 r; do fu <- mread (cut fu) r; do vu <- mread (cut vu) r; do fb <- mread (cut fb) r; do vb <- mread (cut vb) r;
                             do x <- stepAfter (N := R_arith) sin cos c (y_ord (y r)) fu vu fb vb (pr_ptcl p); Done (withPtcl p (fst x), withPtcl p (snd x))) (seq 0 (length ranks0));
            Done (Some (map fst out, map snd out, pools, hist))
        end
      end).
    { unfold runStepAll. rewrite Epre. cbn [obind]. fold ranks0 vnc. change (map (fun p => length (pr_ptcl p)) ranks0) with (PipeSpec.sizes ranks0). rewrite S0. reflexivity. }
    rewrite Erun. clear Erun Epre. split.
    - intros pools pools' fu vu fb vb hist E1 E2 Lfu Lvu Lfb Lvb. rewrite E1. cbn [obind]. rewrite E2. cbn [obind]. clear E1 E2.
      set (cut := parts (A := R) (map (Nat.mul 6) (PipeSpec.sizes ranks))).
      destruct (PipeProofs.omap_seq (fun r p => do fu <- mread (cut fu) r; do vu <- mread (cut vu) r; do fb <- mread (cut fb) r; do vb <- mread (cut vb) r;
          do x <- stepAfter (N := R_arith) sin cos c (y_ord (y r)) fu vu fb vb (pr_ptcl p); Done (withPtcl p (fst x), withPtcl p (snd x)))
        (fun r p o => exists s1 s2, o = (withPtcl p s1, withPtcl p s2) /\ length s1 = length (pr_ptcl p) /\ length s2 = length (pr_ptcl p) /\
          forall a b c' d, nth_error (cut fu) r = Some a -> nth_error (cut vu) r = Some b -> nth_error (cut fb) r = Some c' -> nth_error (cut vb) r = Some d ->
          forall i s, nth_error (pr_ptcl p) i = Some s -> let t := sumObject (N := R_arith) (setConstraint s (lin b i) (rot b i) (lin d i) (rot d i) (lin a i) (rot a i) (lin c' i) (rot c' i)) in
            nth_error s1 i = Some t /\ nth_error s2 i = Some (if c_fixed c then t else stepEuler (N := R_arith) sin cos (c_dt c) t)) ranks0) as (out & Eo & Lo & Po).
      { intros r p0 Hp0. destruct (nth_error ranks r) as [p|] eqn:Ep; [|exfalso; apply nth_error_None in Ep; pose proof (nth_error_lt _ _ _ Hp0); lia].
        destruct (N0 r p Ep) as (sc & vr & E1 & E2). rewrite Hp0 in E2. injection E2 as ->. destruct (Ppre r p sc vr Ep E1) as (Lsc & _ & _).
        assert (Sr : nth_error (map (Nat.mul 6) (PipeSpec.sizes ranks)) r = Some (6 * length sc)%nat) by (rewrite Lsc; apply map_nth_error; apply (map_nth_error (fun p => length (pr_ptcl p))); exact Ep).
        assert (T : forall x : list R, length x = (6 * n)%nat -> exists l, nth_error (cut x) r = Some l /\ length l = (6 * length sc)%nat) by (intros x Hx; apply parts_nth; [rewrite sum6, sizes_sum; exact Hx|exact Sr]).
        destruct (T fu Lfu) as (a & Ea & La). destruct (T vu Lvu) as (b & Eb & Lb). destruct (T fb Lfb) as (c' & Ec & Lc). destruct (T vb Lvb) as (d & Ed & Ld).
        unfold mread. rewrite Ea. cbn [obind]. rewrite Eb. cbn [obind]. rewrite Ec. cbn [obind]. rewrite Ed. cbn [obind].
        destruct (after_ok (N := R_arith) sin cos c (y_ord (y r)) a b c' d sc) as (s1 & s2 & Es & L1 & L2 & Ps); try assumption; [intro k; rewrite Lsc; exact (Hord r p k Ep)|].
        cbn [pr_ptcl withPtcl]. rewrite Es. cbn [obind fst snd]. eexists. split; [reflexivity|]. exists s1, s2. split; [reflexivity|]. split; [exact L1|]. split; [exact L2|].
        intros a' b' c'' d' Ea' Eb' Ec' Ed'. injection Ea' as <-. injection Eb' as <-. injection Ec' as <-. injection Ed' as <-. exact Ps. }
      cbv zeta. match goal with |- context [obind (omap ?F ?l) _] => replace (omap F l) with (Done out) by (symmetry; exact Eo) end. cbn [obind]. change (num R_arith) with R in *. eexists _, _. split; [reflexivity|].
      assert (NO : forall r p, nth_error ranks r = Some p -> exists sc vr s1 s2, nth_error pre r = Some (sc, vr) /\ nth_error (map fst out) r = Some (withPtcl p s1) /\ nth_error (map snd out) r = Some (withPtcl p s2) /\
        length s1 = length (pr_ptcl p) /\ length s2 = length (pr_ptcl p) /\
        forall a b c' d, nth_error (cut fu) r = Some a -> nth_error (cut vu) r = Some b -> nth_error (cut fb) r = Some c' -> nth_error (cut vb) r = Some d ->
          forall i s, nth_error sc i = Some s -> let t := sumObject (N := R_arith) (setConstraint s (lin b i) (rot b i) (lin d i) (rot d i) (lin a i) (rot a i) (lin c' i) (rot c' i)) in
            nth_error s1 i = Some t /\ nth_error s2 i = Some (if c_fixed c then t else stepEuler (N := R_arith) sin cos (c_dt c) t)).
      { intros r p Hp. destruct (N0 r p Hp) as (sc & vr & E1 & E2). destruct (nth_error out r) as [o|] eqn:Er; [|exfalso; apply nth_error_None in Er; pose proof (nth_error_lt _ _ _ E2); rewrite Lo in Er; lia].
        destruct (Po r _ o E2 Er) as (_ & s1 & s2 & -> & Q1 & Q2 & Q3). destruct (Ppre r p sc vr Hp E1) as (Lsc & _). cbn [pr_ptcl withPtcl] in *. exists sc, vr, s1, s2. split; [exact E1|].
        split; [rewrite nth_error_map, Er; reflexivity|]. split; [rewrite nth_error_map, Er; reflexivity|]. split; [congruence|]. split; [congruence|]. exact Q3. }
      assert (Lout : length out = length ranks) by (rewrite Lo; exact L0).
      assert (K1 : kept (map fst out)). { apply Forall2_nth_intro; [rewrite map_length; auto|]. intros r p Hp. destruct (NO r p Hp) as (sc & vr & s1 & s2 & _ & E1 & _ & L1 & _). eexists. split; [exact E1|]. exists s1. split; [reflexivity|exact L1]. }
      assert (K2 : kept (map snd out)). { apply Forall2_nth_intro; [rewrite map_length; auto|]. intros r p Hp. destruct (NO r p Hp) as (sc & vr & s1 & s2 & _ & _ & E1 & _ & L1 & _). eexists. split; [exact E1|]. exists s2. split; [reflexivity|exact L1]. }
      split; [exact K1|]. split; [exact K2|]. intros g s Hg. unfold objects in Hg. destruct (find_piece _ _ _ Hg) as (r & l & i & F1 & F2 & F3 & F4).
      rewrite nth_error_map in F1. destruct (nth_error ranks r) as [p|] eqn:Ep; [|discriminate]. cbn in F1. injection F1 as <-.
      destruct (NO r p Ep) as (sc & vr & s1 & s2 & E1 & E2 & E3 & _ & _ & Q).
      destruct (Ppre r p sc vr Ep E1) as (_ & _ & Pi). destruct (Pi i s F2) as (m0 & Em & Hnc).
      pose proof (fun X HX => vec_piece (cut X) X g s r p i (proj1 (parts6 X HX)) (proj2 (parts6 X HX)) Ep F2 F4) as V.
      destruct (V fu Lfu) as (a & Ea & _ & a1 & a2). destruct (V vu Lvu) as (b & Eb & _ & b1 & b2). destruct (V fb Lfb) as (c' & Ec & _ & c1 & c2). destruct (V vb Lvb) as (d & Ed & _ & d1 & d2).
      destruct (Q a b c' d Ea Eb Ec Ed i _ Em) as (T1 & T2). set (t := sumObject _) in T1, T2. exists t.
      pose proof (nth_error_lt _ _ _ F2) as Hil.
      split; [|split; [|split; [|split; [|split]]]].
      + destruct (F3 _ (map pr_ptcl (map fst out)) (kept_sizes _ K1)) as (u & U1 & _ & U3). rewrite nth_error_map, E2 in U1. cbn in U1. injection U1 as <-. unfold objects. rewrite (U3 i Hil eq_refl). exact T1.
      + destruct (F3 _ (map pr_ptcl (map snd out)) (kept_sizes _ K2)) as (u & U1 & _ & U3). rewrite nth_error_map, E3 in U1. cbn in U1. injection U1 as <-. unfold objects. rewrite (U3 i Hil eq_refl). exact T2.
      + reflexivity.
      + repeat split; reflexivity.
      + unfold constraint_parts. unfold lin_R, rot_R in *. rewrite a1, a2, b1, b2, c1, c2, d1, d2. repeat split; reflexivity.
      + intros H1 H2. destruct (vec_piece (map snd pre) vnc g s r p i eq_refl Xnc Ep F2 F4) as (x & Ex & _ & x1 & x2). rewrite nth_error_map, E1 in Ex. cbn in Ex. injection Ex as <-. rewrite x1, x2. exact (Hnc H1 H2).
    - intros r1 r2 pools' hist E. destruct (collect ranks0) as [[pools|]| |]; try discriminate. cbn [obind] in E. exists pools.
      destruct (solveAll _ _ _ _ _ _ _ pools) as [[((pools2, (((fu, vu), fb), vb)), h)|]| |] eqn:ES; try discriminate. cbn [obind] in E.
      exists fu, vu, fb, vb. split; [reflexivity|]. destruct (omap _ _) as [o| |]; try discriminate. cbn [obind] in E. injection E as _ _ <- <-. reflexivity.
  Qed.
End Whole.
