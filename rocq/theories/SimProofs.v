(** Proofs for SimSpec. *)
From Coq Require Import List Arith ZArith Lia Bool Reals Lra Permutation.
From Flocq Require Import Core.
From Verif Require Import Outcome ListUtil Arith GeoModel ParticleModel ParticleSpec VecModel VecSpec VecProofs PointsModel SylModel SylSpec SylProofs ConModel ConSpec BoundaryModel LinkModel LinkSpec NearModel NearSpec StepModel StepSpec StepProofs TreeModel TreeSpec LetModel LetSpec CallModel CallSpec CallSort CallContact QPModel QPSpec PipeModel PipeSpec PipeProofs PipeCollect WholeModel WholeSpec WholeProofs WholeSolve WholeStep WholeMain FullSpec FullProofs FullMain SimModel SimSpec.
Import ListNotations.
Local Open Scope R_scope.

(** ** Moving *)

(** the objects after a step *)
Definition moves (c : stepConfig R_arith) (ranks r1 r2 : list ranked) : Prop := kept ranks r1 /\ kept ranks r2 /\
  forall g s, nth_error (objects ranks) g = Some s -> exists t, nth_error (objects r1) g = Some t /\ t = withMot (N := R_arith) s (mot t) /\
    nth_error (objects r2) g = Some (if c_fixed c then t else stepEuler (N := R_arith) sin cos (c_dt c) t).

Lemma main_moves threads tenth c v fuel y fNB vNB collect ranks : in_order threads c v y fNB vNB collect ranks -> v_choice v <> 1%Z ->
  (forall ranks', same_bodies ranks ranks' -> exists pools, collect ranks' = Done (Some pools)) ->
  exists ms r1 r2 pools hist, calcMobOperator (N := R_arith) ln PI (c_viscosity c) y ranks = Done ms /\
    runStepAll (N := R_arith) ln sin cos PI tenth c v fuel y ms fNB vNB collect ranks = Done (Some (r1, r2, pools, hist)) /\ moves c ranks r1 r2.
Proof.
  intros ([Hdt Hmu Hp H6 Hy Htol] & Hcol) Hv HC. apply Z.eqb_neq in Hv. pose proof (mobs_ok c y threads fNB vNB ranks Hy) as Em. eexists.
  destruct (whole_step tenth c v fuel y fNB vNB ranks) as (ranks0 & vnc & S & K & L & W); [intros r p k H; apply (Hy r p H)|intros r p H; apply (Hy r p H)|intros r p H; apply (Hy r p H)|].
  destruct (HC ranks0 S) as (pools & Ec). destruct (solve_hyps y threads fNB vNB collect ranks Hy Hcol _ _ S Ec) as (A1 & A2 & A3 & A4). destruct (W collect) as (W1 & _).
  destruct (solve_total fuel y (c_dt c) v (mobilityApply (N := R_arith) (mobAll (c_viscosity c) ranks) (PipeSpec.sizes ranks)) (PipeSpec.sizes ranks) vnc pools Hdt Htol) as (pools' & fu & vu & fb & vb & hist & Es & L1 & L2 & L3 & L4);
    rewrite ?sizes_sum in *; try assumption; [apply mobility_psd; assumption|].
  destruct (W1 pools pools' fu vu fb vb hist Ec Es L1 L2 L3 L4) as (r1 & r2 & E & K1 & K2 & RS). exists r1, r2, pools', hist. split; [exact Em|]. split; [exact E|]. split; [exact K1|]. split; [exact K2|].
  intros g s Hg. destruct (RS g s Hg) as (t & T1 & T2 & T3 & _). exists t. auto.
Qed.

(** ** prepareStep clears the motion *)

Lemma omap_inv {A B} (f : A -> outcome B) : forall l ys y, omap f l = Done ys -> In y ys -> exists x, In x l /\ f x = Done y.
Proof.
  induction l as [|a l IH]; intros ys y E Hy; cbn [omap] in E; [injection E as <-; destruct Hy|].
  destruct (f a) as [b| |] eqn:Ea; try discriminate E. cbn [obind] in E. destruct (omap f l) as [bs| |] eqn:El; try discriminate E. cbn [obind] in E. injection E as <-.
  destruct Hy as [<-|Hy]; [exists a; cbn; auto|]. destruct (IH bs y eq_refl Hy) as (x & Hx & Ex). exists x. cbn. auto.
Qed.
Definition at_rest (s : syl) : Prop := velBrown (mot s) = zero3 /\ omegaBrown (mot s) = zero3.

Lemma prepare_rest k fuel dmax c stepCount b (ranks : list ranked) b' out : any_luck k -> prepareStep k fuel dmax c stepCount b ranks = Done (Some (b', out)) -> Forall at_rest (objects out).
Proof.
  intros (_ & _ & K3 & K4) E. unfold prepareStep in E.
  destruct (omap (applyBoxBC fuel (b_root b)) ranks) as [r1| |]; try discriminate E. cbn [obind] in E.
  destruct (if Z.eqb (Z.rem stepCount 50) 0 then decomposeDomainStep k fuel b r1 else Done (b, r1)) as [[b1 r2]| |]; try discriminate E. cbn [obind] in E.
  destruct (exchangeSylinder k b1 r2) as [[r3|]| |]; try discriminate E. cbn [obind] in E.
  match type of E with obind (omap ?f ?l) _ = _ => destruct (omap f l) as [r4| |] eqn:E4; try discriminate E end. cbn [obind] in E.
  match type of E with obind ?f _ = _ => destruct f as [m| |]; try discriminate E end. cbn [obind] in E. injection E as <- <-.
  assert (Q : forall p, In p r4 -> Forall at_rest (pr_ptcl p)).
  { intros p Hp. destruct (omap_inv _ _ _ _ E4 Hp) as (r & _ & Ef).
    destruct (mread r3 r) as [q| |]; try discriminate Ef. cbn [obind] in Ef.
    destruct (prepare_any dmax c (Z.of_nat r) (k_loop1 k r (length (pr_ptcl q))) (k_loop2 k r (length (pr_ptcl q))) (pr_ptcl q) (K3 _ _) (K4 _ _)) as (ss & S1 & S2 & S3). rewrite S1 in Ef. cbn [obind] in Ef. injection Ef as <-. cbn [withPtcl pr_ptcl].
    apply Forall_forall. intros t Ht. apply In_nth_error in Ht. destruct Ht as (j & Hj). destruct (nth_error (pr_ptcl q) j) as [s|] eqn:Es; [|exfalso; apply nth_error_None in Es; pose proof (nth_error_lt _ _ _ Hj); lia].
    destruct (S3 j s Es) as (s' & W & _ & _ & _ & _ & _ & _ & _ & _ & _ & _ & _ & Z). rewrite Hj in W. injection W as ->.
    assert (at_rest s') by (split; apply Z; cbn; tauto). destruct (c_monolayer c); assumption. }
  unfold objects. apply Forall_concat, Forall_map, Forall_map, Forall_forall. intros [p li] Hp. cbn [fst snd withPtcl pr_ptcl]. apply in_combine_l in Hp. specialize (Q p Hp). rewrite Forall_forall in Q.
  apply Forall_map, Forall_forall. intros [s i] Hs. apply in_combine_l in Hs. exact (Q s Hs).
Qed.

(** ** More fuel changes nothing *)

Definition lasting {A} (f : nat -> outcome A) : Prop := forall n m x, (n <= m)%nat -> f n = Done x -> f m = Done x.
Lemma lasting_bind {A B} (f : nat -> outcome A) (g : nat -> A -> outcome B) : lasting f -> (forall a, lasting (fun n => g n a)) -> lasting (fun n => obind (f n) (g n)).
Proof. intros F G n m x H E. cbn beta in *. destruct (f n) as [a| |] eqn:Ea; try discriminate E. rewrite (F _ _ _ H Ea). exact (G a n m x H E). Qed.
Lemma lasting_const {A} (a : outcome A) : lasting (fun _ => a).
Proof. intros n m x _ E. exact E. Qed.
Lemma lasting_omap {A B} (f : nat -> A -> outcome B) : (forall a, lasting (fun n => f n a)) -> forall l, lasting (fun n => omap (f n) l).
Proof. intros F. induction l as [|a l IH]; [intros n m x _ E; exact E|]. apply (lasting_bind (fun n => f n a) (fun n b => do bs <- omap (f n) l; Done (b :: bs))); [apply F|]. intros b. apply (lasting_bind (fun n => omap (f n) l) (fun n bs => Done (b :: bs))); [exact IH|]. intros; apply lasting_const. Qed.

Lemma lasting_add (low len : R) : forall x, lasting (fun n => addWhile (N := R_arith) n low len x).
Proof.
  intros x n. revert x. induction n as [|n IH]; intros x [|m] y H E; cbn [addWhile] in *; try exact E.
  - destruct (a_lt x low); [discriminate E|exact E].
  - lia.
  - destruct (a_lt x low); [|exact E]. apply (IH _ m y); [lia|exact E].
Qed.
Lemma lasting_sub (high len : R) : forall x, lasting (fun n => subWhile (N := R_arith) n high len x).
Proof.
  intros x n. revert x. induction n as [|n IH]; intros x [|m] y H E; cbn [subWhile] in *; try exact E.
  - match type of E with (if ?b then _ else _) = _ => destruct b end; [discriminate E|exact E].
  - lia.
  - match type of E with (if ?b then _ else _) = _ => destruct b end; [|exact E]. apply (IH _ m y); [lia|exact E].
Qed.
Lemma lasting_box root (p : ranked) : lasting (fun n => applyBoxBC (N := R_arith) n root p).
Proof.
  assert (C : forall low high x, lasting (fun n => adjustCoordinate (N := R_arith) n low high x)) by (intros; apply lasting_bind; [apply lasting_add|]; intros; apply lasting_bind; [apply lasting_sub|]; intros; apply lasting_const).
  apply lasting_bind; [|intros; apply lasting_const]. apply lasting_omap. intros s. apply lasting_bind; [|intros; apply lasting_const].
  apply lasting_bind; [apply C|]. intros. apply lasting_bind; [apply C|]. intros. apply lasting_bind; [apply C|]. intros. apply lasting_const.
Qed.
Lemma lasting_prepare k dmax c stepCount b (ranks : list ranked) : lasting (fun n => prepareStep k n dmax c stepCount b ranks).
Proof.
  unfold prepareStep. apply lasting_bind; [apply lasting_omap; intros; apply lasting_box|]. intros r1. apply lasting_bind; [|intros; apply lasting_const].
  destruct (Z.eqb _ _); [|apply lasting_const]. apply lasting_bind; [apply lasting_omap; intros; apply lasting_box|]. intros; apply lasting_const.
Qed.
