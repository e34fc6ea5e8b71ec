(** Many steps on all ranks, over the reals. *)
From Coq Require Import List ZArith Bool Reals Permutation.
From Flocq Require Import Core.
From Verif Require Import Outcome ListUtil Arith ParticleModel VecModel VecSpec PointsModel SylModel SylSpec ConModel ConSpec BoundaryModel LinkModel LinkSpec NearModel NearSpec StepModel TreeModel TreeSpec LetModel LetSpec CallModel CallSpec CallContact StepSpec QPModel QPSpec PipeModel PipeSpec WholeModel WholeSpec FullSpec SimModel.
Import ListNotations.
Local Open Scope R_scope.

Notation rsetting := (setting R_arith).
Notation rstate := (state R_arith).
Notation rreport := (report R_arith).

(** ** What is left open *)

(** samples of at least half of the share of each rank, see sampled *)
Definition fair (ranks n : nat) (k : luck R_arith) : Prop := any_luck k /\
  forall sizes r m, length sizes = ranks -> sum_list sizes = n -> nth_error sizes r = Some m ->
    (0 <= k_wanted k sizes r)%Z /\ (Z.of_nat m * (200 * Z.of_nat ranks) <= 2 * Z.of_nat n * (k_wanted k sizes r + 1))%Z.
(** any schedule, order of messages and of links, content of memory, forces and velocities of the right length *)
Definition any_play {Fo} (z : rsetting Fo) (ls : list (Z * Z)) (ranks : list ranked) (w : play R_arith Fo) : Prop :=
  (forall r, any_cast (length ranks) (z_threads z) (z_limit z) (nth r (PipeSpec.sizes ranks) 0%nat) (w_cast w r)) /\
  forall r p, nth_error ranks r = Some p -> any_dealing (z_threads z) (length (pr_ptcl p)) (z_bounds z) ls (w_deal w r) /\
    any_fate (length (pr_ptcl p)) (z_threads z) (w_fate w r) /\ StepSpec.sized (N := R_arith) (length (pr_ptcl p)) (w_force w r) /\ StepSpec.sized (N := R_arith) (length (pr_ptcl p)) (w_vel w r).

(** ** Settings and objects *)

(** real functions; sensible settings for n objects in the box, with neighbours searched within m boxes; the default solver; stepCount fits in an int *)
Record sensible {Fo} (z : rsetting Fo) (root : ort R) (m n : nat) : Prop := {
  se_reals : z_log z = ln /\ z_sin z = sin /\ z_cos z = cos /\ z_trunc z = Ztrunc /\ z_Pi z = PI;
  se_func : forall epi epj fs, length fs = length epi -> length (z_func z epi epj fs) = length fs;
  se_limit : (1 <= z_limit z <= z_group z)%Z;
  se_box : fit_box (z_pa z) root;
  se_link : (forall d, (d < 3)%nat -> vget (lk_pbc (z_link z)) d = true -> vget (lk_low (z_link z)) d = vget (olow root) d /\ vget (lk_high (z_link z)) d = vget (ohigh root) d) /\ lk_gap (z_link z) <= 2 ^ 100;
  se_mono : c_monolayer (z_step z) = false;
  se_step : 0 < c_dt (z_step z) /\ 0 < c_viscosity (z_step z);
  se_solve : v_tol (z_solve z) <= most * 10 /\ v_choice (z_solve z) <> 1%Z;
  se_far : (Z.of_nat m <= 9000)%Z;
  se_room : treeable (n * S (copies (z_pa z) m));
  se_few : (6 * Z.of_nat n <= INT_MAX)%Z;
  se_total : z_total z <= IZR INT_MAX * c_dt (z_step z) }.

(** what a step never changes of an object *)
Definition ident (s : syl) : Z * Z * bool * R * R := (s_gid s, s_group s, immovable s, radius s, slength s).
(** no object is absurdly far along an open axis *)
Definition near (pa : vec bool) (ranks : list ranked) : Prop := forall s, In s (objects ranks) -> forall b x, In (b, x) [(vx pa, vx); (vy pa, vy); (vz pa, vz)] -> b = false -> Rabs (x (spos s)) <= 2 ^ 100.
(** an object of these sizes is one that the contact search is made for *)
Definition fit_size (pa : vec bool) (root : ort R) (m : nat) (c : stepConfig R_arith) (s : syl) : Prop :=
  let r := reach (radius s) (slength s) (slength s * c_lengthRatio c) (c_colBuf c) in
  0 < radius s /\ 0 <= slength s /\ 0 <= c_diameterRatio c /\ 0 <= c_lengthRatio c /\ 0 <= c_colBuf c /\ r <= 2 ^ 100 /\ LetSpec.along pa (fun x => r <= INR m * edge root x) /\
  (slength s * c_lengthRatio c + 2 * (radius s * c_diameterRatio c) <= slength s + 2 * radius s \/ radius s * c_diameterRatio c <= slength s * c_lengthRatio c).

(** a state of the simulation between steps *)
Record healthy {Fo} (z : rsetting Fo) (root : ort R) (m nx ny nz n : nat) (ls : list (Z * Z)) (s : rstate) : Prop := {
  hy_root : b_root (t_doms s) = root;
  hy_tidy : tidy (t_doms s) nx ny nz (t_ranks s);
  hy_count : (0 <= t_count s)%Z;
  hy_first : b_doms (t_doms s) = None -> t_count s = 0%Z;
  hy_number : length (objects (t_ranks s)) = n;
  hy_enough : (nx * ny * nz <= n)%nat;
  hy_ids : NoDup (map s_gid (objects (t_ranks s)));
  hy_links : forall l, In l ls -> In (fst l) (map s_gid (objects (t_ranks s))) -> In (snd l) (map s_gid (objects (t_ranks s)));
  hy_objects : forall o, In o (objects (t_ranks s)) -> fit_size (z_pa z) root m (z_step z) o /\ unitq (orient o) }.

(** ** A step *)

(** the solver has seen a residual below the tolerance, no magnitude is at its upper bound, and objects move *)
Definition converged {Fo} (z : rsetting Fo) (o : rreport) : Prop :=
  below (z_solve z) (o_hist o) /\ Forall (fun k => gamma k <= most - margin) (concat (concat (o_pools o))) /\ c_fixed (z_step z) = false.
(** no sphere moves by more than its collision buffer in the step *)
Definition gentle (o : rreport) : Prop := forall i s s', nth_error (objects (o_prepared o)) i = Some s -> nth_error (objects (o_after o)) i = Some s' ->
  dist3 (spos s) (spos s') <= skin (rod s) * colBuf s.

(** no two spheres, and no sphere and periodic image of another one, overlap by more than eps, among the objects that were ss, with collision sizes, and are now ss' *)
Definition separate (pa : vec bool) (root : ort R) (eps : R) (ss ss' : list syl) : Prop :=
  forall i j s u s' u' k, i <> j -> nth_error ss i = Some s -> nth_error ss j = Some u -> nth_error ss' i = Some s' -> nth_error ss' j = Some u' -> lattice pa k -> round (rod s) -> round (rod u) ->
    skin (rod s) + skin (rod u) - eps < dist3 (spos s') (away root k (spos u')).
(** spheres near a wall, or beyond it, are inside by at least their radius, but for eps *)
Definition inside_walls (buf : R) (bs : list (boundary R_arith)) (eps : R) (ss ss' : list syl) : Prop :=
  forall i s s' wc wn, nth_error ss i = Some s -> nth_error ss' i = Some s' -> In (Wall (N := R_arith) wc wn) bs -> unit3 wn -> round (rod s) -> 0 < radiusCol s ->
    dot3 (sub3 (spos s) wc) wn <> 0 -> dot3 (sub3 (spos s) wc) wn < (1 + 2 * buf) * radiusCol s -> skin (rod s) - eps < dot3 (sub3 (spos s') wc) wn.

(** a step from s as it should be: the same objects, in the box after prepareStep, moved without change of shape; when it has converged, spheres near each other or near walls do not
    overlap, when it is gentle no spheres at all; forces of links sum to zero, and of contacts unless there are walls *)
Record good_step {Fo} (z : rsetting Fo) (root : ort R) (s : rstate) (o : rreport) : Prop := {
  gs_same : Permutation (map ident (objects (o_prepared o))) (map ident (objects (t_ranks s)));
  gs_inside : forall t, In t (objects (o_prepared o)) -> LetSpec.inside root (spos t);
  gs_moved : Forall2 (fun t t' => ident t' = ident t /\ colBuf t' = colBuf t /\ radiusCol t' = radiusCol t /\ lengthCol t' = lengthCol t /\ unitq (orient t')) (objects (o_prepared o)) (objects (o_after o));
  gs_near : converged z o -> forall i j t u t' u' k, nth_error (objects (o_prepared o)) i = Some t -> nth_error (objects (o_prepared o)) j = Some u -> i <> j ->
    nth_error (objects (o_after o)) i = Some t' -> nth_error (objects (o_after o)) j = Some u' -> lattice (z_pa z) k -> round (rod t) -> round (rod u) ->
    dist3 (spos t) (away root k (spos u)) < NearSpec.limit (rod t) (rod u) ->
    skin (rod t) + skin (rod u) - c_dt (z_step z) * v_tol (z_solve z) < dist3 (spos t') (away root k (spos u'));
  gs_apart : converged z o -> gentle o -> 0 < v_tol (z_solve z) -> separate (z_pa z) root (c_dt (z_step z) * v_tol (z_solve z)) (objects (o_prepared o)) (objects (o_after o));
  gs_walls : converged z o -> 0 <= z_buf z -> inside_walls (z_buf z) (z_bounds z) (c_dt (z_step z) * v_tol (z_solve z)) (objects (o_prepared o)) (objects (o_after o));
  gs_forces : converged z o -> forall d, (d < 3)%nat -> Rsum (map (fun t => vget (forceBi (mot t)) d) (objects (o_before o))) = 0 /\
    (z_bounds z = [] -> Rsum (map (fun t => vget (forceCol (mot t)) d) (objects (o_before o))) = 0) }.

(** ** A run *)

(** steps that follow each other *)
Inductive steps {Fo} (z : rsetting Fo) (root : ort R) : rstate -> list rreport -> rstate -> Prop :=
| steps_nil s : steps z root s [] s
| steps_cons s o os s' : onward z s = true -> near (z_pa z) (t_ranks s) -> good_step z root s o -> steps z root (next s o) os s' -> steps z root s (o :: os) s'.

(** more blocks than can be counted are collected in the next step *)
Definition crowded {Fo} (z : rsetting Fo) (k : luck R_arith) (w : list ranked -> play R_arith Fo) (s : rstate) : Prop :=
  exists fuel b ranks pools, prepareStep k fuel (z_dmax z) (z_step z) (t_count s) (t_doms s) (t_ranks s) = Done (Some (b, ranks)) /\
    collectAll z (w ranks) fuel b ranks = Done (Some pools) /\ (INT_MAX < Z.of_nat (length (concat (concat pools))))%Z.
