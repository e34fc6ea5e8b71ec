(** What a step on all ranks is to do, over the reals. *)
From Coq Require Import List ZArith Bool Reals Permutation.
From Flocq Require Import Core.
From Verif Require Import Outcome ListUtil Arith ParticleModel VecModel VecSpec PointsModel SylModel SylSpec ConModel ConSpec StepModel StepSpec QPModel QPSpec PipeModel PipeSpec WholeModel.
Import ListNotations.
Local Open Scope R_scope.

(** ** The blocks *)

(** DBL_MAX / 10, the bound of the magnitudes, and the one below for bilateral blocks *)
Definition most : R := 9007199254740991 * bpow radix2 971 / 10.
Definition least (k : block R_arith) : R := if bilateral k then -100000000 else 0.
(** the stretch of a spring under unit force *)
Definition compliance (k : block R_arith) : R := if bilateral k then (if Rlt_dec 0 (kappa k) then / kappa k else 0) else 0.

(** a block for bodies among n, with a magnitude to start from *)
Definition posed (n : nat) (k : block R_arith) : Prop :=
  (0 <= globalIndexI k < Z.of_nat n)%Z /\ (oneSide k = false -> (0 <= globalIndexJ k < Z.of_nat n)%Z) /\ least k <= gamma k <= most.

(** velocity of the point at arm p of a body *)
Definition point_vel (m : motion R_arith) (p : vec R) : vec R := add3 (vel m) (cross3 (omega m) p).
(** the rate at which the gap opens when the bodies move like that *)
Definition opening (k : block R_arith) (mI mJ : motion R_arith) : R :=
  dot3 (normI k) (point_vel mI (posI k)) + (if oneSide k then 0 else dot3 (normJ k) (point_vel mJ (posJ k))).
(** the gap at the end of the step, to first order in the motion; for a spring with its stretch under the magnitude *)
Definition next_gap (dt : R) (k : block R_arith) (mI mJ : motion R_arith) : R := delta0 k + dt * opening k mI mJ + gamma k * compliance k.

(** the magnitude of a block fits to the motion of its bodies: the gap will be open or closed, up to dt tol, and closed where there is a force; a spring has its length *)
Definition resolved (dt tol : R) (k : block R_arith) (mI mJ : motion R_arith) : Prop :=
  least k <= gamma k <= most /\
  (gamma k <= most - margin -> - (dt * tol) < next_gap dt k mI mJ) /\
  (least k + margin <= gamma k -> next_gap dt k mI mJ < dt * tol).

(** the second normal is opposite to the first *)
Definition opposed (k : block R_arith) : Prop := oneSide k = false -> normJ k = scale3 (-1) (normI k).

(** the solver has seen a residual below the tolerance; the first record of APGD is a placeholder *)
Definition below (v : solveConfig R_arith) (hist : list (hrec R_arith)) : Prop :=
  exists e, In e (if (v_choice v =? 1)%Z then tl hist else hist) /\ Rabs (h_res e) < v_tol v.

(** ** The bodies *)

(** the body with index g *)
Definition body (ss : list syl) (g : Z) (s : syl) : Prop := (0 <= g)%Z /\ nth_error ss (Z.to_nat g) = Some s.
(** both bodies of a block *)
Definition bodies (ss : list syl) (k : block R_arith) (sI sJ : syl) : Prop :=
  body ss (globalIndexI k) sI /\ (oneSide k = false -> body ss (globalIndexJ k) sJ).

(** the load of the unilateral (bilateral) blocks on body g *)
Definition kind_load (bi : bool) (ks : list (block R_arith)) (g : Z) (d : nat) : R :=
  Rsum (map (fun k => block_load k (gamma k) g d) (filter (fun k => Bool.eqb (bilateral k) bi) ks)).
(** these are force and torque *)
Definition loaded (bi : bool) (ks : list (block R_arith)) (g : nat) (f t : vec R) : Prop :=
  forall d, (d < 3)%nat -> vget f d = kind_load bi ks (Z.of_nat g) d /\ vget t d = kind_load bi ks (Z.of_nat g) (d + 3).
(** the velocity of a body under force f and torque t *)
Definition responds (mu : R) (s : syl) (f t v w : vec R) : Prop :=
  if immovable s then v = zero3 /\ w = zero3
  else forall para perp rot, calcDragCoeff (N := R_arith) ln PI mu s = (para, perp, rot) -> v = response (axis (N := R_arith) s) para perp f /\ w = scale3 (/ rot) t.

(** t is body g, which was s, with the motion of the step: forces and velocities of the blocks, and their totals *)
Definition carried (mu : R) (ks : list (block R_arith)) (g : nat) (s t : syl) : Prop :=
  let m := mot t in t = withMot (N := R_arith) s m /\ totals (N := R_arith) m /\
  loaded false ks g (forceCol m) (torqueCol m) /\ loaded true ks g (forceBi m) (torqueBi m) /\
  responds mu s (forceCol m) (torqueCol m) (velCol m) (omegaCol m) /\ responds mu s (forceBi m) (torqueBi m) (velBi m) (omegaBi m).

(** the same objects, with other forces and velocities *)
Definition same_bodies (ranks ranks' : list ranked) : Prop :=
  Forall2 (fun p p' => exists ss, p' = withPtcl p ss /\ Forall2 (fun s s' => exists m, s' = withMot (N := R_arith) s m) (pr_ptcl p) ss) ranks ranks'.

(** each rank has as many objects as before *)
Definition kept (ranks ranks' : list ranked) : Prop := Forall2 (fun p p' => exists ss, p' = withPtcl p ss /\ length ss = length (pr_ptcl p)) ranks ranks'.

(** ** What is left open *)

Definition any_fate (n threads : nat) (y : fate R_arith) : Prop :=
  Permutation (y_mob y) (seq 0 n) /\ Permutation (y_fill1 y) (seq 0 threads) /\ Permutation (y_fill2 y) (seq 0 threads) /\ Permutation (y_back y) (seq 0 threads) /\
  forall k, Permutation (y_ord y k) (seq 0 n).

(** a collection of blocks for the bodies of these ranks: one pool for each rank, with a queue for each thread *)
Definition collecting (threads : nat -> nat) (collect : list ranked -> outcome (option (list (pool R_arith)))) (ranks : list ranked) : Prop :=
  forall ranks' pools, same_bodies ranks ranks' -> collect ranks' = Done (Some pools) ->
    length pools = length ranks /\ (forall r p, nth_error pools r = Some p -> length p = threads r) /\
    Forall (posed (length (objects ranks))) (concat (concat pools)) /\ (Z.of_nat (length (concat (concat pools))) <= INT_MAX)%Z.

(** ** The state before a step *)

(** settings and ranks *)
Record steady (threads : nat -> nat) (c : stepConfig R_arith) (v : solveConfig R_arith) (y : nat -> fate R_arith) (fNB vNB : nat -> option (list R)) (ranks : list ranked) : Prop := {
  st_dt : 0 < c_dt c;
  st_viscosity : 0 < c_viscosity c;
  st_proper : Forall proper (objects ranks);
  st_few : (6 * Z.of_nat (length (objects ranks)) <= INT_MAX)%Z;
  st_ranks : forall r p, nth_error ranks r = Some p -> any_fate (length (pr_ptcl p)) (threads r) (y r) /\ sized (N := R_arith) (length (pr_ptcl p)) (fNB r) /\ sized (N := R_arith) (length (pr_ptcl p)) (vNB r);
  st_tol : v_tol v <= most * 10 }.
(** with a collection of blocks *)
Definition in_order (threads : nat -> nat) (c : stepConfig R_arith) (v : solveConfig R_arith) (y : nat -> fate R_arith) (fNB vNB : nat -> option (list R))
  (collect : list ranked -> outcome (option (list (pool R_arith)))) (ranks : list ranked) : Prop := steady threads c v y fNB vNB ranks /\ collecting threads collect ranks.
(** no Brownian motion in a monolayer; without Brownian motion the Brownian velocities are zero from the start *)
Definition plain (c : stepConfig R_arith) (ranks : list ranked) : Prop := (c_monolayer c = false \/ c_KBT c <= 0) /\
  (c_KBT c <= 0 -> Forall (fun s => velBrown (mot s) = zero3 /\ omegaBrown (mot s) = zero3) (objects ranks)).
