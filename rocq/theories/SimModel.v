(** Model of the main loop with its steps on all ranks: Sylinder/SylinderSystem_main.cpp:36-42, with prepareStep as in PipeModel and runStep as in
    WholeModel. calcOrderParameter, calcConStress and printTimingSummary after each step change nothing of this. *)
From Coq Require Import List ZArith Bool.
From Verif Require Import Outcome ListUtil Arith VecModel SylModel ParticleModel PointsModel StepModel NearModel ConModel BoundaryModel LinkModel TreeModel LetModel CallModel QPModel PipeModel WholeModel.
Import ListNotations.

Section Sim.
  Context {N : arith} {Fo : Type}.
  Local Open Scope arith_scope.
  Notation syl := (sylinder N).
  Notation prank := (@prank syl).
  Notation item := (item N (nearEP N)).

  (** what does not change in a run: functor and its clearing of the forces, elementary functions and constants, threads of each rank, periodic axes, limits of
      the tree, buffer for boundaries, boundaries, links, settings of step and solver, end of the run (Sylinder/SylinderSystem.hpp:30-75,
      Sylinder/SylinderConfig.hpp:40-110) *)
  Record setting := Setting {
    z_func : list item -> list item -> list Fo -> list Fo; z_clear : Fo -> Fo; z_log : N -> N; z_sin : N -> N; z_cos : N -> N; z_trunc : N -> Z;
    z_Pi : N; z_tenth : N; z_dmax : N; z_threads : nat; z_pa : vec bool; z_limit : Z; z_group : Z; z_buf : N; z_bounds : list (boundary N); z_link : linkConfig N;
    z_step : stepConfig N; z_solve : solveConfig N; z_total : N }.

  (** what is left open in a step after prepareStep, and the forces and velocities set by the user (Sylinder/SylinderSystem.cpp:934-946) *)
  Record play := Play {
    w_cast : nat -> cast N (nearEP N) Fo; w_fresh : nearEP N; w_junk : Z -> nearEP N; w_dir : list (Z * nearEP N); w_data : nat -> list (nearEP N);
    w_deal : nat -> dealing; w_fate : nat -> fate N; w_force : nat -> option (list N); w_vel : nat -> option (list N) }.

  (** stepCount, dinfo and the objects of the ranks (Sylinder/SylinderSystem.hpp:33-40) *)
  Record state := State { t_count : Z; t_doms : domains N; t_ranks : list prank }.
  (** one step: the domains, the objects after prepareStep, before moving and at the end, the blocks and the history of the solver; the data of one iteration of
      Sylinder/SylinderSystem_main.cpp:36-42 *)
  Record report := Report { o_doms : domains N; o_prepared : list prank; o_before : list prank; o_after : list prank; o_pools : list (pool N); o_hist : list (hrec N) }.

  (** the collectors of resolveConstraints (Sylinder/SylinderSystem.cpp:837-848) *)
  Definition collectAll (z : setting) (w : play) (fuel : nat) (b : domains N) : list prank -> outcome (option (list (pool N))) :=
    collectConstraints (collectPairCollision (z_func z) (z_clear z) (w_cast w) (z_trunc z) (z_Pi z) (z_threads z) fuel (z_pa z) (z_limit z) (z_group z) b) fuel
      (z_Pi z) (z_buf z) (z_bounds z) (z_link z) (w_fresh w) (w_junk w) (w_dir w) (w_data w) (w_deal w).

  (** prepareStep and runStep (Sylinder/SylinderSystem_main.cpp:37-38, Sylinder/SylinderSystem.cpp:886-968); None when a rank exits; stepCount++ on an int *)
  Definition oneStep (z : setting) (k : luck N) (w : list prank -> play) (fuel : nat) (s : state) : outcome (option report) :=
    do p <- prepareStep k fuel (z_dmax z) (z_step z) (t_count s) (t_doms s) (t_ranks s);
    match p with
    | None => Done None
    | Some (b, ranks) =>
        let w := w ranks in
        do ms <- calcMobOperator (z_log z) (z_Pi z) (c_viscosity (z_step z)) (w_fate w) ranks;
        do x <- runStepAll (z_log z) (z_sin z) (z_cos z) (z_Pi z) (z_tenth z) (z_step z) (z_solve z) fuel (w_fate w) ms (w_force w) (w_vel w) (collectAll z w fuel b) ranks;
        match x with
        | None => Done None
        | Some (r1, r2, pools, hist) => if Z.eqb (t_count s) INT_MAX then UB else Done (Some (Report b ranks r1 r2 pools hist))
        end
    end.
  (** the state after a step (Sylinder/SylinderSystem.cpp:965-967) *)
  Definition next (s : state) (o : report) : state := State (t_count s + 1) (o_doms o) (o_after o).

  (** the condition of the main loop (Sylinder/SylinderSystem_main.cpp:36) *)
  Definition onward (z : setting) (s : state) : bool := a_Z (t_count s) * c_dt (z_step z) <? z_total z.
  (** the main loop, at most n times (Sylinder/SylinderSystem_main.cpp:36-42): the steps and the state at the end; ks and ws are what is left open in each
      step, fuel bounds the loops in it *)
  Fixpoint run (z : setting) (ks : Z -> luck N) (ws : Z -> list prank -> play) (fuel : Z -> nat) (n : nat) (s : state) : outcome (option (list report * state)) :=
    match n with
    | O => Done (Some ([], s))
    | S n => if onward z s then
               do x <- oneStep z (ks (t_count s)) (ws (t_count s)) (fuel (t_count s)) s;
               match x with
               | None => Done None
               | Some o => do y <- run z ks ws fuel n (next s o); Done (option_map (fun y => (o :: fst y, snd y)) y)
               end
             else Done (Some ([], s))
    end.
End Sim.
Arguments setting : clear implicits.
Arguments play : clear implicits.
Arguments state : clear implicits.
Arguments report : clear implicits.
