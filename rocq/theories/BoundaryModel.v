(** Model of Boundary/Boundary.cpp and of SylinderSystem::collectBoundaryCollision. *)
From Coq Require Import List Arith ZArith Bool.
From Verif Require Import Outcome ListUtil Arith ParticleModel ConModel VecModel SylModel.
Import ListNotations.

(** ** Queues filled by the threads of a parallel loop *)

(** que.push_back on the queue of thread t (Sylinder/SylinderSystem.cpp:1102, 1422) *)
Definition pushQueue {A} (p : list (list A)) (t : nat) (xs : list A) : outcome (list (list A)) :=
  do q <- mread p t; mwrite p t (q ++ xs).
(** a parallel loop: in some order, thread t appends xs (Sylinder/SylinderSystem.cpp:1098-1140) *)
Definition pushAll {A} (p : list (list A)) (work : list (nat * list A)) : outcome (list (list A)) :=
  ofold (fun p w => pushQueue p (fst w) (snd w)) work p.

Section Boundary.
  Context {N : arith}.
  Local Open Scope arith_scope.

  (** Boundary/Boundary.hpp:49-95 *)
  Inductive boundary :=
  | SphereShell (center : vec N) (radius : N) (inside : bool)
  | Wall (center norm : vec N)
  | Tube (center axis : vec N) (radius : N) (inside : bool).

  (** Boundary/Boundary.cpp:12-16, 92-96, 160-166: the constructors normalise norm and axis *)
  Definition newSphereShell (center : vec N) (radius : N) (inside : bool) := SphereShell center radius inside.
  (** Boundary/Boundary.cpp:92-96 *)
  Definition newWall (center norm : vec N) := Wall center (vnormalized norm).
  (** Boundary/Boundary.cpp:160-166 *)
  Definition newTube (center axis : vec N) (radius : N) (inside : bool) := Tube center (vnormalized axis) radius inside.

  (** Boundary/Boundary.cpp:24-41 (sphere), 104-119 (wall), 177-202 (tube): project and delta *)
  Definition project (b : boundary) (query : vec N) : vec N * vec N :=
    match b with
    | SphereShell center radius inside =>
        let Query := vsub query center in
        let QueryR := vnorm Query in
        let Proj := vscale (radius * (a_Z 1 / QueryR)) Query in
        let PQ := vsub Query Proj in
        let out := QueryR >? radius in
        (vadd Proj center, if (inside && out) || (negb inside && negb out) then vscale (- a_Z 1) PQ else PQ)
    | Wall center norm =>
        let t := vdot (vsub query center) norm in
        let Proj := vsub query (vscale t norm) in
        let PQ := vsub query Proj in
        (Proj, if t <? a_Z 0 then vscale (- a_Z 1) PQ else PQ)
    | Tube center axis radius inside =>
        let t := vdot (vsub query center) axis in
        let ProjAxis := vadd center (vscale t axis) in
        let ProjAxisQ := vsub query ProjAxis in
        let Proj := vadd ProjAxis (vscale radius (vnormalized ProjAxisQ)) in
        let delta := vsub query Proj in
        (Proj, if vnorm ProjAxisQ >? radius then (if inside then vscale (- a_Z 1) delta else delta)
               else (if negb inside then vscale (- a_Z 1) delta else delta))
    end.

  (** Sylinder/SylinderSystem.cpp:1109-1133: checkEnd, the blocks it appends *)
  Definition checkEnd (colBufGlobal : N) (b : boundary) (s : sylinder N) (Query : vec N) (rad : N) : list (block N) :=
    let (Proj, delta) := project b Query in
    let deltanorm := vnorm delta in
    let norm := vscale (a_Z 1 / deltanorm) delta in
    let posI := vsub Query (spos s) in
    let mk gap := mkBlock gap (a_Z 0) (s_gid s) (s_gid s) (s_index s) (s_index s) norm norm posI posI Query Proj
                    true false (a_Z 0) (a_Z 0) in
    if vdot (vsub Query Proj) delta <? a_Z 0 then [mk (- deltanorm - rad)]
    else if deltanorm <? (a_Z 1 + colBufGlobal * a_Z 2) * radiusCol s then [mk (deltanorm - rad)]
    else [].

  (** Sylinder/SylinderSystem.cpp:1135-1146: the blocks of one object at one boundary *)
  Definition checkObject (colBufGlobal : N) (b : boundary) (s : sylinder N) : list (block N) :=
    if isSphere true s then checkEnd colBufGlobal b s (spos s) (lengthCol s * a_lit 1 (-1) + radiusCol s)
    else let arm := vscale (lengthCol s * a_lit 1 (-1)) (axis s) in
         checkEnd colBufGlobal b s (vsub (spos s) arm) (radiusCol s) ++
         checkEnd colBufGlobal b s (vadd (spos s) arm) (radiusCol s).

  (** Sylinder/SylinderSystem.cpp:1092-1149, collectBoundaryCollision; [plan] gives for each boundary the
      order of the loop iterations and the thread of each *)
  Definition collectBoundaryCollision (colBufGlobal : N) (plan : list (list nat * (nat -> nat))) (bs : list boundary)
    (ss : list (sylinder N)) (p : list (list (block N))) : outcome (list (list (block N))) :=
    ofold (fun p bp =>
      do work <- omap (fun i => do s <- mread ss i; Done (snd (snd bp) i, checkObject colBufGlobal (fst bp) s)) (fst (snd bp));
      pushAll p work) (combine bs plan) p.
End Boundary.
Arguments boundary : clear implicits.
