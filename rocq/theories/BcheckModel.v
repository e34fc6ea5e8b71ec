(** Model of Boundary::check, the self test of a projection (Boundary/Boundary.cpp).  The printing is left out. *)
From Coq Require Import ZArith Bool.
From Verif Require Import Arith ParticleModel VecModel BoundaryModel.

Section Bcheck.
  Context {N : arith}.
  Local Open Scope arith_scope.

  (** Boundary/Boundary.cpp:5: epsilon() * 1e4 *)
  Definition eps : N := a_lit 10000 (-52).

  (** Boundary/Boundary.cpp:50-53 (sphere), 129 (wall), 207-210 (tube): condition 1, the number compared with eps *)
  Definition offSurface (b : boundary N) (Proj : vec N) : N :=
    match b with
    | SphereShell center radius _ => vnorm (vsub Proj center) - radius
    | Wall center norm => vdot (vsub Proj center) norm
    | Tube center axis radius _ =>
        let t := vdot (vsub Proj center) axis in
        radius - vnorm (vsub Proj (vadd center (vscale t axis)))
    end.
  (** Boundary/Boundary.cpp:64-67 (sphere), 141 (wall), 221-227 (tube): condition 3, the direction compared with that of delta *)
  Definition wantedNormal (b : boundary N) (Proj : vec N) : vec N :=
    match b with
    | SphereShell center _ inside =>
        let P := vsub Proj center in
        let norm := vscale (a_Z 1 / vnorm P) P in
        if inside then vscale (- a_Z 1) norm else norm
    | Wall _ norm => norm
    | Tube center axis _ inside =>
        let t := vdot (vsub Proj center) axis in
        let ProjAxis := vadd center (vscale t axis) in
        vnormalized (if inside then vsub ProjAxis Proj else vsub Proj ProjAxis)
    end.
  (** Query - Proj; the sphere subtracts its centre from both first (Boundary/Boundary.cpp:49-50, 56; 134, 213) *)
  Definition queryMinusProj (b : boundary N) (Query Proj : vec N) : vec N :=
    match b with
    | SphereShell center _ _ => vsub (vsub Query center) (vsub Proj center)
    | _ => vsub Query Proj
    end.
  (** Boundary/Boundary.cpp:42-73 (sphere), 121-146 (wall), 200-233 (tube) *)
  Definition check (b : boundary N) (query project delta : vec N) : bool :=
    if a_abs (offSurface b project) >? eps then false
    else if a_abs (vnorm (queryMinusProj b query project) - vnorm delta) >? eps then false
    else if a_abs (a_Z 1 - vdot (wantedNormal b project) (vnormalized delta)) >? eps then false
    else true.
End Bcheck.
