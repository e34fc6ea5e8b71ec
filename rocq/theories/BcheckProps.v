(** C83: Boundary::check. *)
From Coq Require Import ZArith Reals Bool Lra.
From Verif Require Import F64 Arith ParticleModel VecModel VecSpec VecProofs BoundaryModel BoundarySpec SylFloat BcheckModel BcheckSpec BcheckProofs.
Local Open Scope R_scope.

(** what check accepts, for any three vectors *)
Theorem C83_meaning : forall b q p d, regular b -> (check (N := R_arith) b q p d = true <-> plausible b tol q p d).
Proof. exact check_iff. Qed.
Print Assumptions C83_meaning.

(** the output of project is accepted, unless the query is on the surface: then delta is zero and it is rejected *)
Theorem C83_accepts : forall b q, regular b -> off_centre b q ->
  (check (N := R_arith) b q (fst (project (N := R_arith) b q)) (snd (project (N := R_arith) b q)) = true <-> ~ surface b q).
Proof. exact accepts_iff. Qed.
Print Assumptions C83_accepts.

(** check does not tell the nearest point from the antipode: a sphere of radius 1 with objects outside, a query half way
    to the centre, and the point behind the centre *)
Theorem C83_nearest_refuted : exists b q P d, regular b /\ off_centre b q /\ ~ surface b q /\ q = sub3 P d /\
  check (N := R_arith) b q P d = true /\ ~ nearest b q P.
Proof. exact wrong_point. Qed.
Print Assumptions C83_nearest_refuted.

(** in doubles a projection that is not a number is accepted: the centre of a sphere *)
Theorem C83_nan_refuted : exists (b : boundary F_arith) (q : vec F_arith),
  let (P, d) := project b q in feq (vx P) (vx P) = false /\ feq (vx d) (vx d) = false /\ check b q P d = true.
Proof. exists (SphereShell (N := F_arith) (v3 0 0 0) (f_ofZ 1) true), (v3 0 0 0). vm_compute. auto. Qed.
Print Assumptions C83_nan_refuted.

(** the tolerance is absolute: in doubles the projection on a sphere of radius 40000 is rejected *)
Theorem C83_large_refuted : exists (b : boundary F_arith) (q : vec F_arith),
  match b with SphereShell c r _ => veqb c (v3 0 0 0) && feq r (f_ofZ 40000) && veqb q (v3 1 5 7) | _ => false end = true /\
  (let (P, d) := project b q in check b q P d) = false.
Proof. exists (SphereShell (N := F_arith) (v3 0 0 0) (f_ofZ 40000) true), (v3 1 5 7). vm_compute. auto. Qed.
Print Assumptions C83_large_refuted.

Example C83_example : let b := Tube (N := F_arith) (v3 1 0 0) (v3 0 0 1) (f_ofZ 3) true in let q := v3 2 1 9 in let (P, d) := project b q in
  check b q P d = true /\ check b q P (vscale (fopp (f_ofZ 1)) d) = false /\ check b q q d = false /\ check b q P (vscale (f_ofZ 2) d) = false.
Proof. vm_compute. auto. Qed.
(** the hypotheses of C83_accepts can be met on both sides *)
Example C83_example_hypotheses : let b := Wall (N := R_arith) (Vec 0 0 0) (Vec 0 0 1) in
  regular b /\ off_centre b (Vec 1 2 (-3)) /\ ~ surface b (Vec 1 2 (-3)) /\ surface b (Vec 1 2 0).
Proof. unfold regular, off_centre, surface, unit3, dot3, sub3. cbn. repeat split; lra. Qed.
