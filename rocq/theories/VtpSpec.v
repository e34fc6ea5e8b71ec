(** What a VTK viewer or the restart code finds in the snapshot files. *)
From Coq Require Import List Arith ZArith Bool Ascii String Reals.
From Verif Require Import Outcome Arith ParticleModel ConModel VecModel VecSpec SylModel VtpModel RunModel.
Import ListNotations.
Local Notation length := List.length.
Local Notation concat := List.concat.
Local Open Scope nat_scope.

Section Spec.
  Context {N : arith}.

  (** tuple number k of an array *)
  Definition tuple (a : darray N) (k : nat) : option (list (value N)) :=
    if a_comp a * (k + 1) <=? length (a_data a) then Some (firstn (a_comp a) (skipn (a_comp a * k) (a_data a))) else None.
  (** the same, for the array with this name *)
  Definition named (l : list (darray N)) (name : text) (k : nat) : option (list (value N)) :=
    match find (fun a => if list_eq_dec ascii_dec (a_name a) name then true else false) l with Some a => tuple a k | None => None end.
  (** a point, a point value, a cell value *)
  Definition point (p : piece N) (k : nat) := tuple (p_points p) k.
  Definition atPoint (p : piece N) (name : string) (k : nat) := named (p_point p) (txt name) k.
  Definition atCell (p : piece N) (name : string) (k : nat) := named (p_cell p) (txt name) k.
  (** line k joins points a and b: offsets give one past its last entry of connectivity *)
  Definition line (p : piece N) (k : nat) (a b : nat) : Prop :=
    exists e, named (p_lines p) (txt "offsets") k = Some [VI (Z.of_nat e)] /\ e = 2 * k + 2 /\
      (k > 0 -> named (p_lines p) (txt "offsets") (k - 1) = Some [VI (Z.of_nat (e - 2))]) /\
      named (p_lines p) (txt "connectivity") (e - 2) = Some [VI (Z.of_nat a)] /\
      named (p_lines p) (txt "connectivity") (e - 1) = Some [VI (Z.of_nat b)].
  (** every array has exactly one tuple per point or per line *)
  Definition wellSized (p : piece N) : Prop :=
    length (a_data (p_points p)) = a_comp (p_points p) * n_points p /\
    (forall a, In a (p_point p) -> length (a_data a) = a_comp a * n_points p) /\
    (forall a, In a (p_cell p) -> length (a_data a) = a_comp a * n_lines p) /\
    n_points p = 2 * n_lines p.
  (** the header describes a piece: same arrays in the same order *)
  Definition describes (h : header) (p : piece N) : Prop :=
    map (fun a => FieldVTU (a_comp a) (a_type a) (a_name a)) (p_point p) = h_point h /\
    map (fun a => FieldVTU (a_comp a) (a_type a) (a_name a)) (p_cell p) = h_cell h /\
    (a_comp (p_points p), a_type (p_points p)) = h_pos h.

  Definition real1 (f32 : N -> N) (x : N) : list (value N) := [VR (f32 x)].
  Definition real3 (f32 : N -> N) (v : vec N) : list (value N) := [VR (f32 (vx v)); VR (f32 (vy v)); VR (f32 (vz v))].

  (** object s is item i of the piece *)
  Definition shows (f32 : N -> N) (p : piece N) (i : nat) (s : sylinder N) : Prop :=
    let half := vscale (a_mul (slength s) (a_lit 1 (-1))) (axis s) in let m := mot s in
    line p i (2 * i) (2 * i + 1) /\
    point p (2 * i) = Some (real3 (fun x => x) (vsub (spos s) half)) /\
    point p (2 * i + 1) = Some (real3 (fun x => x) (vadd (spos s) half)) /\
    atPoint p "endLabel" (2 * i) = Some [VI 0%Z] /\ atPoint p "endLabel" (2 * i + 1) = Some [VI 1%Z] /\
    atCell p "gid" i = Some [VI (s_gid s)] /\ atCell p "group" i = Some [VI (s_group s)] /\
    atCell p "isImmovable" i = Some [VI (if immovable s then 1 else 0)%Z] /\
    atCell p "radius" i = Some (real1 f32 (radius s)) /\ atCell p "radiusCollision" i = Some (real1 f32 (radiusCol s)) /\
    atCell p "length" i = Some (real1 f32 (slength s)) /\ atCell p "lengthCollision" i = Some (real1 f32 (lengthCol s)) /\
    atCell p "vel" i = Some (real3 f32 (vel m)) /\ atCell p "omega" i = Some (real3 f32 (omega m)) /\
    atCell p "velCollision" i = Some (real3 f32 (velCol m)) /\ atCell p "omegaCollision" i = Some (real3 f32 (omegaCol m)) /\
    atCell p "velBilateral" i = Some (real3 f32 (velBi m)) /\ atCell p "omegaBilateral" i = Some (real3 f32 (omegaBi m)) /\
    atCell p "velNonBrown" i = Some (real3 f32 (velNonB m)) /\ atCell p "omegaNonBrown" i = Some (real3 f32 (omegaNonB m)) /\
    atCell p "velBrown" i = Some (real3 f32 (velBrown m)) /\ atCell p "omegaBrown" i = Some (real3 f32 (omegaBrown m)) /\
    atCell p "force" i = Some (real3 f32 (force m)) /\ atCell p "torque" i = Some (real3 f32 (torque m)) /\
    atCell p "forceCollision" i = Some (real3 f32 (forceCol m)) /\ atCell p "torqueCollision" i = Some (real3 f32 (torqueCol m)) /\
    atCell p "forceBilateral" i = Some (real3 f32 (forceBi m)) /\ atCell p "torqueBilateral" i = Some (real3 f32 (torqueBi m)) /\
    atCell p "forceNonBrown" i = Some (real3 f32 (forceNonB m)) /\ atCell p "torqueNonBrown" i = Some (real3 f32 (torqueNonB m)) /\
    atCell p "xnorm" i = Some (real3 f32 (qrot (orient s) (Vec (a_Z 1) (a_Z 0) (a_Z 0)))) /\
    atCell p "znorm" i = Some (real3 f32 (axis s)).

  (** block b is item i of the constraint piece *)
  Definition showsBlock (f32 : N -> N) (p : piece N) (i : nat) (b : block N) : Prop :=
    line p i (2 * i) (2 * i + 1) /\
    point p (2 * i) = Some (real3 (fun x => x) (labI b)) /\ point p (2 * i + 1) = Some (real3 (fun x => x) (labJ b)) /\
    atPoint p "gid" (2 * i) = Some [VI (gidI b)] /\ atPoint p "gid" (2 * i + 1) = Some [VI (gidJ b)] /\
    atPoint p "globalIndex" (2 * i) = Some [VI (globalIndexI b)] /\ atPoint p "globalIndex" (2 * i + 1) = Some [VI (globalIndexJ b)] /\
    atPoint p "posIJ" (2 * i) = Some (real3 f32 (posI b)) /\ atPoint p "posIJ" (2 * i + 1) = Some (real3 f32 (posJ b)) /\
    atPoint p "normIJ" (2 * i) = Some (real3 f32 (normI b)) /\ atPoint p "normIJ" (2 * i + 1) = Some (real3 f32 (normJ b)) /\
    atCell p "oneSide" i = Some [VI (if oneSide b then 1 else 0)%Z] /\ atCell p "bilateral" i = Some [VI (if bilateral b then 1 else 0)%Z] /\
    atCell p "delta0" i = Some (real1 f32 (delta0 b)) /\ atCell p "gamma" i = Some (real1 f32 (gamma b)) /\
    atCell p "kappa" i = Some (real1 f32 (kappa b)) /\
    (length (stress b) = 9 -> atCell p "Stress" i = Some (map (fun x => VR (f32 x)) (stress b))).
End Spec.

Local Open Scope R_scope.
Definition norm3 (v : vec R) : R := sqrt (vx v * vx v + vy v * vy v + vz v * vz v).
Definition map3 (f : R -> R) (v : vec R) : vec R := Vec (f (vx v)) (f (vy v)) (f (vz v)).

(** t is what a restart makes of object s: sizes and velocities rounded to float, the axis rounded and normalised *)
Definition restored (f32 : R -> R) (eps : R) (s t : sylinder R_arith) : Prop :=
  s_gid t = s_gid s /\ s_group t = s_group s /\ immovable t = immovable s /\
  radius t = f32 (radius s) /\ radiusCol t = f32 (radiusCol s) /\ slength t = f32 (slength s) /\ lengthCol t = f32 (lengthCol s) /\
  spos t = spos s /\ vel (mot t) = map3 f32 (vel (mot s)) /\ omega (mot t) = map3 f32 (omega (mot s)) /\
  let d := map3 f32 (axis (N := R_arith) s) in let n := norm3 d in
  (0 < n -> (-1 + eps <= vz d / n \/ (vx d = 0 /\ vy d = 0)) ->
   unitq (orient t) /\ axis (N := R_arith) t = Vec (vx d / n) (vy d / n) (vz d / n)).
