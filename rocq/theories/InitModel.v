(** Model of SylinderSystem::setInitialFromConfig, getOrient and setInitialCircularCrossSection (Sylinder/SylinderSystem.cpp:190-290) on one rank. *)
From Coq Require Import List Arith ZArith Bool.
From Verif Require Import Outcome ListUtil Arith ParticleModel ConModel VecModel SylModel GeoModel StepModel VtpModel StatModel.
Import ListNotations.

Section Init.
  Context {N : arith}.
  Local Open Scope arith_scope.

  (** the members of SylinderConfig used (Sylinder/SylinderConfig.hpp) *)
  Record initConfig := InitConfig { i_number : nat; i_length : N; i_lengthSigma : N; i_diameter : N; i_low : vec N; i_high : vec N; i_orient : vec N; i_circular : bool }.
  (** the random numbers one object uses: lengths drawn, position, direction, orientation, place in the circle (Util/TRngPool.hpp:109-111) *)
  Record randoms := Randoms { r_len : list N; r_pos : vec N; r_dir : vec N; r_quat : vec N; r_circ : N * N }.
  (** what the constructor leaves unset: radiusSearch, colBuf (Sylinder/Sylinder.hpp:50-52) *)
  Record unset := Unset { u_search : N; u_colBuf : N }.

  (** Sylinder/SylinderSystem.cpp:190-216; library functions and the literal Pi as arguments *)
  Definition getOrient (fsin fcos : N -> N) (Pi eps : N) (perp : vec N -> vec N -> vec N) (p : vec N) (r : randoms) : quat N :=
    let pick (x u : N) := if (x <? a_Z (-1)) || (x >? a_Z 1) then a_Z 2 * u - a_Z 1 else x in
    let pvec := Vec (pick (vx p) (vx (r_dir r))) (pick (vy p) (vy (r_dir r))) (pick (vz p) (vz (r_dir r))) in
    if negb (vx p =? vx pvec) && negb (vy p =? vy pvec) && negb (vz p =? vz pvec)
    then setUnitRandomEquatn fsin fcos Pi (vx (r_quat r)) (vy (r_quat r)) (vz (r_quat r))
    else fromTwoVectorsAny eps perp ez pvec.

  (** Sylinder/Sylinder.cpp:8-32 with the member initializers of Sylinder/Sylinder.hpp:40-46 *)
  Definition newSylinder (dmax : N) (u : unset) (gid : Z) (radius radiusCollision length lengthCollision : N) (pos : vec N) (orientation : quat N) : sylinder N :=
    let o := Vec (a_Z 0) (a_Z 0) (a_Z 0) in
    clearObject dmax (Syl gid (-1) (-1) (-1) false radius radiusCollision length lengthCollision (u_search u) (a_Z 0) (u_colBuf u) pos orientation (Motion o o o o o o o o o o o o o o o o o o)).

  (** Sylinder/SylinderSystem.cpp:244-247: draw until the length is not too large; NoFuel: the draws given do not suffice *)
  Fixpoint drawLength (maxLength : N) (ls : list N) : outcome N :=
    match ls with [] => NoFuel | l :: ls => if maxLength <=? l then drawLength maxLength ls else Done l end.
  (** Sylinder/SylinderSystem.cpp:227-230 *)
  Definition boxEdge (c : initConfig) : vec N := vec3 (fun k => vget (i_high c) k - vget (i_low c) k).
  (** Sylinder/SylinderSystem.cpp:231 *)
  Definition maxLength (c : initConfig) : N := dmin (dmin (vx (boxEdge c)) (vy (boxEdge c))) (vz (boxEdge c)) * a_lit 1 (-1).
  (** Sylinder/SylinderSystem.cpp:242-262: object i *)
  Definition initObject (fsin fcos : N -> N) (Pi eps dmax : N) (perp : vec N -> vec N -> vec N) (c : initConfig) (u : unset) (i : nat) (r : randoms) : outcome (sylinder N) :=
    do l <- (if i_lengthSigma c >? a_Z 0 then drawLength (maxLength c) (r_len r) else Done (i_length c));
    let pos := vec3 (fun k => vget (r_pos r) k * vget (boxEdge c) k + vget (i_low c) k) in
    let q := getOrient fsin fcos Pi eps perp (i_orient c) r in
    let radius := i_diameter c / a_Z 2 in
    Done (clearObject dmax (newSylinder dmax u (Z.of_nat i) radius radius l l pos q)).
  (** Sylinder/SylinderSystem.cpp:268-290: object i *)
  Definition circleObject (fsin fcos : N -> N) (Pi : N) (c : initConfig) (r : randoms) (s : sylinder N) : sylinder N :=
    let half := a_lit 1 (-1) in
    let cy := (vy (i_high c) - vy (i_low c)) * half + vy (i_low c) in
    let cz := (vz (i_high c) - vz (i_low c)) * half + vz (i_low c) in
    let rad := half * dmin (vz (i_high c) - vz (i_low c)) (vy (i_high c) - vy (i_low c)) in
    let (y, z) := getRandPointInCircle fcos fsin Pi rad (fst (r_circ r)) (snd (r_circ r)) in
    withPose s (Vec (vx (spos s)) (y + cy) (z + cz)) (orient s).
  (** Sylinder/SylinderSystem.cpp:218-266 on rank [rank]; [o1] [o2] the loop schedules, [mem] the container after setNumberOfParticleLocal, [rs] the random numbers of object i *)
  Definition setInitialFromConfig (fsin fcos : N -> N) (Pi eps dmax : N) (perp : vec N -> vec N -> vec N) (rank : nat) (o1 o2 : list nat) (c : initConfig)
    (us : nat -> unset) (rs : nat -> randoms) (mem : list (sylinder N)) : outcome (list (sylinder N)) :=
    do ss <- (if negb (rank =? 0)%nat then Done [] else forEach o1 (fun i _ => initObject fsin fcos Pi eps dmax perp c (us i) i (rs i)) mem);
    if i_circular c then forEach o2 (fun i s => Done (circleObject fsin fcos Pi c (rs i) s)) ss else Done ss.
End Init.
Arguments initConfig : clear implicits. Arguments randoms : clear implicits. Arguments unset : clear implicits.
