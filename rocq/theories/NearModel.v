(** Model of Sylinder/SylinderNear.hpp: the collision functor called by the neighbour search. *)
From Coq Require Import List Arith ZArith Bool.
From Verif Require Import Outcome ListUtil Arith ParticleModel ConModel VecModel SylModel BoundaryModel SegModel.
Import ListNotations.

Section Near.
  Context {N : arith}.
  Local Open Scope arith_scope.

  (** Sylinder/SylinderNear.hpp:40-52 *)
  Record nearEP := NearEP {
    e_gid : Z; e_index : Z; e_rank : Z; e_radius : N; e_length : N; e_radiusCol : N; e_lengthCol : N; e_colBuf : N;
    e_pos : vec N; e_dir : vec N }.

  (** Sylinder/SylinderNear.hpp:74-90 *)
  Definition copyFromFP (s : sylinder N) : nearEP :=
    NearEP (s_gid s) (s_index s) (s_rank s) (radius s) (slength s) (radiusCol s) (lengthCol s) (colBuf s) (spos s) (axis s).

  (** Sylinder/SylinderNear.hpp:108-110 *)
  Definition getRSearch (e : nearEP) : N :=
    stdmax (e_length e + a_Z 2 * e_radius e) (e_lengthCol e + a_Z 2 * e_lengthCol e) * (a_Z 1 + e_colBuf e).

  (** Sylinder/SylinderNear.hpp:238 *)
  Definition nearIsSphere (e : nearEP) : bool := e_lengthCol e <? a_Z 2 * e_radiusCol e.

  (** Sylinder/SylinderNear.hpp:488-495, InitializeSyN: (N(0,0), N(2,2)); the matrix is scaled from the left *)
  Definition initializeSyN (Pi r h rho : N) : N * N :=
    let beta := h / a_Z 2 / r in
    let n00 := a_Z 1 / a_Z 30 * (a_Z 15 * beta + a_Z 8) in
    let n22 := a_Z 1 / a_Z 15 * (a_Z 10 * beta * beta * beta + a_Z 20 * beta * beta + a_Z 15 * beta + a_Z 4) in
    (n00 * rho * r * r * r * r * r * Pi, n22 * rho * r * r * r * r * r * Pi).

  (** Sylinder/SylinderNear.hpp:505-512, InitializeSyGA *)
  Definition initializeSyGA (Pi r h rho : N) : N * N :=
    let beta := h / a_Z 2 / r in
    let g00 := a_Z 1 / a_Z 30 * (a_Z 20 * beta * beta * beta + a_Z 40 * beta * beta + a_Z 45 * beta + a_Z 16) in
    let g22 := a_Z 1 / a_Z 15 * (a_Z 15 * beta + a_Z 8) in
    (g00 * Pi * r * r * r * r * r * rho, g22 * Pi * r * r * r * r * r * rho).

  (** a I + (b - a) d d^T (Sylinder/SylinderNear.hpp:439-440, 447-448) *)
  Definition axisym (a b : N) (d : vec N) : mat3 N :=
    mkmat (fun i j => a * (if Nat.eqb i j then a_Z 1 else a_Z 0) + (b - a) * (vget d i * vget d j)).

  (** Sylinder/SylinderNear.hpp:457-459 *)
  Definition epsilon (i j k : nat) : N :=
    match i, j, k with
    | 0, 1, 2 | 1, 2, 0 | 2, 0, 1 => a_Z 1
    | 0, 2, 1 | 1, 0, 2 | 2, 1, 0 => - a_Z 1
    | _, _, _ => a_Z 0
    end%nat.

  (** the index triples (k, l, r) of the three inner loops (Sylinder/SylinderNear.hpp:466-473) *)
  Definition klr : list (nat * nat * nat) := list_prod (list_prod (seq 0 3) (seq 0 3)) (seq 0 3).
  (** SGI(i,j) (Sylinder/SylinderNear.hpp:464-475) *)
  Definition sg (M InvG : mat3 N) (x : vec N) (i j : nat) : N :=
    fold_left (fun s t => match t with (k, l, r) => s + mget M i l * epsilon j k l * mget InvG k r * vget x r end) klr (a_Z 0).

  (** Sylinder/SylinderNear.hpp:426-478 *)
  Definition collideStress (Pi : N) (dirI dirJ centerI centerJ : vec N) (hI hJ rI rJ rho : N) (Ploc Qloc : vec N) : mat3 N :=
    let '(aI, bI) := initializeSyN Pi rI hI rho in
    let '(gaI, gbI) := initializeSyGA Pi rI hI rho in
    let '(aJ, bJ) := initializeSyN Pi rJ hJ rho in
    let '(gaJ, gbJ) := initializeSyGA Pi rJ hJ rho in
    let NI := axisym aI bI dirI in
    let NJ := axisym aJ bJ dirJ in
    let InvGI := axisym (a_Z 1 / gaI) (a_Z 1 / gbI) dirI in
    let InvGJ := axisym (a_Z 1 / gaJ) (a_Z 1 / gbJ) dirJ in
    let F1 := vnormalized (vsub Qloc Ploc) in
    let xICf := vcross (vsub Ploc centerI) (vopp F1) in
    let xJCf := vcross (vsub Qloc centerJ) F1 in
    mkmat (fun i j => vget centerI i * (- vget F1 j) + vget centerJ i * vget F1 j + sg NI InvGI xICf i j + sg NJ InvGJ xJCf i j).

  (** the block of a contact (Sylinder/SylinderNear.hpp:270-287, 325-348, 386-406): made when the separation is below the
      buffer; [reverse] swaps the bodies before the stress is set *)
  Definition contactBlock (reverse : bool) (I J : nearEP) (sep : N) (Ploc Qloc : vec N) (stressIJ : mat3 N) : outcome (block N) :=
    let gamma := if sep <? a_Z 0 then - sep else a_Z 0 in
    let normI := vnormalized (vsub Ploc Qloc) in
    let normJ := vopp normI in
    let b := mkBlock sep gamma (e_gid I) (e_gid J) (e_index I) (e_index J) normI normJ
               (vsub Ploc (e_pos I)) (vsub Qloc (e_pos J)) Ploc Qloc false false (a_Z 0) (a_Z 0) in
    setStressMat (if reverse then reverseIJ b else b) stressIJ.

  (** lengthCollision * 0.5 + radiusCollision (Sylinder/SylinderNear.hpp:256-257, 309) *)
  Definition sphereRadius (e : nearEP) : N := e_lengthCol e * a_lit 1 (-1) + e_radiusCol e.
  (** center -/+ direction * (0.5 * lengthCollision) (Sylinder/SylinderNear.hpp:314-315, 369-370, 377-378) *)
  Definition endMinus (e : nearEP) : vec N := vsub (e_pos e) (vscale (a_lit 1 (-1) * e_lengthCol e) (e_dir e)).
  (** Sylinder/SylinderNear.hpp:314-315, 369-370, 377-378 *)
  Definition endPlus (e : nearEP) : vec N := vadd (e_pos e) (vscale (a_lit 1 (-1) * e_lengthCol e) (e_dir e)).

  (** Sylinder/SylinderNear.hpp:250-290; the returned list is empty when there is no collision *)
  Definition sp_sp (Pi : N) (I J : nearEP) : outcome (list (block N)) :=
    let radI := sphereRadius I in let radJ := sphereRadius J in
    let rnorm := vnorm (vsub (e_pos J) (e_pos I)) in
    let sep := rnorm - (radI + radJ) in
    if sep <? radI * e_colBuf I + radJ * e_colBuf J then
      do b <- contactBlock false I J sep (e_pos I) (e_pos J)
                (collideStress Pi ez ez (e_pos I) (e_pos J) (a_Z 0) (a_Z 0) radI radJ (a_Z 1) (e_pos I) (e_pos J));
      Done [b]
    else Done [].

  (** Sylinder/SylinderNear.hpp:303-350 *)
  Definition sp_sy (Pi : N) (reverse : bool) (I J : nearEP) : outcome (list (block N)) :=
    let radI := sphereRadius I in
    let (distMin, Qloc) := distPointSeg (e_pos I) (endMinus J) (endPlus J) in
    let sep := distMin - (radI + e_radiusCol J) in
    if sep <? radI * e_colBuf I + e_radiusCol J * e_colBuf J then
      do b <- contactBlock reverse I J sep (e_pos I) Qloc
                (collideStress Pi ez (e_dir J) (e_pos I) (e_pos J) (a_Z 0) (e_lengthCol J) radI (e_radiusCol J) (a_Z 1) (e_pos I) Qloc);
      Done [b]
    else Done [].

  (** Sylinder/SylinderNear.hpp:362-408 *)
  Definition sy_sy (Pi : N) (I J : nearEP) : outcome (list (block N)) :=
    let r := dcpQuery (endMinus I) (endPlus I) (endMinus J) (endPlus J) in
    let sep := r_dist r - (e_radiusCol I + e_radiusCol J) in
    if sep <? e_radiusCol I * e_colBuf I + e_radiusCol J * e_colBuf J then
      do b <- contactBlock false I J sep (r_P r) (r_Q r)
                (collideStress Pi (e_dir I) (e_dir J) (e_pos I) (e_pos J) (e_lengthCol I) (e_lengthCol J)
                   (e_radiusCol I) (e_radiusCol J) (a_Z 1) (r_P r) (r_Q r));
      Done [b]
    else Done [].

  (** Sylinder/SylinderNear.hpp:202-234: the blocks of one (target, source) pair *)
  Definition nearPair (Pi : N) (I J : nearEP) : outcome (list (block N)) :=
    if (e_gid J <=? e_gid I)%Z then Done []
    else if nearIsSphere I then (if nearIsSphere J then sp_sp Pi I J else sp_sy Pi false I J)
    else (if nearIsSphere J then sp_sy Pi true J I else sy_sy Pi I J).

  (** Sylinder/SylinderNear.hpp:194-236, operator() called by thread [thread]; forceNear is cleared and not used further *)
  Definition nearCall (Pi : N) (p : list (list (block N))) (thread : nat) (epi epj : list nearEP) : outcome (list (list (block N))) :=
    ofold (fun p IJ => do bs <- nearPair Pi (fst IJ) (snd IJ); pushQueue p thread bs) (list_prod epi epj) p.

  (** the calls made by the neighbour search, in the order in which they touch the queues
      (Sylinder/SylinderSystem.cpp:1151-1159, calcForceAll): thread, targets, sources *)
  Definition nearCalls (Pi : N) (calls : list (nat * (list nearEP * list nearEP))) (p : list (list (block N))) : outcome (list (list (block N))) :=
    ofold (fun p c => nearCall Pi p (fst c) (fst (snd c)) (snd (snd c))) calls p.
End Near.
Arguments nearEP : clear implicits.
