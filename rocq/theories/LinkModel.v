(** Model of SylinderSystem::buildSylinderNearDataDirectory and SylinderSystem::collectLinkBilateral. *)
From Coq Require Import List Arith ZArith Bool.
From Verif Require Import Outcome ListUtil Arith ParticleModel ConModel VecModel IndexModel GeoModel SylModel BoundaryModel NearModel.
Import ListNotations.

Section Link.
  Context {N : arith}.
  Local Open Scope arith_scope.

  (** the settings used (Sylinder/SylinderConfig.hpp:31-33, 45-46): simBoxPBC, simBoxLow, simBoxHigh, linkGap, linkKappa *)
  Record linkConfig := LinkConfig { lk_pbc : vec bool; lk_low : vec N; lk_high : vec N; lk_gap : N; lk_kappa : N }.

  (** Sylinder/SylinderSystem.cpp:1370-1383: what one rank publishes *)
  Definition publishNear (ss : list (sylinder N)) : list (Z * nearEP N) := map (fun s => (s_gid s, copyFromFP s)) ss.

  (** Sylinder/SylinderSystem.cpp:1434-1446, one axis: the new xk; None when the run exits *)
  Definition axisImage (fuel : nat) (pbc : bool) (low high trg xk : N) : outcome (option N) :=
    if pbc then
      do r <- findPBCImageTrg fuel low high xk trg;
      let '(xk, trg) := r in
      Done (if a_abs (trg - xk) >? a_lit 1 (-1) * (high - low) then None else Some xk)
    else Done (Some xk).

  (** Sylinder/SylinderSystem.cpp:1431-1447: the loop over the axes *)
  Definition linkCenter (fuel : nat) (c : linkConfig) (centerI centerJ : vec N) : outcome (option (vec N)) :=
    do x <- axisImage fuel (vx (lk_pbc c)) (vx (lk_low c)) (vx (lk_high c)) (vx centerI) (vx centerJ);
    match x with None => Done None | Some x =>
    do y <- axisImage fuel (vy (lk_pbc c)) (vy (lk_low c)) (vy (lk_high c)) (vy centerI) (vy centerJ);
    match y with None => Done None | Some y =>
    do z <- axisImage fuel (vz (lk_pbc c)) (vz (lk_low c)) (vz (lk_high c)) (vz centerI) (vz centerJ);
    match z with None => Done None | Some z => Done (Some (Vec x y z)) end end end.

  (** Sylinder/SylinderSystem.cpp:1427-1476: the block of one link *)
  Definition linkBlock (fuel : nat) (Pi : N) (c : linkConfig) (syI : sylinder N) (syJ : nearEP N) : outcome (option (block N)) :=
    do cJ <- linkCenter fuel c (spos syI) (e_pos syJ);
    match cJ with
    | None => Done None
    | Some centerJ =>
        let centerI := spos syI in
        let directionI := axis syI in
        let directionJ := e_dir syJ in
        let Ploc := vadd centerI (vscale (a_lit 1 (-1) * slength syI) directionI) in
        let Qloc := vsub centerJ (vscale (a_lit 1 (-1) * e_length syJ) directionJ) in
        let rnorm := vnorm (vsub Qloc Ploc) in
        let delta0 := rnorm - radius syI - e_radius syJ - lk_gap c in
        let gamma := if delta0 <? a_Z 0 then - delta0 else a_Z 0 in
        let normI := vnormalized (vsub Ploc Qloc) in
        let b := mkBlock delta0 gamma (s_gid syI) (e_gid syJ) (s_index syI) (e_index syJ) normI (vopp normI)
                   (vsub Ploc centerI) (vsub Qloc centerJ) Ploc Qloc false true (lk_kappa c) (a_Z 0) in
        do b <- setStressMat b (collideStress Pi directionI directionJ centerI centerJ (slength syI) (e_length syJ)
                                  (radius syI) (e_radius syJ) (a_Z 1) Ploc Qloc);
        Done (Some b)
    end.

  (** linkMap.equal_range(gid) (Sylinder/SylinderSystem.cpp:1408-1413): the next ends; their order is unspecified *)
  Definition nexts (linkMap : list (Z * Z)) (gid : Z) : list Z := map snd (filter (fun l => Z.eqb (fst l) gid) linkMap).

  (** all the elements unless one of them is an exit (Sylinder/SylinderSystem.cpp:1443-1446) *)
  Fixpoint allSome {A} (l : list (option A)) : option (list A) :=
    match l with
    | [] => Some []
    | None :: _ => None
    | Some a :: r => match allSome r with Some r => Some (a :: r) | None => None end
    end.

  (** Sylinder/SylinderSystem.cpp:1424-1479: the iteration of object i *)
  Definition linkIteration (fuel : nat) (Pi : N) (c : linkConfig) (ss : list (sylinder N)) (gidDisp : list nat) (dataToFind : list (nearEP N))
    (i : nat) : outcome (option (list (block N))) :=
    do syI <- mread ss i;
    do lb <- mread gidDisp i;
    do ub <- mread gidDisp (S i);
    do bs <- omap (fun j => do syJ <- mread dataToFind j; linkBlock fuel Pi c syI syJ) (seq lb (ub - lb));
    Done (allSome bs).

  (** Sylinder/SylinderSystem.cpp:1385-1482 on one rank.  [dir] is the directory, [data0] the previous content of dataToFind,
      [order] and [who] the schedule of the parallel loop.  The status returned by find() is not used.  None: the run exits. *)
  Definition collectLinkBilateral (fuel : nat) (Pi : N) (c : linkConfig) (fresh : nearEP N) (junk : Z -> nearEP N)
    (dir : list (Z * nearEP N)) (data0 : list (nearEP N)) (linkMap : list (Z * Z)) (ss : list (sylinder N))
    (order : list nat) (who : nat -> nat) (p : list (list (block N))) : outcome (option (list (list (block N)))) :=
    let counts := map (fun s => length (nexts linkMap (s_gid s))) ss in
    let gidToFind := flat_map (fun s => nexts linkMap (s_gid s)) ss in
    let gidDisp := psum counts in
    let dataToFind := fst (zddFind fresh junk dir gidToFind data0) in
    do work <- omap (fun i => do r <- linkIteration fuel Pi c ss gidDisp dataToFind i; Done (who i, r)) order;
    match allSome (map snd work) with
    | None => Done None
    | Some bs => do p' <- pushAll p (combine (map fst work) bs); Done (Some p')
    end.
End Link.
Arguments linkConfig : clear implicits.
