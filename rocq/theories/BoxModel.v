(** Model of SylinderSystem::setDomainInfo (Sylinder/SylinderSystem.cpp:569-610) and the part of DomainInfo it sets (FDPS/domain_info.hpp). *)
From Coq Require Import List Arith ZArith Bool.
From Verif Require Import Outcome Arith ParticleModel ConModel.
Import ListNotations.

(** FDPS/ps_defs.hpp:331-342, without the values that no code here uses *)
Inductive boundaryCondition := OPEN | PERIODIC_X | PERIODIC_Y | PERIODIC_Z | PERIODIC_XY | PERIODIC_XZ | PERIODIC_YZ | PERIODIC_XYZ.

Section Box.
  Context {N : arith}.
  Local Open Scope arith_scope.

  (** FDPS/domain_info.hpp:64-70: boundary_condition_, periodic_axis_, pos_root_domain_ *)
  Record domainInfo := DomainInfo { d_bc : boundaryCondition; d_axis : vec bool; d_low : vec N; d_high : vec N }.
  (** FDPS/ps_defs.hpp:173: std::numeric_limits<float>::max() * 0.0625 = (2^24-1) 2^104 2^-4 *)
  Definition LARGE_FLOAT : N := a_lit (2 ^ 24 - 1) 100.
  (** FDPS/domain_info.hpp:146-160 *)
  Definition newDomainInfo : domainInfo :=
    DomainInfo OPEN (Vec false false false) (Vec (- LARGE_FLOAT) (- LARGE_FLOAT) (- LARGE_FLOAT)) (Vec LARGE_FLOAT LARGE_FLOAT LARGE_FLOAT).
  (** FDPS/domain_info.hpp:1163-1184 in three dimensions *)
  Definition setBoundaryCondition (bc : boundaryCondition) (d : domainInfo) : domainInfo :=
    let a := d_axis d in
    let a' := match bc with
      | OPEN => a
      | PERIODIC_X => Vec true (vy a) (vz a)
      | PERIODIC_Y => Vec (vx a) true (vz a)
      | PERIODIC_Z => Vec (vx a) (vy a) true
      | PERIODIC_XY => Vec true true (vz a)
      | PERIODIC_XZ => Vec true (vy a) true
      | PERIODIC_YZ => Vec (vx a) true true
      | PERIODIC_XYZ => Vec true true true end in
    DomainInfo bc a' (d_low d) (d_high d).
  (** component k replaced (FDPS/domain_info.hpp:1206-1211) *)
  Definition vset {C} (v : vec C) (k : nat) (x : C) : vec C :=
    match k with 0%nat => Vec x (vy v) (vz v) | 1%nat => Vec (vx v) x (vz v) | _ => Vec (vx v) (vy v) x end.
  (** FDPS/domain_info.hpp:1191-1212; None: Abort *)
  Definition setPosRootDomain (low high : vec N) (d : domainInfo) : option domainInfo :=
    if existsb (fun k => vget high k <? vget low k) (seq 0 3) then None
    else Some (fold_left (fun d i => if negb (vget (d_axis d) i) then d
                 else if vget low i <? vget high i then DomainInfo (d_bc d) (d_axis d) (vset (d_low d) i (vget low i)) (vset (d_high d) i (vget high i)) else d)
               (seq 0 3) d).
  (** Sylinder/SylinderSystem.cpp:569-610; [pbc] [low] [high] the configured simBoxPBC, simBoxLow, simBoxHigh *)
  Definition setDomainInfo (pbc : vec bool) (low high : vec N) (d : domainInfo) : option domainInfo :=
    let b2z (b : bool) := if b then 1%Z else 0%Z in
    let pbcFlag := (100 * b2z (vx pbc) + 10 * b2z (vy pbc) + b2z (vz pbc))%Z in
    let d := match pbcFlag with
      | 0%Z => setBoundaryCondition OPEN d
      | 1%Z => setBoundaryCondition PERIODIC_Z d
      | 10%Z => setBoundaryCondition PERIODIC_Y d
      | 100%Z => setBoundaryCondition PERIODIC_X d
      | 11%Z => setBoundaryCondition PERIODIC_YZ d
      | 101%Z => setBoundaryCondition PERIODIC_XZ d
      | 110%Z => setBoundaryCondition PERIODIC_XY d
      | 111%Z => setBoundaryCondition PERIODIC_XYZ d
      | _ => d end in
    setPosRootDomain low high d.
End Box.
Arguments domainInfo : clear implicits.
