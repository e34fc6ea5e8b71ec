(** What the domain decomposition must know of the configured box. *)
From Coq Require Import Bool.
From Verif Require Import Arith ParticleModel ConModel BoxModel.

(** the periodic axes of a boundary condition *)
Definition isPeriodic (bc : boundaryCondition) (k : nat) : bool :=
  match bc, k with
  | (PERIODIC_X | PERIODIC_XY | PERIODIC_XZ | PERIODIC_XYZ), 0 => true
  | (PERIODIC_Y | PERIODIC_XY | PERIODIC_YZ | PERIODIC_XYZ), 1 => true
  | (PERIODIC_Z | PERIODIC_XZ | PERIODIC_YZ | PERIODIC_XYZ), 2 => true
  | _, _ => false end.
(** no axis upside down *)
Definition orderly {N : arith} (low high : vec N) : Prop := forall k, k < 3 -> a_lt (vget high k) (vget low k) = false.
