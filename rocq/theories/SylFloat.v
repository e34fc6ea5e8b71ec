(** Concrete objects in doubles for the examples. *)
From Coq Require Import List ZArith Bool.
From Verif Require Import Outcome F64 Arith ParticleModel ConModel VecModel SylModel.
Import ListNotations.

Definition v3 (x y z : Z) : vec F_arith := Vec (f_ofZ x) (f_ofZ y) (f_ofZ z).
Definition still : motion F_arith :=
  let o := v3 0 0 0 in Motion o o o o o o o o o o o o o o o o o o.
(** radius r, length l (collision sizes equal), at p with orientation q *)
Definition object (gid : Z) (r l : f64) (p : vec F_arith) (q : quat F_arith) : sylinder F_arith :=
  Syl gid gid 0 0 false r r l l (f_ofZ 10) (f_ofZ 0) (f_lit 1 (-2)) p q still.
Definition upright : quat F_arith := Quat (N := F_arith) (f_ofZ 0) (f_ofZ 0) (f_ofZ 0) (f_ofZ 1).
Definition is_nil {A} (l : list A) : bool := match l with [] => true | _ => false end.
Definition veqb (a b : vec F_arith) : bool := feq (vx a) (vx b) && feq (vy a) (vy b) && feq (vz a) (vz b).
