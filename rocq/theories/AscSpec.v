(** What a user relies on when a run starts from a snapshot file: the objects of the file are the ones that were written. *)
From Coq Require Import String Ascii List ZArith Reals Bool.
From Flocq Require Import Core BinarySingleNaN.
From Verif Require Import Outcome F64 Arith ParticleModel VecModel SylModel IndexModel AscModel.
Import ListNotations.
Local Open Scope R_scope.

(** the number read for a number written: seven digits are kept *)
Definition reread (v v' : f64) : Prop :=
  is_finite v' = true /\ Rabs (B2R v' - B2R v) <= Rabs (B2R v) / 10000000 + bpow radix2 (-1074).
Definition reread3 (v v' : vec f64) : Prop := reread (vx v) (vx v') /\ reread (vy v) (vy v') /\ reread (vz v) (vz v').
Definition finite3 (v : vec f64) : Prop := is_finite (vx v) = true /\ is_finite (vy v) = true /\ is_finite (vz v) = true.
Definition isInt (z : Z) : Prop := (- 2 ^ 31 <= z < 2 ^ 31)%Z.

(** the ends of an object, computed in doubles *)
Definition minusEnd {N : arith} (s : sylinder N) : vec N := vsub (spos s) (vscale (a_mul (a_lit 1 (-1)) (slength s)) (axis s)).
Definition plusEnd {N : arith} (s : sylinder N) : vec N := vadd (spos s) (vscale (a_mul (a_lit 1 (-1)) (slength s)) (axis s)).

(** an object that can be written: its numbers are finite and its ids are ints *)
Definition writable (s : sylinder F_arith) : Prop :=
  isInt (s_gid s) /\ isInt (s_group s) /\ is_finite (radius s : f64) = true /\ finite3 (minusEnd s) /\ finite3 (plusEnd s).

(** the object t is the object s read back: ids, kind and group are the same, the radius and the ends m p are the numbers of the file *)
Definition readBack (s t : sylinder F_arith) (m p : vec f64) : Prop :=
  s_gid t = s_gid s /\ s_group t = s_group s /\ immovable t = immovable s /\
  reread (radius s) (radius t) /\ radiusCol t = radius t /\ reread3 (minusEnd s) m /\ reread3 (plusEnd s) p /\
  vx (spos t) = fmul (fadd (vx m) (vx p)) (f_lit 1 (-1)) /\
  vy (spos t) = fmul (fadd (vy m) (vy p)) (f_lit 1 (-1)) /\
  vz (spos t) = fmul (fadd (vz m) (vz p)) (f_lit 1 (-1)) /\
  (slength t : f64) = fsqrt (fadd (fadd (fmul (fsub (vx p) (vx m)) (fsub (vx p) (vx m))) (fmul (fsub (vy p) (vy m)) (fsub (vy p) (vy m))))
                                  (fmul (fsub (vz p) (vz m)) (fsub (vz p) (vz m)))) /\
  lengthCol t = slength t.

(** all fields that hold forces and velocities are zero *)
Definition atRest {N : arith} (s : sylinder N) : Prop :=
  let o := Vec (a_Z 0) (a_Z 0) (a_Z 0) in mot s = Motion o o o o o o o o o o o o o o o o o o.

(** the distance of two points *)
Definition distance (a b : vec R) : R := sqrt ((vx b - vx a) * (vx b - vx a) + (vy b - vy a) * (vy b - vy a) + (vz b - vz a) * (vz b - vz a)).

(** the character codes of a text, for examples *)
Definition codes (s : string) : list Z := map (fun c => Z.of_nat (nat_of_ascii c)) (list_ascii_of_string s).
Definition asText (o : outcome (list Z)) : list Z := match o with Done l => l | _ => [] end.
Definition isUB {A} (o : outcome A) : bool := match o with UB => true | _ => false end.

(** the line of an object with its group left out, as files written by hand may have it *)
Definition lineWithoutGroup (s : sylinder F_arith) : list Z :=
  ((if immovable s then 83 else 67) :: 32 :: fmtInt (s_gid s) ++
  flat_map (fun v => 32 :: fmtG8 v) [radius s; vx (minusEnd s); vy (minusEnd s); vz (minusEnd s); vx (plusEnd s); vy (plusEnd s); vz (plusEnd s)])%Z.
