(** Model of the space filling curve keys of the tree, FDPS/key.hpp. *)
From Coq Require Import List ZArith Bool.
From Verif Require Import Outcome F64 Arith ParticleModel.
Import ListNotations.
Local Open Scope Z_scope.

(** 64-bit unsigned arithmetic (FDPS/key.hpp:81-88) *)
Definition two64 : Z := 2 ^ 64.
(** FDPS/key.hpp:81-88 *)
Definition shl (s k : Z) : Z := Z.shiftl s k mod two64.
(** one line of separateBit: (s | s<<k) & mask, FDPS/key.hpp:83 *)
Definition spread (s : Z) (km : Z * Z) : Z := Z.land (Z.lor s (shl s (fst km))) (snd km).

(** FDPS/key.hpp:81-88 *)
Definition masks3 : list (Z * Z) :=
  [(32, 0xffff00000000ffff); (16, 0x00ff0000ff0000ff); (8, 0xf00f00f00f00f00f); (4, 0x30c30c30c30c30c3); (2, 0x9249249249249249)].
(** FDPS/key.hpp:81-88 *)
Definition separateBit3 (s : Z) : Z := fold_left spread masks3 s.
(** FDPS/key.hpp:31-39, two dimensions *)
Definition masks2 : list (Z * Z) :=
  [(32, 0x00000000ffffffff); (16, 0x0000ffff0000ffff); (8, 0x00ff00ff00ff00ff); (4, 0x0f0f0f0f0f0f0f0f); (2, 0x3333333333333333); (1, 0x5555555555555555)].
(** FDPS/key.hpp:31-39 *)
Definition separateBit2 (s : Z) : Z := fold_left spread masks2 s.

(** the returned expression, FDPS/key.hpp:103 *)
Definition key3 (nx ny nz : Z) : Z := Z.lor (Z.lor (shl (separateBit3 nx) 2) (shl (separateBit3 ny) 1)) (separateBit3 nz).
(** FDPS/key.hpp:55 *)
Definition key2 (nx ny : Z) : Z := Z.lor (shl (separateBit2 nx) 1) (separateBit2 ny).
(** FDPS/key.hpp:105-108; UB: the shift count is negative or at least 64 *)
Definition getCellID3 (lev key : Z) : outcome Z :=
  let k := (21 - lev) * 3 in if (0 <=? k) && (k <? 64) then Done (Z.land (Z.shiftr key k) 7) else UB.
(** FDPS/key.hpp:57-60 *)
Definition getCellID2 (lev key : Z) : outcome Z :=
  let k := (30 - lev) * 2 in if (0 <=? k) && (k <? 64) then Done (Z.land (Z.shiftr key k) 3) else UB.

(** the conversion of a double to an integer; an infinity or a NaN gives no value of U64 (FDPS/key.hpp:100-102) *)
Definition f_cast (x : f64) : Z := if f_finite x then f_trunc x else -1.

Section Position.
  Context {N : arith}.
  Local Open Scope arith_scope.
  (** normalized_factor_, FDPS/key.hpp:94 *)
  Definition factor (half_len : N) : N := a_Z 1 / (half_len * a_Z 2) * a_Z (2 ^ 21).
  (** FDPS/key.hpp:100-102; [trunc] is the conversion to an integer; a value outside of U64 is undefined behaviour *)
  Definition grid (trunc : N -> Z) (half_len cen pos : N) : outcome Z :=
    let n := trunc ((pos - cen + half_len) * factor half_len) in
    if ((0 <=? n) && (n <? two64))%Z then Done n else UB.
  (** FDPS/key.hpp:96-104 *)
  Definition getKey (trunc : N -> Z) (half_len : N) (cen pos : vec N) : outcome Z :=
    do nx <- grid trunc half_len (vx cen) (vx pos); do ny <- grid trunc half_len (vy cen) (vy pos); do nz <- grid trunc half_len (vz cen) (vz pos);
    Done (key3 nx ny nz).
End Position.
