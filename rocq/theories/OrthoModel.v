(** Model of the distances of boxes and of the tests of one box against another:
    FDPS/orthotope3.hpp:81-94, 115-120, 125-147 and FDPS/ps_defs.hpp:1799-1896 (without
    PARTICLE_SIMULATOR_TWO_DIMENSION).  Written for any arithmetic. *)
From Coq Require Import ZArith Bool.
From Verif Require Import Arith ParticleModel VecModel.
Local Open Scope arith_scope.

Section Ortho.
  Context {N : arith}.

  (** notContained and contained of a box (FDPS/orthotope3.hpp:81-94) *)
  Definition containsBox (o a : ort N) : bool :=
    negb ((vx (ohigh a) <? vx (olow o)) || (vx (ohigh o) <=? vx (olow a)) || (vy (ohigh a) <? vy (olow o)) || (vy (ohigh o) <=? vy (olow a))
          || (vz (ohigh a) <? vz (olow o)) || (vz (ohigh o) <=? vz (olow a))).

  (** T(0.5) (FDPS/orthotope3.hpp:116, 119) *)
  Definition half : N := a_lit 1 (-1).
  (** one component of getCenter (FDPS/orthotope3.hpp:115-117) *)
  Definition centre (l h : N) : N := (h + l) * half.
  (** one component of getHalfLength (FDPS/orthotope3.hpp:118-120) *)
  Definition halfLength (l h : N) : N := (h - l) * half.

  (** dx of one axis: b is this box, a the argument (FDPS/orthotope3.hpp:131-142) *)
  Definition axisGap (bl bh al ah : N) : N :=
    let x0 := bl - ah in
    let x1 := al - bh in
    let dx := if x0 >? x1 then x0 else x1 in
    if x0 * x1 <? a_Z 0 then dx else a_Z 0.
  (** getDistanceMinSQ of a box (FDPS/orthotope3.hpp:125-147) *)
  Definition boxDistSQ (o a : ort N) : N :=
    let dx := axisGap (vx (olow o)) (vx (ohigh o)) (vx (olow a)) (vx (ohigh a)) in
    let dy := axisGap (vy (olow o)) (vy (ohigh o)) (vy (olow a)) (vy (ohigh a)) in
    let dz := axisGap (vz (olow o)) (vz (ohigh o)) (vz (olow a)) (vz (ohigh a)) in
    dx * dx + dy * dy + dz * dz.

  (** dx of one axis from the distance of the centres (FDPS/ps_defs.hpp:1861, 1864, 1869, 1883, 1886, 1892) *)
  Definition clear (len dx : N) : N := if len <? dx then dx - len else a_Z 0.
  (** the distance to the nearer image (FDPS/ps_defs.hpp:1808, 1812, 1818, 1834, 1838, 1845) *)
  Definition fold (len_peri dx : N) : N := if dx <? len_peri - dx then dx else len_peri - dx.

  (** one axis of GetDistanceMinSq of two boxes (FDPS/ps_defs.hpp:1855-1861) *)
  Definition gapBox (l0 h0 l1 h1 : N) : N :=
    clear (halfLength l0 h0 + halfLength l1 h1) (a_abs (centre l0 h0 - centre l1 h1)).
  (** one axis of GetDistanceMinSq of two boxes in a periodic space (FDPS/ps_defs.hpp:1802-1809) *)
  Definition gapBoxPeri (len_peri l0 h0 l1 h1 : N) : N :=
    clear (halfLength l0 h0 + halfLength l1 h1) (fold len_peri (a_abs (centre l0 h0 - centre l1 h1))).
  (** one axis of GetDistanceMinSq of a box and a point (FDPS/ps_defs.hpp:1878-1883) *)
  Definition gapPos (l0 h0 x : N) : N := clear (halfLength l0 h0) (a_abs (centre l0 h0 - x)).
  (** one axis of GetDistanceMinSq of a box and a point in a periodic space (FDPS/ps_defs.hpp:1829-1835) *)
  Definition gapPosPeri (len_peri l0 h0 x : N) : N := clear (halfLength l0 h0) (fold len_peri (a_abs (centre l0 h0 - x))).

  (** FDPS/ps_defs.hpp:1853-1874 *)
  Definition getDistanceBox (o a : ort N) : N :=
    let dx := gapBox (vx (olow o)) (vx (ohigh o)) (vx (olow a)) (vx (ohigh a)) in
    let dy := gapBox (vy (olow o)) (vy (ohigh o)) (vy (olow a)) (vy (ohigh a)) in
    let dz := gapBox (vz (olow o)) (vz (ohigh o)) (vz (olow a)) (vz (ohigh a)) in
    dx * dx + dy * dy + dz * dz.
  (** FDPS/ps_defs.hpp:1799-1824 *)
  Definition getDistanceBoxPeri (o a : ort N) (len_peri : vec N) : N :=
    let dx := gapBoxPeri (vx len_peri) (vx (olow o)) (vx (ohigh o)) (vx (olow a)) (vx (ohigh a)) in
    let dy := gapBoxPeri (vy len_peri) (vy (olow o)) (vy (ohigh o)) (vy (olow a)) (vy (ohigh a)) in
    let dz := gapBoxPeri (vz len_peri) (vz (olow o)) (vz (ohigh o)) (vz (olow a)) (vz (ohigh a)) in
    dx * dx + dy * dy + dz * dz.
  (** FDPS/ps_defs.hpp:1876-1896 *)
  Definition getDistancePos (o : ort N) (p : vec N) : N :=
    let dx := gapPos (vx (olow o)) (vx (ohigh o)) (vx p) in
    let dy := gapPos (vy (olow o)) (vy (ohigh o)) (vy p) in
    let dz := gapPos (vz (olow o)) (vz (ohigh o)) (vz p) in
    dx * dx + dy * dy + dz * dz.
  (** FDPS/ps_defs.hpp:1826-1850 *)
  Definition getDistancePosPeri (o : ort N) (p : vec N) (len_peri : vec N) : N :=
    let dx := gapPosPeri (vx len_peri) (vx (olow o)) (vx (ohigh o)) (vx p) in
    let dy := gapPosPeri (vy len_peri) (vy (olow o)) (vy (ohigh o)) (vy p) in
    let dz := gapPosPeri (vz len_peri) (vz (olow o)) (vz (ohigh o)) (vz p) in
    dx * dx + dy * dy + dz * dz.
End Ortho.
