(** Model of Collision/DCPQuery.hpp: point-segment and segment-segment distance.  Assertions are compiled out
    (NDEBUG); the asserted condition of GetClampedRoot is modelled separately. *)
From Coq Require Import List Arith ZArith Bool.
From Verif Require Import Arith ParticleModel VecModel.
Import ListNotations.

Section Seg.
  Context {N : arith}.
  Local Open Scope arith_scope.

  (** Collision/DCPQuery.hpp:91-128, DistPointSeg: the distance and pointPerp *)
  Definition distPointSeg (point minus plus : vec N) : N * vec N :=
    let direction := vsub plus minus in
    let closest :=
      if vdot direction (vsub point plus) >=? a_Z 0 then plus
      else let t := vdot direction (vsub point minus) in
           if t <=? a_Z 0 then minus
           else let sqrLength := vdot direction direction in
                if sqrLength >? a_Z 0 then vadd minus (vscale (t / sqrLength) direction) else minus in
    let diff := vsub point closest in
    (a_sqrt (vdot diff diff), closest).

  (** numeric_limits<double>::epsilon() = 2^-52 (Collision/DCPQuery.hpp:314, 429) *)
  Definition dbl_eps : N := a_lit 1 (-52).
  (** std::max(a, b), std::min(a, b) (Collision/DCPQuery.hpp:332) *)
  Definition stdmax (a b : N) : N := if a <? b then b else a.
  (** Collision/DCPQuery.hpp:332 *)
  Definition stdmin (a b : N) : N := if b <? a then b else a.

  (** Collision/DCPQuery.hpp:311-340 *)
  Definition getClampedRoot (slope h0 h1 : N) : N :=
    if (a_abs h0 <? dbl_eps) && (a_abs h1 <? dbl_eps) then a_lit 1 (-1)
    else if h0 <? a_Z 0 then
      if h1 >? a_Z 0 then stdmin (stdmax (- h0 / slope) (a_Z 0)) (a_Z 1) else a_Z 1
    else a_Z 0.
  (** Collision/DCPQuery.hpp:321, the assertion *)
  Definition clampedRootAssert (slope h0 h1 : N) : bool :=
    a_abs (slope - (h1 - h0)) <? a_Z 10 * dbl_eps * stdmax (a_abs h1) (a_abs h0).

  (** Collision/DCPQuery.hpp:181-188: the members mA..mE; mF, mG are derived from them (219-227) *)
  Record dcp := Dcp { mA : N; mB : N; mC : N; mD : N; mE : N }.
  (** Collision/DCPQuery.hpp:219-222 *)
  Definition mF00 (q : dcp) : N := mD q.
  (** Collision/DCPQuery.hpp:219-222 *)
  Definition mF10 (q : dcp) : N := mF00 q + mA q.
  (** Collision/DCPQuery.hpp:219-222 *)
  Definition mF01 (q : dcp) : N := mF00 q - mB q.
  (** Collision/DCPQuery.hpp:219-222 *)
  Definition mF11 (q : dcp) : N := mF10 q - mB q.
  (** Collision/DCPQuery.hpp:224-227 *)
  Definition mG00 (q : dcp) : N := - mE q.
  (** Collision/DCPQuery.hpp:224-227 *)
  Definition mG10 (q : dcp) : N := mG00 q - mB q.
  (** Collision/DCPQuery.hpp:224-227 *)
  Definition mG01 (q : dcp) : N := mG00 q + mC q.
  (** Collision/DCPQuery.hpp:224-227 *)
  Definition mG11 (q : dcp) : N := mG10 q + mC q.

  (** Collision/DCPQuery.hpp:210-217 *)
  Definition dcpSetup (P0 P1 Q0 Q1 : vec N) : dcp :=
    let P1mP0 := vsub P1 P0 in let Q1mQ0 := vsub Q1 Q0 in let P0mQ0 := vsub P0 Q0 in
    Dcp (vdot P1mP0 P1mP0) (vdot P1mP0 Q1mQ0) (vdot Q1mQ0 Q1mQ0) (vdot P1mP0 P0mQ0) (vdot Q1mQ0 P0mQ0).

  (** Collision/DCPQuery.hpp:241-250: -1, 0 or 1 *)
  Definition classify (s : N) : Z := if s <=? a_Z 0 then (-1)%Z else if s >=? a_Z 1 then 1%Z else 0%Z.

  (** Collision/DCPQuery.hpp:360-363 and repetitions: a quotient outside [0,1] becomes 0.5 *)
  Definition guarded (x : N) : N := if (x <? a_Z 0) || (x >? a_Z 1) then a_lit 1 (-1) else x.

  (** Collision/DCPQuery.hpp:343-424: the two (edge, (s, t)) ends *)
  Definition computeIntersection (q : dcp) (s0 s1 : N) (c0 c1 : Z) : (nat * (N * N)) * (nat * (N * N)) :=
    let on_s0 := (0%nat, (a_Z 0, guarded (mF00 q / mB q))) in
    let on_s1 := (1%nat, (a_Z 1, guarded (mF10 q / mB q))) in
    let on_t1 := (3%nat, (s1, a_Z 1)) in
    if Z.ltb c0 0 then (on_s0, if Z.eqb c1 0 then on_t1 else on_s1)
    else if Z.eqb c0 0 then
      ((2%nat, (s0, a_Z 0)), if Z.ltb c1 0 then on_s0 else if Z.eqb c1 0 then on_t1 else on_s1)
    else (on_s1, if Z.eqb c1 0 then on_t1 else on_s0).

  (** (1-z) e0 + z e1 on both parameters (Collision/DCPQuery.hpp:436-438, 465-467) *)
  Definition blend (z : N) (e0 e1 : N * N) : N * N :=
    let omz := a_Z 1 - z in (omz * fst e0 + z * fst e1, omz * snd e0 + z * snd e1).

  (** Collision/DCPQuery.hpp:427-472 *)
  Definition computeMinimumParameters (q : dcp) (e0 e1 : nat * (N * N)) : N * N :=
    let '(edge0, end0) := e0 in let '(edge1, end1) := e1 in
    let delta := snd end1 - snd end0 in
    let h0 := delta * ((- mB q * fst end0 - mE q) + mC q * snd end0) in
    let h1 := delta * ((- mB q * fst end1 - mE q) + mC q * snd end1) in
    let at_edge (edge : nat) (e : N * N) :=
      if Nat.eqb edge 0 then (a_Z 0, getClampedRoot (mC q) (mG00 q) (mG01 q))
      else if Nat.eqb edge 1 then (a_Z 1, getClampedRoot (mC q) (mG10 q) (mG11 q))
      else e in
    if (a_abs h0 <? a_abs (mC q) * dbl_eps) && (a_abs h1 <? a_abs (mC q) * dbl_eps) then blend (a_lit 1 (-1)) end0 end1
    else if h0 >=? a_Z 0 then at_edge edge0 end0
    else if h1 <=? a_Z 0 then at_edge edge1 end1
    else blend (getClampedRoot (h1 - h0) h0 h1) end0 end1.

  (** Collision/DCPQuery.hpp:229-296: the parameters (s, t) *)
  Definition dcpParameters (q : dcp) : N * N :=
    if (mA q >? a_Z 0) && (mC q >? a_Z 0) then
      let s0 := getClampedRoot (mA q) (mF00 q) (mF10 q) in
      let s1 := getClampedRoot (mA q) (mF01 q) (mF11 q) in
      let c0 := classify s0 in let c1 := classify s1 in
      if (Z.eqb c0 (-1) && Z.eqb c1 (-1))%bool then (a_Z 0, getClampedRoot (mC q) (mG00 q) (mG01 q))
      else if (Z.eqb c0 1 && Z.eqb c1 1)%bool then (a_Z 1, getClampedRoot (mC q) (mG10 q) (mG11 q))
      else let (e0, e1) := computeIntersection q s0 s1 c0 c1 in computeMinimumParameters q e0 e1
    else if mA q >? a_Z 0 then (getClampedRoot (mA q) (mF00 q) (mF10 q), a_Z 0)
    else if mC q >? a_Z 0 then (a_Z 0, getClampedRoot (mC q) (mG00 q) (mG01 q))
    else (a_Z 0, a_Z 0).

  (** Collision/DCPQuery.hpp:199-308, operator(): the distance, Ploc, Qloc, s, t *)
  Record dcpResult := DcpResult { r_dist : N; r_P : vec N; r_Q : vec N; r_s : N; r_t : N }.
  (** Collision/DCPQuery.hpp:199-308 *)
  Definition dcpQuery (P0 P1 Q0 Q1 : vec N) : dcpResult :=
    let (s, t) := dcpParameters (dcpSetup P0 P1 Q0 Q1) in
    let P := vadd (vscale (a_Z 1 - s) P0) (vscale s P1) in
    let Q := vadd (vscale (a_Z 1 - t) Q0) (vscale t Q1) in
    let diff := vsub P Q in
    DcpResult (a_sqrt (vdot diff diff)) P Q s t.
End Seg.
Arguments dcp : clear implicits.
Arguments dcpResult : clear implicits.
