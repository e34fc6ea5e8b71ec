(** Model of the statistics over all objects in Sylinder/SylinderSystem.cpp: bounding box, order parameters, volume fraction. *)
From Coq Require Import List Arith ZArith Bool.
From Verif Require Import Arith ParticleModel ConModel VecModel SylModel.
Import ListNotations.

Section Stat.
  Context {N : arith}.
  Local Open Scope arith_scope.

  (** std::min, std::max of doubles (Sylinder/SylinderSystem.cpp:1188-1193) *)
  Definition dmin (a b : N) : N := if b <? a then b else a.
  (** Sylinder/SylinderSystem.cpp:1191-1193 *)
  Definition dmax (a b : N) : N := if a <? b then b else a.
  (** std::numeric_limits<double>::max() and ::min(), the latter the least positive normal number (Sylinder/SylinderSystem.cpp:1179-1181) *)
  Definition dblMax : N := a_lit (2 ^ 53 - 1) 971.
  (** Sylinder/SylinderSystem.cpp:1181 *)
  Definition dblMin : N := a_lit 1 (-1022).
  (** Sylinder/SylinderSystem.cpp:1185-1187: pm and pp *)
  Definition ends (s : sylinder N) : vec N * vec N :=
    let h := slength s * a_lit 1 (-1) in
    (vsub (spos s) (vscale h (axis s)), vadd (spos s) (vscale h (axis s))).
  (** a function of the three components (the loop of Sylinder/SylinderSystem.cpp:1188-1193) *)
  Definition vec3 (f : nat -> N) : vec N := Vec (f 0%nat) (f 1%nat) (f 2%nat).
  (** Sylinder/SylinderSystem.cpp:1179-1201 on one rank: localLow, localHigh *)
  Definition localBox (ss : list (sylinder N)) : vec N * vec N :=
    fold_left (fun b s => (vec3 (fun k => dmin (dmin (vget (fst b) k) (vget (fst (ends s)) k)) (vget (snd (ends s)) k)),
                           vec3 (fun k => dmax (dmax (vget (snd b) k) (vget (fst (ends s)) k)) (vget (snd (ends s)) k))))
      ss (Vec dblMax dblMax dblMax, Vec dblMin dblMin dblMin).
  (** a reduction over the ranks with an operation, in rank order (Teuchos::reduceAll, MPI_Allreduce); [d] for no rank at all (Sylinder/SylinderSystem.cpp:1203-1209) *)
  Definition reduceAll (f : N -> N -> N) (d : N) (xs : list N) : N := match xs with [] => d | x :: xs => fold_left f xs x end.
  (** Sylinder/SylinderSystem.cpp:1203-1209: globalLow, globalHigh from the local boxes of all ranks *)
  Definition globalBox (ranks : list (list (sylinder N))) : vec N * vec N :=
    (vec3 (fun k => reduceAll dmin (a_Z 0) (map (fun ss => vget (fst (localBox ss)) k) ranks)),
     vec3 (fun k => reduceAll dmax (a_Z 0) (map (fun ss => vget (snd (localBox ss)) k) ranks))).

  (** Sylinder/SylinderSystem.cpp:1279-1294: what one object adds to px py pz Qxx Qxy ... Qzz; slot c *)
  Definition orderTerm (c : nat) (s : sylinder N) : N :=
    let d := axis s in
    if (c <? 3)%nat then vget d c
    else let i := ((c - 3) / 3)%nat in let j := ((c - 3) mod 3)%nat in
      vget d i * vget d j - (if (i =? j)%nat then a_Z 1 else a_Z 0) * (a_Z 1 / a_Z 3).
  (** omp parallel for reduction(+): every thread sums the objects it got from zero, the partial sums are added to the initial zero (Sylinder/SylinderSystem.cpp:1275) *)
  Definition ompSum (chunks : list (list N)) : N := fold_left a_add (map (fun l => fold_left a_add l (a_Z 0)) chunks) (a_Z 0).
  (** Sylinder/SylinderSystem.cpp:1264-1301: pQ as reported; [ranks] gives for every rank the objects as split over its threads *)
  Definition orderParameter (ranks : list (list (list (sylinder N)))) : list N :=
    let nGlobal := length (concat (concat ranks)) in
    map (fun c => reduceAll a_add (a_Z 0) (map (fun chunks => ompSum (map (map (orderTerm c)) chunks)) ranks) * (a_Z 1 / a_Z (Z.of_nat nGlobal))) (seq 0 12).

  (** Sylinder/SylinderSystem.cpp:300: volume of one object; [Pi] the literal 3.1415926535 *)
  Definition sylVolume (Pi : N) (s : sylinder N) : N :=
    let d := radius s * a_Z 2 in
    Pi * (a_lit 1 (-2) * slength s * (d * d) + d * d * d / a_Z 6).
  (** Sylinder/SylinderSystem.cpp:292-312: the volume and the volume fraction reported *)
  Definition calcVolFrac (Pi : N) (boxLow boxHigh : vec N) (ranks : list (list (list (sylinder N)))) : N * N :=
    let vol := reduceAll a_add (a_Z 0) (map (fun chunks => ompSum (map (map (sylVolume Pi)) chunks)) ranks) in
    let box := (vx boxHigh - vx boxLow) * (vy boxHigh - vy boxLow) * (vz boxHigh - vz boxLow) in
    (vol, vol / box).
End Stat.
