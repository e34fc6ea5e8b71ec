(** Model of the point layouts and the error check of Util/PointDistribution.cpp. *)
From Coq Require Import List Arith ZArith Bool.
From Verif Require Import Outcome ListUtil Arith ParticleModel PointsModel StatModel.
Import ListNotations.

Section Dist.
  Context {N : arith}.
  Local Open Scope arith_scope.

  (** a decimal literal 0.d times box plus shift (Util/PointDistribution.cpp:15); the double nearest 0.d is the rounded quotient *)
  Definition at_ (box shift : N) (d : Z) : N := a_Z d / a_Z 10 * box + shift.
  (** Util/PointDistribution.cpp:12-45 *)
  Definition fixedPoints (nPts : Z) (box shift : N) (srcCoord : list N) : list N :=
    match nPts with
    | 1%Z => srcCoord ++ map (at_ box shift) [7; 6; 4]%Z
    | 2%Z => srcCoord ++ map (at_ box shift) [7; 6; 5; 2; 8; 7]%Z
    | 4%Z => srcCoord ++ map (at_ box shift) [1; 1; 1; 2; 2; 2; 3; 3; 3; 4; 4; 4]%Z
    | _ => [] end.
  (** Util/PointDistribution.cpp:47-54; [fills] the values of randomLogNormalFill, [fmod1] the library fmod(v, 1.0); the size pow(nPts + 1, 3) * 3 *)
  Definition randomPoints (fmod1 : N -> N) (nPts : nat) (box shift : N) (fills : nat -> N) : list N :=
    map (fun i => fmod1 (fills i) * box + shift) (seq 0 ((nPts + 1) ^ 3 * 3)).
  (** Util/PointDistribution.cpp:56-64 *)
  Definition shiftAndScalePoints (ptsCoord : list N) (shift : vec N) (scale : N) : outcome (list N) :=
    let nPts := (length ptsCoord / 3)%nat in
    ofold (fun p i =>
      do x <- mread p (3 * i); do p <- mwrite p (3 * i) (x * scale + vx shift);
      do y <- mread p (3 * i + 1); do p <- mwrite p (3 * i + 1) (y * scale + vy shift);
      do z <- mread p (3 * i + 2); mwrite p (3 * i + 2) (z * scale + vz shift)) (seq 0 nPts) ptsCoord.

  (** the accumulated errors of Util/PointDistribution.cpp:129-130 *)
  Record errors := Errors { errorL2 : N; errorAbs : N; L2 : N; errorMaxL2 : N; maxU : N; errorMaxRel : N }.
  (** Util/PointDistribution.cpp:132-140 for one entry: value, true value; std::max as in StatModel *)
  Definition addError (e : errors) (vt : N * N) : errors :=
    let (v, t) := vt in
    let temp := (t - v) * (t - v) in
    Errors (errorL2 e + temp) (errorAbs e + a_sqrt temp) (L2 e + t * t) (dmax (a_sqrt temp) (errorMaxL2 e)) (dmax (maxU e) (a_abs t))
      (dmax (a_sqrt temp / a_abs t) (errorMaxRel e)).
  (** the numbers printed (Util/PointDistribution.cpp:141-147), and the verdict if [bar] is positive (149-161) *)
  Record report := Report { maxAbs : N; maxRel : N; aveAbs : N; rms : N; relL2 : N; verdict : option bool }.
  (** Util/PointDistribution.cpp:109-165 on rank 0 after collecting; None: exit(1) *)
  Definition checkErrorRoot (value valueTrue : list N) (bar : N) : option report :=
    if negb (length value =? length valueTrue)%nat then None else
    let o := a_Z 0 in
    let e := fold_left addError (combine value valueTrue) (Errors o o o o o o) in
    let n := a_Z (Z.of_nat (length value)) in
    let errorRMS := a_sqrt (errorL2 e / n) in
    let errorRelL2 := a_sqrt (errorL2 e / L2 e) in
    Some (Report (errorMaxL2 e) (errorMaxRel e) (errorAbs e / n) errorRMS errorRelL2
      (if bar >? o then Some ((errorMaxL2 e <? bar) && (errorMaxRel e <? bar) && (errorAbs e <? bar) && (errorRMS <? bar) && (errorRelL2 <? bar)) else None)).
  (** Util/PointDistribution.cpp:109-165 run by all ranks: the result of rank 0 *)
  Definition checkError (values trues : list (list N)) (bar : N) : outcome (option report) :=
    do v <- collectPts (a_Z 0) values;
    do t <- collectPts (a_Z 0) trues;
    Done (checkErrorRoot (hd [] v) (hd [] t) bar).
End Dist.
Arguments errors : clear implicits. Arguments report : clear implicits.
