(** Model of the file of the simulation box: SylinderSystem::writeBox (Sylinder/SylinderSystem.cpp:535-551) on bytes.
    The text of a double is that of the C library (fprintf), which rounds correctly to nearest, ties to even, as in AscModel. *)
From Coq Require Import List ZArith Bool String Ascii.
From Flocq Require Import Core BinarySingleNaN.
From Verif Require Import Outcome F64 ParticleModel VecModel AscModel.
Import ListNotations.
Local Open Scope Z_scope.

(** six digits M and the exponent X of the first one (%g at Sylinder/SylinderSystem.cpp:543) *)
Definition dec6 (n d : Z) : Z * Z :=
  let X := decExp n d in
  let M := scaledInt n d (5 - X) in
  if M =? 10 ^ 6 then (10 ^ 5, X + 1) else (M, X).
(** fixed or exponential notation (%g at Sylinder/SylinderSystem.cpp:543) *)
Definition fmtDec6 (M X : Z) : list Z :=
  let ds := digitsN 6 M in
  if (-4 <=? X) && (X <? 6)
  then if X <? 0 then pointed [48] (repeat 48 (Z.to_nat (- X - 1)) ++ ds)
       else pointed (firstn (Z.to_nat (X + 1)) ds) (skipn (Z.to_nat (X + 1)) ds)
  else pointed (firstn 1 ds) (skipn 1 ds) ++
       101 :: (if X <? 0 then 45 else 43) :: digitsN (if Z.abs X <? 100 then 2 else 3) (Z.abs X).
(** "%g" (Sylinder/SylinderSystem.cpp:543); the sign of a NaN is not modelled *)
Definition fmtG6 (v : f64) : list Z :=
  match v with
  | B754_zero s => fmtSign s ++ [48]
  | B754_infinity s => fmtSign s ++ [105; 110; 102]
  | B754_nan => [110; 97; 110]
  | B754_finite s m e _ => let (n, d) := ratio m e in let (M, X) := dec6 n d in fmtSign s ++ fmtDec6 M X
  end.
(** one line of text (Sylinder/SylinderSystem.cpp:537-542) *)
Definition textLine (s : string) : list Z := map (fun c => Z.of_nat (nat_of_ascii c)) (list_ascii_of_string s) ++ [10].
(** "%g %g\n" (Sylinder/SylinderSystem.cpp:543, 545, 547) *)
Definition boundsLine (low high : f64) : list Z := fmtG6 low ++ 32 :: fmtG6 high ++ [10].
(** Sylinder/SylinderSystem.cpp:535-551; [opened]: fopen gave a file; fprintf to no file is undefined *)
Definition writeBox (opened : bool) (low high : vec f64) : outcome (list Z) :=
  if opened then Done (
    textLine "# vtk DataFile Version 3.0" ++
    textLine "vtk file" ++
    textLine "ASCII" ++
    textLine "DATASET RECTILINEAR_GRID" ++
    textLine "DIMENSIONS 2 2 2" ++
    textLine "X_COORDINATES 2 float" ++
    boundsLine (vx low) (vx high) ++
    textLine "Y_COORDINATES 2 float" ++
    boundsLine (vy low) (vy high) ++
    textLine "Z_COORDINATES 2 float" ++
    boundsLine (vz low) (vz high) ++
    textLine "CELL_DATA 1" ++
    textLine "POINT_DATA 8")
  else UB.
