(** C92: the file of the simulation box shows the box to six digits. *)
From Coq Require Import List ZArith Reals Bool String Lra.
From Flocq Require Import Core BinarySingleNaN.
From Verif Require Import Outcome F64 ParticleModel VecModel AscModel AscSpec BoxFileModel BoxFileSpec BoxFileProofs.
Import ListNotations.
Local Open Scope Z_scope.

(** A reader of legacy VTK files gets one cell, whose corners are the corners of the box rounded to six digits and then to doubles. *)
Theorem C92_file : forall low high, finite3 low -> finite3 high ->
  exists t low' high', writeBox true low high = Done t /\ readVtk t = Some (low', high') /\ shown3 low low' /\ shown3 high high'.
Proof. exact box_ok. Qed.
Print Assumptions C92_file.

(** What is shown is near. *)
Theorem C92_error : forall v v', shown v v' -> (Rabs (B2R v' - B2R v) <= Rabs (B2R v) / 100000 + bpow radix2 (-1074))%R.
Proof. exact shown_err. Qed.
Print Assumptions C92_error.

(** The box shown is never inside out. *)
Theorem C92_order : forall a b a' b', shown a a' -> shown b b' -> (B2R a <= B2R b)%R -> (B2R a' <= B2R b')%R.
Proof. exact shown_mono. Qed.
Print Assumptions C92_order.

(** A box that is not thin relative to its distance from the origin is shown with positive width. *)
Theorem C92_wide : forall v w v' w', shown v v' -> shown w w' ->
  ((Rabs (B2R v) + Rabs (B2R w)) / 100000 + 2 * bpow radix2 (-1074) < B2R w - B2R v)%R -> (B2R v' < B2R w')%R.
Proof. exact wide_box. Qed.
Print Assumptions C92_wide.

(** A box of width one far away is shown flat. *)
Theorem C92_flat_refuted : exists low high t low' high', finite3 low /\ finite3 high /\ (B2R (vx low) + 1 = B2R (vx high))%R /\
  writeBox true low high = Done t /\ readVtk t = Some (low', high') /\ (B2R (vx low') = B2R (vx high'))%R.
Proof. exact flat_box. Qed.
Print Assumptions C92_flat_refuted.

(** When the file cannot be opened, writing to it is undefined. *)
Theorem C92_closed_refuted : exists low high, writeBox false low high = UB.
Proof. exact (ex_intro _ (Vec f_zero f_zero f_zero) (ex_intro _ (Vec (f_lit 1 0) (f_lit 1 0) (f_lit 1 0)) eq_refl)). Qed.
Print Assumptions C92_closed_refuted.

(** numbers as %g prints them *)
Example C92_example_numbers : map fmtG6 [f_lit (-5) (-1); f_lit 1000001 0; f_lit 123456 (-20); f_lit 3 (-30); f_lit 999999 0; f_lit 1999999 (-1)] =
  map codes ["-2.5"; "1e+06"; "0.117737"; "2.79397e-09"; "999999"; "1e+06"]%string.
Proof. vm_compute. reflexivity. Qed.
Example C92_example_lines : boundsLine (f_lit (-5) (-1)) (f_lit 20 0) = codes "-2.5 20" ++ [10].
Proof. vm_compute. reflexivity. Qed.
Example C92_example_read : exists t, writeBox true (Vec (f_lit (-5) (-1)) f_zero f_zero) (Vec (f_lit 20 0) (f_lit 1 0) (f_lit 1 (-3))) = Done t /\
  match readVtk t with Some (a, b) => (map fmtG6 [vx a; vy a; vz a; vx b; vy b; vz b]) | None => [] end = map codes ["-2.5"; "0"; "0"; "20"; "1"; "0.125"]%string.
Proof. eexists. split; [reflexivity|]. vm_compute. reflexivity. Qed.
Example C92_example_wrong : readVtk (codes "# vtk DataFile Version 3.0" ++ [10]) = None.
Proof. vm_compute. reflexivity. Qed.
Example C92_example_infinite : map fmtG6 [B754_infinity false; B754_infinity true; B754_nan; B754_zero true] = map codes ["inf"; "-inf"; "nan"; "-0"]%string.
Proof. vm_compute. reflexivity. Qed.
