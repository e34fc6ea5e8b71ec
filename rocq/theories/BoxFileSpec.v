(** A reader of the file of the simulation box, and what its numbers have to do with the box. *)
From Coq Require Import List ZArith Reals Bool String Ascii.
From Flocq Require Import Core BinarySingleNaN.
From Verif Require Import F64 ParticleModel VecModel AscModel AscSpec.
Import ListNotations.
Local Open Scope Z_scope.

(** the text has to go on with [t] *)
Fixpoint expect (t l : list Z) : option (list Z) :=
  match t, l with
  | [], l => Some l
  | a :: t, b :: l => if a =? b then expect t l else None
  | _ :: _, [] => None
  end.
(** the rest after the end of the line *)
Fixpoint nextLine (l : list Z) : option (list Z) := match l with [] => None | c :: l => if c =? 10 then Some l else nextLine l end.
(** two numbers and the end of the line *)
Definition twoNumbers (l : list Z) : option (f64 * f64 * list Z) :=
  match readDouble l with
  | (Some a, true, l) => match readDouble l with (Some b, true, l) => option_map (fun l => (a, b, l)) (expect [10] l) | _ => None end
  | _ => None
  end.
Definition bind {A B} (o : option A) (k : A -> option B) : option B := match o with Some a => k a | None => None end.
(** the coordinates along an axis *)
Definition axisOf (name : string) (l : list Z) : option (f64 * f64 * list Z) :=
  bind (expect (codes name ++ codes "_COORDINATES 2 float") l) twoNumbers.
(** a legacy VTK file with one cell between eight points: its lower and upper corner; nothing may follow *)
Definition readVtk (l : list Z) : option (vec f64 * vec f64) :=
  bind (expect (codes "# vtk DataFile Version ") l) (fun l => bind (nextLine l) (fun l => bind (nextLine l) (fun l =>
  bind (expect (codes "ASCII") l) (fun l => bind (expect (10 :: codes "DATASET RECTILINEAR_GRID") l) (fun l =>
  bind (expect (10 :: codes "DIMENSIONS 2 2 2") l) (fun l => bind (expect [10] l) (fun l =>
  bind (axisOf "X" l) (fun '(x0, x1, l) => bind (axisOf "Y" l) (fun '(y0, y1, l) => bind (axisOf "Z" l) (fun '(z0, z1, l) =>
  bind (expect (codes "CELL_DATA 1") l) (fun l => bind (expect (10 :: codes "POINT_DATA 8") l) (fun l => bind (expect [10] l) (fun l =>
  match l with [] => Some (Vec x0 y0 z0, Vec x1 y1 z1) | _ => None end))))))))))))).

(** the nearest number with six decimal digits, ties to even *)
Definition sixDigits (x : R) : R := round radix10 (FLX_exp 6) ZnearestE x.
(** the double nearest to the six digits *)
Definition shown (v v' : f64) : Prop := is_finite v' = true /\ B2R v' = rnd64 (sixDigits (B2R v)).
Definition shown3 (v v' : vec f64) : Prop := shown (vx v) (vx v') /\ shown (vy v) (vy v') /\ shown (vz v) (vz v').
