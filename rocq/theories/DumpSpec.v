(** A reader of the file of points. *)
From Coq Require Import List ZArith Reals Bool.
From Flocq Require Import Core BinarySingleNaN.
From Verif Require Import F64 AscModel.
Import ListNotations.
Local Open Scope Z_scope.

(** n numbers, one after the other *)
Fixpoint readNumbers (n : nat) (l : list Z) : option (list f64 * list Z) :=
  match n with
  | O => Some ([], l)
  | S n => match readDouble l with
           | (Some v, true, l) => match readNumbers n l with Some (vs, l) => Some (v :: vs, l) | None => None end
           | _ => None
           end
  end.
(** one point: three coordinates, a semicolon, d values, the end of the line *)
Definition readPoint (d : nat) (l : list Z) : option (list f64 * list f64 * list Z) :=
  match readNumbers 3 l with
  | Some (xs, 59 :: l) => match readNumbers d l with Some (vs, 32 :: 10 :: l) => Some (xs, vs, l) | _ => None end
  | _ => None
  end.
(** n points and the end of the file: the coordinates and the values in the order of the file *)
Fixpoint readPoints (d n : nat) (l : list Z) : option (list f64 * list f64) :=
  match n with
  | O => match l with [] => Some ([], []) | _ => None end
  | S n => match readPoint d l with
           | Some (xs, vs, l) => match readPoints d n l with Some (xss, vss) => Some (xs ++ xss, vs ++ vss) | None => None end
           | None => None
           end
  end.
(** a number that is not too large, and the number read for it *)
Definition moderate (v : f64) : Prop := is_finite v = true /\ (Rabs (B2R v) <= bpow radix2 1000)%R.
Definition near (v v' : f64) : Prop :=
  is_finite v' = true /\ (Rabs (B2R v' - B2R v) <= / 1000000 + Rabs (B2R v) * bpow radix2 (-52))%R.
