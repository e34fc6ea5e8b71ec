(** Periodic images. *)
From Coq Require Import Reals ZArith.
Local Open Scope R_scope.

(** [y] is a periodic image of [x] in a box of length [L] *)
Definition image (L x y : R) : Prop := exists k : Z, y = x + IZR k * L.

(** [y] is an image of [x] and no image of [x] is closer to [t] *)
Definition nearest_image (L x t y : R) : Prop :=
  image L x y /\ forall y', image L x y' -> Rabs (y - t) <= Rabs (y' - t).

(** a finite double that is the multiple [z] of 2^e *)
From Flocq Require Import Core BinarySingleNaN.
From Verif Require Import F64.
Definition on_grid (e z : Z) (x : f64) : Prop := is_finite x = true /\ B2R x = IZR z * bpow radix2 e.
