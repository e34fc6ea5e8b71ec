(** Room in the neighbour search tree. *)
From Coq Require Import List ZArith.
From Verif Require Import TreeCapModel.
Import ListNotations.
Local Open Scope Z_scope.

(** a run starts with initialize or reinitialize *)
Definition startsWell (es : list event) : Prop := match es with Initialize _ :: _ => True | _ => False end.
(** a tree for [n] objects is large enough with a third to spare *)
Definition room (cap : option Z) (n : Z) : Prop := exists c, cap = Some c /\ 4 * n <= 3 * c.
