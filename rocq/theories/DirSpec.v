(** Folders that are ready for writing. *)
From Coq Require Import List ZArith Bool Ascii String.
From Verif Require Import Outcome RunModel DirModel.
Import ListNotations.

(** the folder of the results, and the name of the folder of a snapshot inside *)
Definition resultDir : text := txt "./result".
(** [p] is the path [t] up to slashes at the end *)
Definition isPath (t p : text) : Prop := (forall p', p <> p' ++ txt "/") /\ exists n, t = p ++ repeat "/"%char n.
(** no plain file is in the place of a result folder *)
Definition noFileInPlace (size : Z) (f : fs) : Prop :=
  forall k t p, resultFolder size k = Done t -> isPath t p -> f p <> Some Plain.
