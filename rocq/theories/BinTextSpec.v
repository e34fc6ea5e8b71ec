(** What a text in base two means. *)
From Coq Require Import Ascii List ZArith.
Import ListNotations.
Local Open Scope Z_scope.

(** a digit *)
Definition digit (c : ascii) : option Z :=
  if Ascii.eqb c "0" then Some 0 else if Ascii.eqb c "1" then Some 1 else None.

(** the number of a text, the first digit is the highest *)
Fixpoint readFrom (acc : Z) (t : list ascii) : option Z :=
  match t with
  | [] => Some acc
  | c :: t => match digit c with Some d => readFrom (2 * acc + d) t | None => None end
  end.
Definition readBin (t : list ascii) : option Z := readFrom 0 t.

(** the order of a dictionary *)
Fixpoint before (s t : list ascii) : Prop :=
  match s, t with
  | [], [] => False
  | [], _ :: _ => True
  | _ :: _, [] => False
  | c :: s, d :: t => (N_of_ascii c < N_of_ascii d)%N \/ (c = d /\ before s t)
  end.
