(** Model of GetBinString (FDPS/ps_defs.hpp:1898-1945), the text of a number in base two. *)
From Coq Require Import String Ascii List ZArith.
Import ListNotations.
Local Open Scope Z_scope.

(** the loop, n more rounds to go (FDPS/ps_defs.hpp:1903-1907, 1915-1919, 1927-1931, 1939-1943) *)
Fixpoint binLoop (n : nat) (tmp : Z) (str : list ascii) : list ascii :=
  match n with
  | O => str
  | S n => binLoop n (Z.shiftr tmp 1) ((if Z.land tmp 1 =? 0 then "0"%char else "1"%char) :: str)
  end.

(** GetBinString of a U32 or of a pointer to one that can be read (FDPS/ps_defs.hpp:1898-1921) *)
Definition getBin32 (val : Z) : list ascii :=
  if val =? 0 then list_ascii_of_string "00000000000000000000000000000000" else binLoop 32 val [].

(** GetBinString of a U64 or of a pointer to one that can be read (FDPS/ps_defs.hpp:1922-1945) *)
Definition getBin64 (val : Z) : list ascii :=
  if val =? 0 then list_ascii_of_string "0000000000000000000000000000000000000000000000000000000000000000" else binLoop 64 val [].
