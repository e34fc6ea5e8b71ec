(** A serialization buffer as a tape of objects with a read position. *)
From Coq Require Import List Arith ZArith Bool.
From Verif Require Import Outcome BufModel.
Import ListNotations.
Local Open Scope Z_scope.

(** objects the format can hold: 64-bit integers, 8-byte doubles, strings and arrays below 2^32 *)
Inductive fits : obj -> Prop :=
| fits_nil : fits ONil
| fits_bool b : fits (OBool b)
| fits_int z : - 2 ^ 63 <= z < 2 ^ 64 -> fits (OInt z)
| fits_double raw : length raw = 8%nat -> fits (ODouble raw)
| fits_str s : Z.of_nat (length s) < 2 ^ 32 -> fits (OStr s)
| fits_arr l : Z.of_nat (length l) < 2 ^ 32 -> Forall fits l -> fits (OArr l).

(** a codec whose messages can be read one after another *)
Record reads_back {O} (good : O -> Prop) (enc : O -> bytes) (dec : bytes -> option (O * nat)) : Prop := ReadsBack {
  rb_read : forall o rest, good o -> dec (enc o ++ rest) = Some (o, length (enc o));
  rb_end : dec [] = None }.

(** what a user does: pack an object (sent to write in pieces), unpack the next one, go back to object j *)
Inductive action (O : Type) := Pack (o : O) (chunks : list bytes) | Unpack | Rewind (j : nat).
Arguments Pack {O}. Arguments Unpack {O}. Arguments Rewind {O}.

(** the tape: all objects packed so far and the number of the next one to read *)
Definition tape (O : Type) := (list O * nat)%type.
Definition act {O} (t : tape O) (a : action O) : tape O * option (option O) :=
  let '(os, k) := t in
  match a with
  | Pack o _ => ((os ++ [o], k), None)
  | Unpack => match nth_error os k with Some o => ((os, S k), Some (Some o)) | None => ((os, k), Some None) end
  | Rewind j => ((os, Nat.min j (length os)), None)
  end.
Fixpoint acts {O} (t : tape O) (l : list (action O)) : tape O * list (option O) :=
  match l with
  | [] => (t, [])
  | a :: l => let '(t, r) := act t a in let '(t, rs) := acts t l in (t, match r with Some x => x :: rs | None => rs end)
  end.

(** the same on the buffer; the position of object j is where it was packed *)
Definition start {O} (enc : O -> bytes) (os : list O) (j : nat) : nat := length (concat (map enc (firstn j os))).
Fixpoint run {O} (enc : O -> bytes) (dec : bytes -> option (O * nat)) (b : buffer) (os : list O) (l : list (action O)) : outcome (buffer * list (option O)) :=
  match l with
  | [] => Done (b, [])
  | Pack o chunks :: l => do b <- pack b chunks; run enc dec b (os ++ [o]) l
  | Unpack :: l =>
      match contentPtr b with
      | None => UB
      | Some c => let '(b, r) := unpack dec (fun o => Some o) b c in
                  do br <- run enc dec b os l; Done (fst br, r :: snd br)
      end
  | Rewind j :: l => run enc dec (setReadPos b (start enc os j)) os l
  end.
(** every object packed is good and its pieces make up its encoding *)
Definition proper {O} (good : O -> Prop) (enc : O -> bytes) (l : list (action O)) : Prop :=
  Forall (fun a => match a with Pack o chunks => good o /\ concat chunks = enc o | _ => True end) l.
(** total size of everything packed *)
Definition packed {O} (enc : O -> bytes) (l : list (action O)) : Z :=
  fold_right Z.add 0 (map (fun a => match a with Pack o _ => Z.of_nat (length (enc o)) | _ => 0 end) l).
