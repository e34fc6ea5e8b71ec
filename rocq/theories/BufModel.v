(** The serialization buffer Util/Buffer.hpp. Bytes are numbers; the message format (msgpack-c, outside the repository) is an oracle pair
    [encode]/[decode] in the buffer functions and a concrete subset of the MessagePack format below. *)
From Coq Require Import List Arith ZArith Bool.
From Verif Require Import Outcome.
Import ListNotations.
Local Open Scope Z_scope.

Definition bytes := list Z. (* std::vector<char>, Util/Buffer.hpp:18 *)
Definition INT_MAX : Z := 2147483647. (* int currentSize, Util/Buffer.hpp:85 *)
(** readPos and the vector pointed to (None: nullptr), Util/Buffer.hpp:17-18 *)
Record buffer := Buffer { readPos : nat; contentPtr : option bytes }.

(** Util/Buffer.hpp:25-28 *)
Definition newEmpty : buffer := Buffer 0 None.
(** Util/Buffer.hpp:37-40: the existing contents stay *)
Definition newBuffer (buf : bytes) : buffer := Buffer 0 (Some buf).
(** Util/Buffer.hpp:53 *)
Definition setReadPos (b : buffer) (pos : nat) : buffer := Buffer pos (contentPtr b).
(** Util/Buffer.hpp:71 *)
Definition getSize (b : buffer) : outcome nat := match contentPtr b with Some c => Done (length c) | None => UB end.

(** Util/Buffer.hpp:79-88; the size goes through an int *)
Definition write (b : buffer) (chunk : bytes) : outcome buffer :=
  match contentPtr b with
  | None => UB
  | Some content => if Z.of_nat (length content) <=? INT_MAX then Done (Buffer (readPos b) (Some (content ++ chunk))) else UB
  end.
(** Util/Buffer.hpp:98-101: msgpack::pack calls write for the pieces of the encoding *)
Fixpoint pack (b : buffer) (chunks : list bytes) : outcome buffer :=
  match chunks with
  | [] => Done b
  | c :: cs => do b <- write b c; pack b cs
  end.

(** Util/Buffer.hpp:112-121; [decode] gives the object and the number of bytes used, None: an exception (nothing has changed then);
    [convert] gives the output value, None: type_error *)
Definition unpack {O T} (decode : bytes -> option (O * nat)) (convert : O -> option T) (b : buffer) (content : bytes) : buffer * option T :=
  match decode (skipn (readPos b) content) with
  | None => (b, None)
  | Some (o, n) => match convert o with
                   | None => (b, None)
                   | Some x => (setReadPos b (readPos b + n), Some x)
                   end
  end.

(** * A subset of the MessagePack format (msgpack-c pack.hpp/unpack.hpp, used by Util/Buffer.hpp:100, 115-117) *)
Inductive obj := ONil | OBool (b : bool) | OInt (z : Z) | ODouble (raw : bytes) | OStr (s : bytes) | OArr (l : list obj).

(** n bytes, most significant first (msgpack::pack at Util/Buffer.hpp:100) *)
Fixpoint be (n : nat) (z : Z) : bytes := match n with O => [] | S m => be m (z / 256) ++ [z mod 256] end.
Fixpoint unbe (l : bytes) (acc : Z) : Z := match l with [] => acc | b :: l => unbe l (acc * 256 + b) end. (* msgpack big-endian load *)

(** MessagePack integers: the shortest form (msgpack::pack at Util/Buffer.hpp:100) *)
Definition encInt (z : Z) : bytes :=
  if z <? - 2 ^ 31 then 211 :: be 8 (z mod 2 ^ 64)
  else if z <? - 2 ^ 15 then 210 :: be 4 (z mod 2 ^ 32)
  else if z <? - 2 ^ 7 then 209 :: be 2 (z mod 2 ^ 16)
  else if z <? - 32 then 208 :: be 1 (z mod 2 ^ 8)
  else if z <? 0 then [z mod 256]
  else if z <? 128 then [z]
  else if z <? 2 ^ 8 then 204 :: be 1 z
  else if z <? 2 ^ 16 then 205 :: be 2 z
  else if z <? 2 ^ 32 then 206 :: be 4 z
  else 207 :: be 8 z.
(** the header of a string of n bytes (msgpack::pack at Util/Buffer.hpp:100) *)
Definition strHead (n : Z) : bytes :=
  if n <? 32 then [160 + n] else if n <? 2 ^ 8 then 217 :: be 1 n else if n <? 2 ^ 16 then 218 :: be 2 n else 219 :: be 4 n.
(** the header of an array of n objects (msgpack::pack at Util/Buffer.hpp:100) *)
Definition arrHead (n : Z) : bytes := if n <? 16 then [144 + n] else if n <? 2 ^ 16 then 220 :: be 2 n else 221 :: be 4 n.

(** msgpack::pack of an object (msgpack::pack at Util/Buffer.hpp:100) *)
Fixpoint encode (o : obj) : bytes :=
  match o with
  | ONil => [192]
  | OBool b => [if b then 195 else 194]
  | OInt z => encInt z
  | ODouble raw => 203 :: raw
  | OStr s => strHead (Z.of_nat (length s)) ++ s
  | OArr l => arrHead (Z.of_nat (length l)) ++ concat (map encode l)
  end.

(** take n bytes (msgpack::unpack at Util/Buffer.hpp:115-117) *)
Definition take (n : nat) (l : bytes) : option (bytes * bytes) := if (length l <? n)%nat then None else Some (firstn n l, skipn n l).
(** signed value of n bytes (msgpack::unpack at Util/Buffer.hpp:115-117) *)
Definition signed (n : nat) (z : Z) : Z := if z <? 2 ^ (8 * Z.of_nat n - 1) then z else z - 2 ^ (8 * Z.of_nat n).
(** an n-byte number (msgpack::unpack at Util/Buffer.hpp:115-117) *)
Definition number (n : nat) (sgn : bool) (l : bytes) : option (obj * bytes) :=
  match take n l with None => None | Some (x, r) => let z := unbe x 0 in Some (OInt (if sgn then signed n z else z), r) end.
(** a string whose length takes n bytes (msgpack::unpack at Util/Buffer.hpp:115-117) *)
Definition strBody (len : nat) (l : bytes) : option (obj * bytes) := match take len l with None => None | Some (x, r) => Some (OStr x, r) end.

(** msgpack::unpack: one object and the bytes after it; [fuel] bounds the nesting and the number of elements (msgpack::unpack at Util/Buffer.hpp:115-117) *)
Fixpoint parse (fuel : nat) (l : bytes) : option (obj * bytes) :=
  match fuel with
  | O => None
  | S fuel =>
      let fix elems (f : nat) (n : nat) (l : bytes) : option (list obj * bytes) :=
        match n with
        | O => Some ([], l)
        | S n => match f with
                 | O => None
                 | S f => match parse fuel l with
                          | None => None
                          | Some (o, l) => match elems f n l with None => None | Some (os, l) => Some (o :: os, l) end
                          end
                 end
        end in
      let arr (n : nat) (l : bytes) := match elems (S (length l)) n l with None => None | Some (os, r) => Some (OArr os, r) end in
      match l with
      | [] => None
      | h :: l =>
          if h <? 128 then Some (OInt h, l)
          else if h <? 144 then None (* maps are not modelled *)
          else if h <? 160 then arr (Z.to_nat (h - 144)) l
          else if h <? 192 then strBody (Z.to_nat (h - 160)) l
          else if h =? 192 then Some (ONil, l)
          else if h =? 194 then Some (OBool false, l)
          else if h =? 195 then Some (OBool true, l)
          else if h =? 203 then match take 8 l with None => None | Some (x, r) => Some (ODouble x, r) end
          else if h =? 204 then number 1 false l
          else if h =? 205 then number 2 false l
          else if h =? 206 then number 4 false l
          else if h =? 207 then number 8 false l
          else if h =? 208 then number 1 true l
          else if h =? 209 then number 2 true l
          else if h =? 210 then number 4 true l
          else if h =? 211 then number 8 true l
          else if h =? 217 then match take 1 l with None => None | Some (x, r) => strBody (Z.to_nat (unbe x 0)) r end
          else if h =? 218 then match take 2 l with None => None | Some (x, r) => strBody (Z.to_nat (unbe x 0)) r end
          else if h =? 219 then match take 4 l with None => None | Some (x, r) => strBody (Z.to_nat (unbe x 0)) r end
          else if h =? 220 then match take 2 l with None => None | Some (x, r) => arr (Z.to_nat (unbe x 0)) r end
          else if h =? 221 then match take 4 l with None => None | Some (x, r) => arr (Z.to_nat (unbe x 0)) r end
          else if 224 <=? h then Some (OInt (h - 256), l)
          else None
      end
  end.
(** msgpack::unpack(data, size, offset): the object and the number of bytes used (msgpack::unpack at Util/Buffer.hpp:115-117) *)
Definition decode (l : bytes) : option (obj * nat) :=
  match parse (S (length l)) l with None => None | Some (o, r) => Some (o, (length l - length r)%nat) end.
