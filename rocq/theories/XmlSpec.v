(** A reader of XML files and of the VTK files in them, written independently of the code that writes them.
    It accepts a part of XML: one root element, attributes in double quotes, no entities, no comments. *)
From Coq Require Import String List Arith NArith ZArith Reals Bool Ascii.
From Flocq Require Import Core BinarySingleNaN Binary Bits.
From Verif Require Import Outcome F64 Arith ParticleModel ConModel VecModel SylModel StepModel VtpModel Base64Model XmlModel.
Import ListNotations.
Local Open Scope list_scope.

Definition chars := list ascii.
Definition str (s : string) : chars := list_ascii_of_string s.
Definition same (a b : chars) : bool := if list_eq_dec ascii_dec a b then true else false.
Definition blank (c : ascii) : bool := existsb (Nat.eqb (nat_of_ascii c)) [9; 10; 13; 32]%nat.
(** letters, digits, and the signs of names *)
Definition nameChar (c : ascii) : bool :=
  let n := nat_of_ascii c in ((65 <=? n) && (n <=? 90) || (97 <=? n) && (n <=? 122) || (48 <=? n) && (n <=? 57) || (n =? 95))%nat.
Definition properName (t : chars) : bool := match t with [] => false | _ => forallb nameChar t end.
(** the part before the first character that satisfies p, and the rest *)
Fixpoint cut (p : ascii -> bool) (t : chars) : chars * chars :=
  match t with [] => ([], []) | c :: t' => if p c then ([], t) else let (a, b) := cut p t' in (c :: a, b) end.

Inductive node := Element (name : chars) (attrs : list (chars * chars)) (content : list node) | Chars (t : chars).

(** ** Tags *)
Inductive tag := Instruction | Opening (name : chars) (attrs : list (chars * chars)) | Closing (name : chars) | Empty (name : chars) (attrs : list (chars * chars)).
(** attributes, and whether a slash ends the tag *)
Fixpoint attributes (fuel : nat) (t : chars) : option (list (chars * chars) * bool) :=
  match fuel with
  | O => None
  | S fuel =>
      match snd (cut (fun c => negb (blank c)) t) with
      | [] => Some ([], false)
      | ["/"%char] => Some ([], true)
      | c :: t' =>
          if negb (match t with b :: _ => blank b | [] => false end) then None else
          let (key, r) := cut (fun c => (Ascii.eqb c "="%char) || blank c) (c :: t') in
          match r with
          | e :: q :: r =>
              if negb (Ascii.eqb e "="%char && Ascii.eqb q """"%char && properName key) then None else
              let (v, r) := cut (fun c => Ascii.eqb c """"%char) r in
              match r with
              | [] => None
              | _ :: r => match attributes fuel r with
                          | None => None
                          | Some (l, s) => if existsb (fun kv => same (fst kv) key) l then None else Some ((key, v) :: l, s)
                          end
              end
          | _ => None
          end
      end
  end.
(** the text between < and > *)
Definition parseTag (t : chars) : option tag :=
  match t with
  | "?"%char :: r => if Ascii.eqb (last r " "%char) "?"%char then Some Instruction else None
  | "/"%char :: r => let (name, r) := cut blank r in if properName name && forallb blank r then Some (Closing name) else None
  | _ => let (name, r) := cut (fun c => blank c || Ascii.eqb c "/"%char) t in
         if negb (properName name) then None else
         match attributes (S (length r)) r with
         | None => None
         | Some (l, true) => Some (Empty name l)
         | Some (l, false) => Some (Opening name l)
         end
  end.

(** ** The whole text, character by character *)
Inductive place := InText (seen : chars) | InTag (quoted : bool) (seen : chars). (* seen: latest first *)
Record unfinished := Unfinished { u_name : chars; u_attrs : list (chars * chars); u_content : list node (* latest first *) }.
Record reading := Reading { root : option node; opened : list unfinished; at_ : place }.
Definition add (n : node) (u : unfinished) : unfinished := Unfinished (u_name u) (u_attrs u) (n :: u_content u).
(** a finished element or piece of text *)
Definition give (n : node) (r : option node) (l : list unfinished) : option reading :=
  match l, r with
  | u :: l, _ => Some (Reading r (add n u :: l) (InText []))
  | [], None => Some (Reading (Some n) [] (InText []))
  | [], Some _ => None
  end.
Definition tagDone (g : tag) (r : option node) (l : list unfinished) : option reading :=
  match g with
  | Instruction => match r, l with None, [] => Some (Reading r l (InText [])) | _, _ => None end
  | Opening name attrs => match r with None => Some (Reading r (Unfinished name attrs [] :: l) (InText [])) | Some _ => None end
  | Empty name attrs => give (Element name attrs []) r l
  | Closing name => match l with
                    | [] => None
                    | u :: l => if same name (u_name u) then give (Element name (u_attrs u) (rev (u_content u))) r l else None
                    end
  end.
(** blank text between tags is dropped; other text must be inside of an element *)
Definition textDone (t : chars) (r : option node) (l : list unfinished) : option (list unfinished) :=
  if forallb blank t then Some l else match l with u :: l => Some (add (Chars t) u :: l) | [] => None end.
Definition readChar (s : reading) (c : ascii) : option reading :=
  match at_ s with
  | InText seen =>
      if Ascii.eqb c "<"%char then
        match textDone (rev seen) (root s) (opened s) with Some l => Some (Reading (root s) l (InTag false [])) | None => None end
      else if Ascii.eqb c "&"%char then None
      else Some (Reading (root s) (opened s) (InText (c :: seen)))
  | InTag quoted seen =>
      if Ascii.eqb c "<"%char || Ascii.eqb c "&"%char then None
      else if Ascii.eqb c ">"%char && negb quoted then match parseTag (rev seen) with Some g => tagDone g (root s) (opened s) | None => None end
      else Some (Reading (root s) (opened s) (InTag (if Ascii.eqb c """"%char then negb quoted else quoted) (c :: seen)))
  end.
Definition readChars (s : option reading) (t : chars) : option reading :=
  fold_left (fun s c => match s with Some s => readChar s c | None => None end) t s.
Definition parseXML (t : chars) : option node :=
  match readChars (Some (Reading None [] (InText []))) t with
  | Some (Reading (Some n) [] (InText seen)) => if forallb blank seen then Some n else None
  | _ => None
  end.

(** ** Reading VTK data *)
Definition attr (key : string) (n : node) : option chars :=
  match n with Element _ attrs _ => option_map snd (find (fun kv => same (fst kv) (str key)) attrs) | Chars _ => None end.
Definition isNamed (name : chars) (n : node) : bool := match n with Element k _ _ => same k name | Chars _ => false end.
Definition children (name : chars) (n : node) : list node := match n with Element _ _ l => filter (isNamed name) l | Chars _ => [] end.
(** the only child with this name *)
Definition child (name : chars) (n : node) : option node := match children name n with [c] => Some c | _ => None end.
Definition isAttr (key value : string) (n : node) : bool := match attr key n with Some v => same v (str value) | None => false end.
Notation "'get' x <- m ; k" := (match m with Some x => k | None => None end) (at level 60, x name, m at next level, right associativity).

Definition decimal (t : chars) : option nat :=
  if negb (match t with [] => true | _ => false end) && forallb (fun c => (48 <=? nat_of_ascii c) && (nat_of_ascii c <=? 57))%nat t
  then Some (Z.to_nat (fold_left (fun a c => 10 * a + (Z.of_nat (nat_of_ascii c) - 48))%Z t 0%Z)) else None.
Definition typeNamed (t : chars) : option vtype :=
  if same t (str "UInt8") then Some UInt8 else if same t (str "Int32") then Some Int32
  else if same t (str "Float32") then Some Float32 else if same t (str "Float64") then Some Float64 else None.

Fixpoint littleEndian (b : list N) : Z := match b with [] => 0 | c :: b => Z.of_N c + 256 * littleEndian b end%Z.
Definition signed32 (z : Z) : Z := if (z <? 2 ^ 31)%Z then z else (z - 2 ^ 32)%Z.
Definition element (t : vtype) (b : list N) : value F_arith :=
  let z := littleEndian b in
  match t with
  | UInt8 => VI z
  | Int32 => VI (signed32 z)
  | Float32 => VR (widen (B2BSN 24 128 (b32_of_bits z)) : F_arith)
  | Float64 => VR (B2BSN 53 1024 (b64_of_bits z) : F_arith)
  end.
(** groups of n bytes *)
Fixpoint groups (fuel n : nat) (b : list N) : list (list N) :=
  match fuel, b with S fuel, _ :: _ => firstn n b :: groups fuel n (skipn n b) | _, _ => [] end.
Definition bytesOf (t : vtype) : nat := match t with UInt8 => 1 | Int32 => 4 | Float32 => 4 | Float64 => 8 end.

(** the base64 text of an array: a block with the number of bytes, then a block with the bytes; decoded with the decoder of kwsys, which VTK uses *)
Definition decode64 (t : list N) : option (list N) :=
  match kwsysBase64_Decode t 4 [0; 0; 0; 0]%N 0 with
  | Done (4%nat, h) =>
      let n := Z.to_nat (littleEndian h) in
      match kwsysBase64_Decode (skipn 8 t) n (repeat 0%N n) 0 with
      | Done (k, b) => if (k =? n)%nat then Some b else None
      | _ => None
      end
  | _ => None
  end.
Definition field (n : node) : option fieldVTU :=
  get name <- attr "Name" n; get ty <- attr "type" n; get comp <- attr "NumberOfComponents" n;
  get t <- typeNamed ty; get c <- decimal comp; Some (FieldVTU c t name).
Definition array (n : node) : option (darray F_arith) :=
  match n with
  | Element _ _ [Chars t] =>
      if negb (isAttr "format" "binary" n) then None else
      get f <- field n;
      get b <- decode64 (map N_of_ascii (filter (fun c => negb (blank c)) t));
      Some (DArray (h_name f) (h_type f) (h_comp f) (map (element (h_type f)) (groups (length b) (bytesOf (h_type f)) b)))
  | _ => None
  end.
Fixpoint all {A B} (f : A -> option B) (l : list A) : option (list B) :=
  match l with [] => Some [] | a :: l => get b <- f a; get r <- all f l; Some (b :: r) end.
Definition arrays (name : string) (n : node) : option (list (darray F_arith)) :=
  get c <- child (str name) n; all array (children (str "DataArray") c).
(** the element in the root of a file of this type *)
Definition body (kind : chars) (n : node) : option node :=
  if isNamed (str "VTKFile") n && match attr "type" n with Some v => same v kind | None => false end
     && isAttr "byte_order" "LittleEndian" n && isAttr "header_type" "UInt32" n then child kind n else None.

(** a .vtp file *)
Definition readVTP (t : chars) : option (piece F_arith) :=
  get n <- parseXML t; get d <- body (str "PolyData") n; get p <- child (str "Piece") d;
  get a <- attr "NumberOfPoints" p; get np <- decimal a; get b <- attr "NumberOfLines" p; get nl <- decimal b;
  get points <- arrays "Points" p; get lines <- arrays "Lines" p; get pt <- arrays "PointData" p; get cell <- arrays "CellData" p;
  match points with [pos] => Some (Piece np nl pos lines pt cell) | _ => None end.

Definition fields (name : string) (n : node) : option (list fieldVTU) :=
  match children (str name) n with [] => Some [] | [c] => all field (children (str "PDataArray") c) | _ => None end.
(** a .pvtp or .pvtu file *)
Definition readParallel (kind : string) (t : chars) : option header :=
  get n <- parseXML t; get d <- body (str "P" ++ str kind) n;
  get pt <- fields "PPointData" d; get cell <- fields "PCellData" d;
  get pp <- child (str "PPoints") d; get pos <- child (str "PDataArray") pp;
  get ty <- attr "type" pos; get comp <- attr "NumberOfComponents" pos; get ty <- typeNamed ty; get comp <- decimal comp;
  get pieces <- all (attr "Source") (children (str "Piece") d);
  Some (Header pt cell (comp, ty) pieces).

(** ** What can be written *)
(** names that can be put between double quotes *)
Definition quotable (t : chars) : Prop := Forall (fun c => ~ In c [""""%char; "<"%char; "&"%char]) t.
(** a value of the type of the array *)
Definition ofType (t : vtype) (v : value F_arith) : Prop :=
  match t, v with
  | UInt8, VI z => (0 <= z < 256)%Z
  | Int32, VI z => (- 2 ^ 31 <= z < 2 ^ 31)%Z
  | Float32, VR x => exists y : f32, x = widen y
  | Float64, VR _ => True
  | _, _ => False
  end.
Definition storable (a : darray F_arith) : Prop :=
  quotable (a_name a) /\ Forall (ofType (a_type a)) (a_data a) /\ (N.of_nat (length (a_data a)) * N.of_nat (bytesOf (a_type a)) < 2 ^ 32)%N.

(** ** Restart *)
(** m is p, as precisely as the middle of the ends p - a and p + a can be computed *)
Definition near (p a m : f64) : Prop :=
  BinarySingleNaN.is_finite p = true -> BinarySingleNaN.is_finite a = true ->
  (Rabs (BinarySingleNaN.B2R p) <= bpow radix2 1000)%R -> (Rabs (BinarySingleNaN.B2R a) <= bpow radix2 1000)%R ->
  BinarySingleNaN.is_finite m = true /\
  (Rabs (BinarySingleNaN.B2R m - BinarySingleNaN.B2R p) <= bpow radix2 (-51) * (Rabs (BinarySingleNaN.B2R p) + Rabs (BinarySingleNaN.B2R a)) + bpow radix2 (-1073))%R.
(** t is what a restart makes of object s, but for its orientation *)
Definition restoredF (s t : sylinder F_arith) : Prop :=
  s_gid t = s_gid s /\ s_group t = s_group s /\ immovable t = immovable s /\
  radius t = to32 (radius s) /\ radiusCol t = to32 (radiusCol s) /\ slength t = to32 (slength s) /\ lengthCol t = to32 (lengthCol s) /\
  (vx (vel (mot t)), vy (vel (mot t)), vz (vel (mot t))) = (to32 (vx (vel (mot s))), to32 (vy (vel (mot s))), to32 (vz (vel (mot s)))) /\
  (vx (omega (mot t)), vy (omega (mot t)), vz (omega (mot t))) = (to32 (vx (omega (mot s))), to32 (vy (omega (mot s))), to32 (vz (omega (mot s)))) /\
  let h := vscale (N := F_arith) (fmul (slength s) (f_lit 1 (-1))) (axis s) in (* half of the object *)
  near (vx (spos s)) (vx h) (vx (spos t)) /\ near (vy (spos s)) (vy h) (vy (spos t)) /\ near (vz (spos s)) (vz h) (vz (spos t)).
