(** Reading a usage text, and what a message of the parser should say. *)
From Coq Require Import List Arith ZArith Bool Ascii String.
From Verif Require Import RunModel CmdModel CmdSpec CmdMsgModel.
Import ListNotations.

(** pieces of a text between separators *)
Fixpoint split (sep : ascii) (t : text) : list text :=
  match t with
  | [] => [[]]
  | c :: t => if Ascii.eqb c sep then [] :: split sep t else match split sep t with p :: ps => (c :: p) :: ps | [] => [[c]] end
  end.
(** what follows a prefix *)
Fixpoint after (p t : text) : option text :=
  match p, t with
  | [], _ => Some t
  | a :: p, b :: t => if Ascii.eqb a b then after p t else None
  | _, [] => None
  end.
(** what is between a prefix and a suffix *)
Definition between (p s t : text) : option text :=
  match after p t with Some r => match after (rev s) (rev r) with Some r => Some (rev r) | None => None end | None => None end.

(** what a reader learns of an option: short and long spelling, description, and the default value unless it is required *)
Record info := Info { short : text; long : text; about : text; byDefault : option text }.
(** reading the lines of the options *)
Fixpoint readEntries (ls : list text) : option (list info) :=
  match ls with
  | [[]] => Some []
  | l :: d :: ls =>
      match after (txt "  ") l, after (txt "   ") d with
      | Some l, Some d =>
          match split (ascii_of_nat 9) l with
          | [s; a] => match ls with
                      | v :: [] :: ls => match between (txt "   This parameter is optional. The default value is '") (txt "'.") v, readEntries ls with
                                         | Some v, Some is => Some (Info s a d (Some v) :: is)
                                         | _, _ => None
                                         end
                      | _ => None
                      end
          | [s; a; _] => match ls with
                         | [] :: ls => match readEntries ls with Some is => Some (Info s a d None :: is) | None => None end
                         | _ => None
                         end
          | _ => None
          end
      | _, _ => None
      end
  | _ => None
  end.
Definition readUsage (t : text) : option (list info) :=
  match split (ascii_of_nat 10) t with _ :: [] :: ls => readEntries ls | _ => None end.
(** a text on one line *)
Definition oneLine (t : text) : Prop := ~ In (ascii_of_nat 10) t.
Definition noTab (t : text) : Prop := ~ In (ascii_of_nat 9) t.
(** the messages; [help]: there is a help option *)
Definition helpHint (help : bool) : text := if help then txt "For more help use --help or -h." ++ [ascii_of_nat 10] else [].
Definition missingText (help : bool) (name description : text) : text :=
  txt "The parameter " ++ name ++ txt " is required." ++ [ascii_of_nat 10] ++ description ++ [ascii_of_nat 10] ++ helpHint help.
Definition invalidText (help : bool) (name description : text) : text :=
  txt "The parameter " ++ name ++ txt " has invalid arguments." ++ [ascii_of_nat 10] ++ description ++ [ascii_of_nat 10] ++ helpHint help.
Definition unplacedText (help : bool) : text :=
  txt "No default parameter has been specified." ++ [ascii_of_nat 10] ++ txt "The given argument must be used with a parameter." ++ [ascii_of_nat 10] ++ helpHint help.

(** what the usage text should say about an option with printed value [v] *)
Definition tells (o : opt) (v : text) : info :=
  Info (command (fst o)) (alternative (fst o)) (snd o) (if required (fst o) then None else Some v).
(** an option that fits on its lines *)
Definition clean (o : opt) (v : text) : Prop :=
  oneLine (name (fst o)) /\ noTab (name (fst o)) /\ oneLine (alt (fst o)) /\ noTab (alt (fst o)) /\ oneLine (snd o) /\ oneLine v.
(** why run returned false *)
Definition blames (conv : ty -> text -> option value) (os : list opt) (args : list text) (m : text) : Prop :=
  let cs := map fst os in
  (~ placed cs args /\ m = unplacedText (has_help os)) \/
  (placed cs args /\ exists i c d c1, nth_error os i = Some (c, d) /\ given cs args i c c1 /\
    ((required c = true /\ handled c1 = false /\ m = missingText (has_help os) (name c) d /\
      forall j c', j < i -> nth_error cs j = Some c' -> required c' = true -> exists c1', given cs args j c' c1' /\ handled c1' = true) \/
     (handled c1 = true /\ parse conv c1 = Threw /\ m = invalidText (has_help os) (name c) d))).
(** the decimal digits of a number, without a sign unless it is negative *)
Definition digitsOf (z : Z) (t : text) : Prop :=
  t <> [] /\ Forall (fun c => 48 <= nat_of_ascii c <= 57) t /\ fold_left (fun a c => 10 * a + (Z.of_nat (nat_of_ascii c) - 48))%Z t 0%Z = z.
Definition integerText (z : Z) (t : text) : Prop :=
  ((0 <= z)%Z /\ digitsOf z t) \/ ((z < 0)%Z /\ exists u, t = txt "-" ++ u /\ digitsOf (- z) u).
