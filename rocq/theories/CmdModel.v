(** Model of the command line parser, Util/cmdparser.hpp.
    NumericalBase wrappers and the help texts are left out; std::stoi, std::stod and the like are oracles. *)
From Coq Require Import List Arith ZArith Bool Ascii String.
From Verif Require Import Outcome ParticleModel RunModel VtpModel.
Import ListNotations.
Local Notation length := List.length.

(** types with a parse overload, Util/cmdparser.hpp:145-228 *)
Inductive ty := TInt | TBool | TDouble | TFloat | TLongDouble | TUnsigned | TULong | TULongLong | TLong | TString | TVec (t : ty).
(** values of these types; VUninit: a scalar member that was never given a value (Util/cmdparser.hpp:142 with 321-330) *)
Inductive value := VUninit | VInt (z : Z) | VBool (b : bool) | VReal (raw : Z) | VStr (s : text) | VVec (l : list value).
(** what a parse does: return, throw, leave the program (exit in a callback), read an indeterminate value (Util/cmdparser.hpp:98-140) *)
Inductive pres := Parsed (v : value) | Threw | Exits | Indeterminate.

(** Util/cmdparser.hpp:79-95 *)
Definition isVec (t : ty) : bool := match t with TVec _ => true | _ => false end.
(** T(), Util/cmdparser.hpp:217: value initialization *)
Definition zero (t : ty) : value := match t with TBool => VBool false | TString => VStr [] | TVec _ => VVec [] | TDouble | TFloat | TLongDouble => VReal 0 | _ => VInt 0 end.
(** default initialization of the member [value], Util/cmdparser.hpp:142 *)
Definition fresh (t : ty) : value := match t with TString => VStr [] | TVec _ => VVec [] | _ => VUninit end.

(** Util/cmdparser.hpp:145-228; [conv] is std::stoi etc. on one string (None: exception) *)
Fixpoint parseAs (conv : ty -> text -> option value) (t : ty) (elements : list text) (v : value) : pres :=
  match t with
  | TBool => match elements with
             | [] => match v with VBool b => Parsed (VBool (negb b)) | _ => Indeterminate end
             | _ => Threw
             end
  | TString => match elements with [e] => Parsed (VStr e) | _ => Threw end
  | TVec t => (fix go (l : list text) (acc : list value) : pres :=
                match l with
                | [] => Parsed (VVec acc)
                | e :: l => match parseAs conv t [e] (zero t) with Parsed x => go l (acc ++ [x]) | r => r end
                end) elements []
  | t => match elements with [e] => match conv t e with Some x => Parsed x | None => Threw end | _ => Threw end
  end.

(** CmdArgument<T> or CmdFunction<T> with its callback, Util/cmdparser.hpp:97-143 *)
Inductive kind := Argument (t : ty) | Function (variadic : bool) (callback : list text -> pres).
(** Util/cmdparser.hpp:61-69, 118-119, 142; description left out *)
Record cmd := Cmd { name : text; alt : text; required : bool; handled : bool; arguments : list text; dominant : bool; what : kind; val : value }.
(** Util/cmdparser.hpp:48 *)
Definition command (c : cmd) : text := match name c with [] => [] | n => "-"%char :: n end.
(** Util/cmdparser.hpp:49 *)
Definition alternative (c : cmd) : text := match alt c with [] => [] | n => "-"%char :: "-"%char :: n end.
(** Util/cmdparser.hpp:74-76 *)
Definition is (c : cmd) (given : text) : bool := teq given (command c) || teq given (alternative c).
(** Util/cmdparser.hpp:69, 101, 126 *)
Definition variadic (c : cmd) : bool := match what c with Argument t => isVec t | Function v _ => v end.
(** Util/cmdparser.hpp:104-112, 129-136 *)
Definition parse (conv : ty -> text -> option value) (c : cmd) : pres :=
  match what c with Argument t => parseAs conv t (arguments c) (val c) | Function _ f => f (arguments c) end.

(** Util/cmdparser.hpp:319-324 *)
Definition set_default (t : ty) (is_required : bool) (cs : list cmd) : list cmd := cs ++ [Cmd [] [] is_required false [] false (Argument t) (fresh t)].
(** Util/cmdparser.hpp:326-330 *)
Definition set_required (t : ty) (n a : text) (dom : bool) (cs : list cmd) : list cmd := cs ++ [Cmd n a true false [] dom (Argument t) (fresh t)].
(** Util/cmdparser.hpp:332-337 *)
Definition set_optional (t : ty) (n a : text) (v : value) (dom : bool) (cs : list cmd) : list cmd := cs ++ [Cmd n a false false [] dom (Argument t) v].
(** Util/cmdparser.hpp:339-344 *)
Definition set_callback (v : bool) (n a : text) (f : list text -> pres) (dom : bool) (cs : list cmd) : list cmd := cs ++ [Cmd n a false false [] dom (Function v f) VUninit].
(** Util/cmdparser.hpp:303-309 *)
Definition enable_help (cs : list cmd) : list cmd := set_callback false (txt "h") (txt "help") (fun _ => Exits) true cs.

(** first index satisfying a test (the loops of Util/cmdparser.hpp:460-478) *)
Fixpoint findIndex (p : cmd -> bool) (cs : list cmd) : option nat :=
  match cs with [] => None | c :: cs => if p c then Some 0 else option_map S (findIndex p cs) end.
(** Util/cmdparser.hpp:460-468 *)
Definition find (cs : list cmd) (t : text) : option nat := findIndex (fun c => is c t) cs.
(** Util/cmdparser.hpp:470-478 *)
Definition find_default (cs : list cmd) : option nat := findIndex (fun c => teq (name c) []) cs.

(** writing through a pointer to the i-th command (Util/cmdparser.hpp:370, 375-376, 131) *)
Fixpoint modify (i : nat) (f : cmd -> cmd) (cs : list cmd) : list cmd :=
  match cs, i with
  | [], _ => []
  | c :: cs, O => f c :: cs
  | c :: cs, S i => c :: modify i f cs
  end.
(** Util/cmdparser.hpp:370 *)
Definition handle (c : cmd) : cmd := Cmd (name c) (alt c) (required c) true (arguments c) (dominant c) (what c) (val c).
(** Util/cmdparser.hpp:375-376 *)
Definition push (t : text) (c : cmd) : cmd := Cmd (name c) (alt c) (required c) true (arguments c ++ [t]) (dominant c) (what c) (val c).
(** Util/cmdparser.hpp:131 *)
Definition setVal (v : value) (c : cmd) : cmd := Cmd (name c) (alt c) (required c) (handled c) (arguments c) (dominant c) (what c) v.

(** the token loop of run, Util/cmdparser.hpp:362-387; false: no default parameter *)
Fixpoint assign (cs : list cmd) (current : option nat) (args : list text) : list cmd * bool :=
  match args with
  | [] => (cs, true)
  | a :: args =>
      let isarg := match a with c :: _ => Ascii.eqb c "-" | [] => false end in
      match (if isarg then find cs a else None) with
      | Some i => assign (modify i handle cs) (Some i) args
      | None => match current with
                | None => (cs, false)
                | Some i => let cs' := modify i (push a) cs in
                            assign cs' (match nth_error cs i with Some c => if variadic c then current else find_default cs' | None => current end) args
                end
      end
  end.

(** how run ends (Util/cmdparser.hpp:360-415) *)
Inductive ending := Finished (ok : bool) | Left_program | Undefined.
(** the parsing loops, Util/cmdparser.hpp:391-396, 407-412 *)
Fixpoint parseAll (conv : ty -> text -> option value) (dom : bool) (cs : list cmd) : list cmd * ending :=
  match cs with
  | [] => ([], Finished true)
  | c :: cs =>
      if handled c && Bool.eqb (dominant c) dom then
        match parse conv c with
        | Parsed v => let '(cs, e) := parseAll conv dom cs in (setVal v c :: cs, e)
        | Threw => (c :: cs, Finished false)
        | Exits => (c :: cs, Left_program)
        | Indeterminate => (c :: cs, Undefined)
        end
      else let '(cs, e) := parseAll conv dom cs in (c :: cs, e)
  end.
(** Util/cmdparser.hpp:360-415 *)
Definition run (conv : ty -> text -> option value) (cs : list cmd) (args : list text) : list cmd * ending :=
  let '(cs, ok) := assign cs (find_default cs) args in
  if negb ok then (cs, Finished false) else
  let '(cs, e) := parseAll conv true cs in
  match e with
  | Finished true =>
      if existsb (fun c => required c && negb (handled c)) cs then (cs, Finished false) else parseAll conv false cs
  | _ => (cs, e)
  end.

(** the cast in Util/cmdparser.hpp:417-431 *)
Fixpoint tyEq (a b : ty) : bool :=
  match a, b with
  | TInt, TInt | TBool, TBool | TDouble, TDouble | TFloat, TFloat | TLongDouble, TLongDouble | TUnsigned, TUnsigned | TULong, TULong
  | TULongLong, TULongLong | TLong, TLong | TString, TString => true
  | TVec a, TVec b => tyEq a b
  | _, _ => false
  end.
(** Util/cmdparser.hpp:417-431; Done None: an exception, UB: the value was never set *)
Definition get (t : ty) (n : text) (cs : list cmd) : outcome (option value) :=
  match List.find (fun c => teq (name c) n) cs with
  | None => Done None
  | Some c => match what c with
              | Argument t' => if tyEq t t' then match val c with VUninit => UB | v => Done (Some v) end else Done None
              | Function _ _ => Done None
              end
  end.
