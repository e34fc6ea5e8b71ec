(** Model of the texts of the command line parser (Util/cmdparser.hpp): the usage text and the messages of run.
    std::to_string of floating point numbers is an oracle; what callbacks write themselves is left out, except for the help callback. *)
From Coq Require Import List Arith ZArith Bool Ascii String.
From Verif Require Import Outcome ParticleModel RunModel VtpModel CmdModel.
Import ListNotations.

(** the tab of Util/cmdparser.hpp:485, 488 *)
Definition tab : ascii := ascii_of_nat 9.
(** a command with its description, Util/cmdparser.hpp:64 *)
Definition opt := (cmd * text)%type.

(** Util/cmdparser.hpp:243-268: to_string of one value; UB: reading a scalar that was never given a value *)
Fixpoint stringify (real : Z -> text) (v : value) : outcome text :=
  match v with
  | VUninit => UB
  | VInt z => Done (if (z <? 0)%Z then "-"%char :: dec (- z) else dec z)
  | VBool b => Done (txt (if b then "1" else "0"))
  | VReal raw => Done (real raw)
  | VStr s => Done s
  | VVec l => do s <- (fix go (l : list value) : outcome text :=
                match l with [] => Done [] | v :: l => do s <- stringify real v ; do r <- go l ; Done (s ++ txt " " ++ r) end) l ;
              Done (txt "[ " ++ s ++ txt "]")
  end.
(** Util/cmdparser.hpp:114-116, 138-140 *)
Definition print_value (real : Z -> text) (c : cmd) : outcome text :=
  match what c with Function _ _ => Done [] | Argument _ => stringify real (val c) end.
(** one turn of the loop of Util/cmdparser.hpp:484-498 *)
Definition usageEntry (real : Z -> text) (o : opt) : outcome text :=
  let c := fst o in
  let head := txt "  " ++ command c ++ [tab] ++ alternative c ++ (if required c then tab :: txt "(required)" else []) ++ nl :: txt "   " ++ snd o in
  if required c then Done (head ++ [nl; nl])
  else do v <- print_value real c ;
       Done (head ++ nl :: txt "   " ++ txt "This parameter is optional. The default value is '" ++ v ++ txt "'." ++ [nl; nl]).
(** Util/cmdparser.hpp:480-501 *)
Definition usage (real : Z -> text) (os : list opt) : outcome text :=
  do es <- (fix go (os : list opt) : outcome (list text) :=
     match os with [] => Done [] | o :: os => do e <- usageEntry real o ; do r <- go os ; Done (e :: r) end) os ;
  Done (txt "Available parameters:" ++ [nl; nl] ++ List.concat es).

(** Util/cmdparser.hpp:293-301, 313: the command of enable_help *)
Definition isHelp (o : opt) : bool := teq (name (fst o)) (txt "h") && teq (alternative (fst o)) (txt "--help").
(** Util/cmdparser.hpp:292-301 *)
Definition has_help (os : list opt) : bool := existsb isHelp os.
(** Util/cmdparser.hpp:311-318 *)
Fixpoint disable_help (os : list opt) : list opt :=
  match os with [] => [] | o :: os => if isHelp o then os else o :: disable_help os end.
(** Util/cmdparser.hpp:439-449 *)
Definition requirements (os : list opt) : nat := List.length (filter (fun o => required (fst o)) os).
(** Util/cmdparser.hpp:503-507 *)
Definition print_help (help : bool) : text := if help then txt "For more help use --help or -h." ++ [nl] else [].
(** Util/cmdparser.hpp:509-515 *)
Definition howto_required (help : bool) (o : opt) : text :=
  txt "The parameter " ++ name (fst o) ++ txt " is required." ++ [nl] ++ snd o ++ [nl] ++ print_help help.
(** Util/cmdparser.hpp:517-523 *)
Definition howto_use (help : bool) (o : opt) : text :=
  txt "The parameter " ++ name (fst o) ++ txt " has invalid arguments." ++ [nl] ++ snd o ++ [nl] ++ print_help help.
(** Util/cmdparser.hpp:525-531 *)
Definition no_default (help : bool) : text :=
  txt "No default parameter has been specified." ++ [nl] ++ txt "The given argument must be used with a parameter." ++ [nl] ++ print_help help.

(** the parsing loops with what they write to error, Util/cmdparser.hpp:391-396, 407-412 *)
Fixpoint parseLoop (conv : ty -> text -> option value) (help dom : bool) (os : list opt) : list opt * ending * text :=
  match os with
  | [] => ([], Finished true, [])
  | o :: os =>
      if handled (fst o) && Bool.eqb (dominant (fst o)) dom then
        match parse conv (fst o) with
        | Parsed v => let '(os, e, m) := parseLoop conv help dom os in ((setVal v (fst o), snd o) :: os, e, m)
        | Threw => (o :: os, Finished false, howto_use help o)
        | Exits => (o :: os, Left_program, [])
        | Indeterminate => (o :: os, Undefined, [])
        end
      else let '(os, e, m) := parseLoop conv help dom os in (o :: os, e, m)
  end.
(** Util/cmdparser.hpp:360-415: the commands afterwards, how run ends and what it writes to error *)
Definition runMsg (conv : ty -> text -> option value) (os : list opt) (args : list text) : list opt * ending * text :=
  let help := has_help os in
  let '(cs, ok) := assign (map fst os) (find_default (map fst os)) args in
  let os := combine cs (map snd os) in
  if negb ok then (os, Finished false, no_default help) else
  let '(os, e, m) := parseLoop conv help true os in
  match e with
  | Finished true =>
      match List.find (fun o => required (fst o) && negb (handled (fst o))) os with
      | Some o => (os, Finished false, howto_required help o)
      | None => parseLoop conv help false os
      end
  | _ => (os, e, m)
  end.
(** what is written to output when run leaves the program through the help callback (Util/cmdparser.hpp:303-309) *)
Definition helpText (real : Z -> text) (conv : ty -> text -> option value) (os : list opt) (args : list text) : outcome text :=
  let '(os, e, _) := runMsg conv os args in
  match e with Left_program => usage real os | _ => Done [] end.
