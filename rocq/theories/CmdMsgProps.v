(** C90: the usage text and the messages of the command line parser. *)
From Coq Require Import List Arith ZArith Bool Ascii String.
From Verif Require Import Outcome RunModel VtpModel CmdModel CmdSpec CmdMsgModel CmdMsgSpec CmdMsgProofs.
Import ListNotations.

(** The usage text tells of every option, in order, how it is spelled, its description, and that it is required or else its value. *)
Theorem C90_usage : forall real (os : list opt) vs,
  Forall2 (fun o v => clean o v /\ (required (fst o) = false -> print_value real (fst o) = Done v)) os vs ->
  exists t, usage real os = Done t /\ readUsage t = Some (map (fun p => tells (fst p) (snd p)) (combine os vs)).
Proof. exact usage_read. Qed.
Print Assumptions C90_usage.

(** Asking for help writes the usage text with the defaults, whatever else is on the command line. *)
Theorem C90_help : forall real conv (os : list opt) args, let all : list opt := map (fun c => (c, [] : text)) (enable_help []) ++ os in
  placed (map fst all) args -> In (txt "-h") args \/ In (txt "--help") args -> helpText real conv all args = usage real all.
Proof. exact help_prints. Qed.
Print Assumptions C90_help.

(** Run ends and leaves the options as in C46. *)
Theorem C90_refines : forall conv (os : list opt) args os' e m, runMsg conv os args = (os', e, m) ->
  run conv (map fst os) args = (map fst os', e) /\ map snd os' = map snd os.
Proof. exact runMsg_refines. Qed.
Print Assumptions C90_refines.

(** Run writes a message exactly when it returns false, and the message names a true cause: a token without a place,
    the first required option that is missing, or an option whose tokens do not parse. *)
Theorem C90_message : forall conv (os : list opt) args os' e m, runMsg conv os args = (os', e, m) ->
  (e <> Finished false -> m = []) /\ (e = Finished false -> blames conv os args m).
Proof. exact run_blames. Qed.
Print Assumptions C90_message.

(** The constructor enables help; disabling it removes that option alone. *)
Theorem C90_disable : forall os : list opt,
  has_help (map (fun c => (c, [])) (enable_help []) ++ os) = true /\ disable_help (map (fun c => (c, [])) (enable_help []) ++ os) = os.
Proof. exact (fun os => conj (help_on os) (help_off os)). Qed.
Print Assumptions C90_disable.

(** Help is there exactly when an option is spelt -h and --help. *)
Theorem C90_help_option : forall os, has_help os = true <-> exists o, In o os /\ command (fst o) = txt "-h" /\ alternative (fst o) = txt "--help".
Proof. exact help_meaning. Qed.
Print Assumptions C90_help_option.

(** A default that is an integer is printed in decimal, with a sign only if it is negative. *)
Theorem C90_integer : forall real z, exists t, stringify real (VInt z) = Done t /\ integerText z t.
Proof. exact int_text. Qed.
Print Assumptions C90_integer.

(** An empty command line is accepted exactly when requirements() is zero. *)
Theorem C90_empty : forall conv (os : list opt), Forall (fun o : opt => handled (fst o) = false) os ->
  (snd (fst (runMsg conv os [])) = Finished true <-> requirements os = 0).
Proof. exact empty_line. Qed.
Print Assumptions C90_empty.

(** An optional default option of a number type has no value to print: the usage text reads an indeterminate value. *)
Theorem C90_default_refuted : forall real t d, isVec t = false -> t <> TString -> usage real (combine (set_default t false []) [d]) = UB.
Proof. exact default_unset. Qed.
Print Assumptions C90_default_refuted.

Definition digit1 (t : ty) (s : text) : option value :=
  match s with [c] => let d := (Z.of_nat (nat_of_ascii c) - 48)%Z in if (0 <=? d)%Z && (d <=? 9)%Z then Some (VInt d) else None | _ => None end.
(** help, a required number and an optional list *)
Definition exOpts : list opt :=
  combine (set_optional (TVec TInt) (txt "l") (txt "list") (VVec [VInt 12; VInt (-3)]) false (set_required TInt (txt "n") (txt "number") false (enable_help [])))
    [[]; txt "how many"; txt "which ones"].
Example C90_example_usage : exists t, usage (fun _ => []) exOpts = Done t /\
  readUsage t = Some [Info (txt "-h") (txt "--help") [] (Some []); Info (txt "-n") (txt "--number") (txt "how many") None;
    Info (txt "-l") (txt "--list") (txt "which ones") (Some (txt "[ 12 -3 ]"))].
Proof. eexists. split; [vm_compute; reflexivity | vm_compute; reflexivity]. Qed.
Example C90_example_missing : snd (runMsg digit1 exOpts (map txt ["-l"; "3"]%string)) =
  txt "The parameter n is required." ++ [nl] ++ txt "how many" ++ [nl] ++ txt "For more help use --help or -h." ++ [nl].
Proof. vm_compute. reflexivity. Qed.
Example C90_example_invalid : snd (runMsg digit1 (disable_help exOpts) (map txt ["-l"; "x"; "-n"; "4"]%string)) =
  txt "The parameter l has invalid arguments." ++ [nl] ++ txt "which ones" ++ [nl].
Proof. vm_compute. reflexivity. Qed.
Example C90_example_ok : runMsg digit1 exOpts (map txt ["-n"; "4"]%string) =
  (fst (fst (runMsg digit1 exOpts (map txt ["-n"; "4"]%string))), Finished true, []) /\ requirements exOpts = 1%nat.
Proof. vm_compute. split; reflexivity. Qed.
Example C90_example_integer : map (fun z => stringify (fun _ => []) (VInt z)) [0; -1; 20]%Z = map (fun s => Done (txt s)) ["0"; "-1"; "20"]%string.
Proof. vm_compute. reflexivity. Qed.
Example C90_example_other_h : has_help [(Cmd (txt "h") (txt "height") false false [] false (Argument TInt) (VInt 1), [])] = false.
Proof. vm_compute. reflexivity. Qed.
