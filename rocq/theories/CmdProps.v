(** C46: the command line parser. *)
From Coq Require Import List Arith ZArith Bool Ascii String.
From Verif Require Import Outcome RunModel VtpModel CmdModel CmdSpec CmdProofs.
Import ListNotations.
Local Notation length := List.length.

(** distribution of the tokens: accepted exactly if every token has an option to go to, and then every option has got exactly its tokens, in order *)
Theorem C46_assign : forall cs args, (placed cs args <-> snd (assign cs (find_default cs) args) = true) /\
  forall cs', assign cs (find_default cs) args = (cs', true) -> length cs' = length cs /\
    forall i c, nth_error cs i = Some c -> exists c', nth_error cs' i = Some c' /\ given cs args i c c'.
Proof. exact assign_ok. Qed.
Print Assumptions C46_assign.

(** run succeeds exactly if all tokens have a place, all required options are given and the tokens of each given option parse;
    given options then have the parsed value and the others are as before *)
Theorem C46_run : forall conv cs args cs', run conv cs args = (cs', Finished true) <->
  placed cs args /\ length cs' = length cs /\
  forall i c, nth_error cs i = Some c -> exists c1 c', given cs args i c c1 /\ nth_error cs' i = Some c' /\ (required c = true -> handled c1 = true) /\
    (if handled c1 then exists v, parse conv c1 = Parsed v /\ c' = setVal v c1 else c' = c1).
Proof. exact run_ok. Qed.
Print Assumptions C46_run.
(** a token that belongs nowhere is rejected *)
Theorem C46_unplaced : forall conv cs args, ~ placed cs args -> snd (run conv cs args) = Finished false.
Proof. exact unplaced_ok. Qed.
Print Assumptions C46_unplaced.
(** an option that is not given keeps its value *)
Theorem C46_absent : forall conv cs args cs' i c, run conv cs args = (cs', Finished true) -> nth_error cs i = Some c -> handled c = false -> ~ seen cs args i ->
  exists c', nth_error cs' i = Some c' /\ val c' = val c.
Proof. exact absent_keeps. Qed.
Print Assumptions C46_absent.
(** declaring an option that is not given changes nothing but that its default can be read back, and only as the declared type *)
Theorem C46_optional : forall conv t n a v dom cs args cs' e, n <> [] -> ~ In ("-"%char :: n) args -> (a <> [] -> ~ In ("-"%char :: "-"%char :: a) args) ->
  run conv cs args = (cs', e) -> exists c, run conv (set_optional t n a v dom cs) args = (cs' ++ [c], e) /\
    ((forall x, In x cs' -> name x <> n) -> v <> VUninit -> get t n (cs' ++ [c]) = Done (Some v) /\ forall t', t' <> t -> get t' n (cs' ++ [c]) = Done None).
Proof. intros conv t n a v dom cs args cs' e H1 H2 H3 E. pose proof (optional_ok conv t n a v dom cs args H1 H2 H3) as H. rewrite E in H. exact H. Qed.
Print Assumptions C46_optional.
(** asking for help shows it whatever is missing or malformed, as long as all tokens have a place *)
Theorem C46_help : forall conv cs args, placed (enable_help [] ++ cs) args -> In (txt "-h") args \/ In (txt "--help") args ->
  snd (run conv (enable_help [] ++ cs) args) = Left_program.
Proof. exact help_ok. Qed.
Print Assumptions C46_help.

(** also if enabled after a default option and others, unless one of them is dominant itself or takes the name *)
Theorem C46_help_after : forall conv t r pre cs args, Forall (fun c => dominant c = false) pre -> (forall c, In c pre -> ~ spells c (txt "-h") /\ ~ spells c (txt "--help")) ->
  placed (enable_help (set_default t r pre) ++ cs) args -> In (txt "-h") args \/ In (txt "--help") args -> snd (run conv (enable_help (set_default t r pre) ++ cs) args) = Left_program.
Proof.
  intros conv t r pre cs args HD HS. apply help_later.
  - apply Forall_app. split; [exact HD|]. repeat constructor.
  - intros c Hc. apply in_app_iff in Hc. destruct Hc as [Hc|[<-|[]]]; [apply HS; exact Hc|]. split; intros [(n & Hn & <- & _)|(n & Hn & <- & _)]; apply Hn; reflexivity.
Qed.
Print Assumptions C46_help_after.
Example C46_example_help : snd (run (fun _ _ => None) (enable_help (set_default TInt true [])) (map txt ["x"; "y"; "-h"]%string)) = Left_program.
Proof. vm_compute. reflexivity. Qed.

(** toy number conversion: one decimal digit *)
Definition digit (t : ty) (s : text) : option value :=
  match s with [c] => let d := (Z.of_nat (nat_of_ascii c) - 48)%Z in if (0 <=? d)%Z && (d <=? 9)%Z then Some (VInt d) else None | _ => None end.
Definition opts : list cmd :=
  set_optional TBool (txt "v") (txt "verbose") (VBool false) false (set_optional (TVec TInt) (txt "l") (txt "list") (VVec []) false
    (set_required TInt (txt "n") (txt "number") false (set_default TString false (enable_help [])))).
Example C46_example :
  match run digit opts (map txt ["-n"; "4"; "file"; "--list"; "1"; "2"; "3"; "-v"]%string) with
  | (cs, Finished true) => (get TInt (txt "n") cs, get TString [] cs, get (TVec TInt) (txt "l") cs, get TBool (txt "v") cs)
      = (Done (Some (VInt 4)), Done (Some (VStr (txt "file"))), Done (Some (VVec [VInt 1; VInt 2; VInt 3])), Done (Some (VBool true)))
  | _ => False
  end.
Proof. vm_compute. reflexivity. Qed.
Example C46_example_missing : snd (run digit opts [txt "-v"]) = Finished false /\ snd (run digit opts (map txt ["-v"; "-h"; "-l"; "x"]%string)) = Left_program.
Proof. split; vm_compute; reflexivity. Qed.

(** a mistyped option is taken for a value *)
Theorem C46_unknown_refuted : exists conv cs args t rest, In t args /\ t = "-"%char :: rest /\ plain cs t /\ snd (run conv cs args) = Finished true.
Proof.
  exists digit, (set_default TString false (enable_help [])), [txt "--lenght"], (txt "--lenght"). eexists. split; [left; reflexivity|]. split; [reflexivity|]. split; [|vm_compute; reflexivity].
  apply look_plain. vm_compute. reflexivity.
Qed.
Print Assumptions C46_unknown_refuted.
(** help is not shown if an unknown token comes first *)
Theorem C46_help_unplaced_refuted : exists conv cs args, In (txt "-h") args /\ snd (run conv (enable_help [] ++ cs) args) = Finished false.
Proof. exists digit, [], (map txt ["--lenght"; "-h"]%string). split; [right; left; reflexivity|vm_compute; reflexivity]. Qed.
Print Assumptions C46_help_unplaced_refuted.
(** an option with only a long name is changed by a positional token *)
Theorem C46_long_only_refuted : exists conv cs args cs', run conv cs args = (cs', Finished true) /\ (forall t, In t args -> plain cs t) /\
  get TString [] cs = Done (Some (VStr (txt "out"))) /\ get TString [] cs' = Done (Some (VStr (txt "file"))).
Proof.
  exists digit, (set_optional TString [] (txt "output") (VStr (txt "out")) false (enable_help [])), [txt "file"]. eexists. split; [vm_compute; reflexivity|].
  split; [intros t [<-|[]]; apply look_plain; vm_compute; reflexivity|]. split; vm_compute; reflexivity.
Qed.
Print Assumptions C46_long_only_refuted.
(** running the same parser again changes the result: flags toggle back, single values fail *)
Theorem C46_twice_refuted : exists conv cs args cs' cs'', run conv cs args = (cs', Finished true) /\ run conv cs' args = (cs'', Finished true) /\
  get TBool (txt "v") cs' <> get TBool (txt "v") cs''.
Proof.
  exists digit, (set_optional TBool (txt "v") (txt "verbose") (VBool false) false (enable_help [])), [txt "-v"]. do 2 eexists.
  split; [vm_compute; reflexivity|]. split; [vm_compute; reflexivity|]. vm_compute. discriminate.
Qed.
Print Assumptions C46_twice_refuted.
(** a required flag negates a variable that was never set *)
Theorem C46_required_flag_refuted : exists conv cs args, placed cs args /\ snd (run conv cs args) = Undefined.
Proof.
  exists digit, (set_required TBool (txt "v") (txt "verbose") false (enable_help [])), [txt "-v"]. split; [apply assign_ok; vm_compute; reflexivity|vm_compute; reflexivity].
Qed.
Print Assumptions C46_required_flag_refuted.
