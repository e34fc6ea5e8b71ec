(** Which option a command line token belongs to, said without a scanning state. *)
From Coq Require Import List Arith ZArith Bool Ascii String.
From Verif Require Import RunModel CmdModel.
Import ListNotations.
Local Notation length := List.length.

(** the spellings of an option: -name and --alternative *)
Definition spells (c : cmd) (t : text) : Prop :=
  (exists n, n <> [] /\ name c = n /\ t = "-"%char :: n) \/ (exists n, n <> [] /\ alt c = n /\ t = "-"%char :: "-"%char :: n).
(** token t names option i: the first declared with this spelling *)
Definition names (cs : list cmd) (t : text) (i : nat) : Prop :=
  (exists c, nth_error cs i = Some c /\ spells c t) /\ forall j c, j < i -> nth_error cs j = Some c -> ~ spells c t.
(** a token naming no option *)
Definition plain (cs : list cmd) (t : text) : Prop := forall i, ~ names cs t i.
(** the default option: the first with no short name *)
Definition default (cs : list cmd) (i : nat) : Prop :=
  (exists c, nth_error cs i = Some c /\ name c = []) /\ forall j c, j < i -> nth_error cs j = Some c -> name c <> [].
(** after the tokens [pre] option i still takes tokens: it was named last, and nothing or only its own list came since *)
Definition reaches (cs : list cmd) (pre : list text) (i : nat) : Prop :=
  exists before t args, pre = before ++ t :: args /\ names cs t i /\ Forall (plain cs) args /\
    (args = [] \/ exists c, nth_error cs i = Some c /\ variadic c = true).
(** the option a plain token after [pre] is stored with *)
Definition takes (cs : list cmd) (pre : list text) (i : nat) : Prop :=
  reaches cs pre i \/ (default cs i /\ forall j, ~ reaches cs pre j).
(** the tokens stored with option i, in order *)
Inductive stored (cs : list cmd) (i : nat) : list text -> list text -> Prop :=
| stored_nil : stored cs i [] []
| stored_take pre l t : stored cs i pre l -> plain cs t -> takes cs pre i -> stored cs i (pre ++ [t]) (l ++ [t])
| stored_skip pre l t : stored cs i pre l -> ~ (plain cs t /\ takes cs pre i) -> stored cs i (pre ++ [t]) l.
(** every token belongs to some option *)
Definition placed (cs : list cmd) (args : list text) : Prop :=
  forall pre t post, args = pre ++ t :: post -> plain cs t -> exists i, takes cs pre i.
(** option i was named or got a token *)
Definition seen (cs : list cmd) (args : list text) (i : nat) : Prop :=
  (exists t, In t args /\ names cs t i) \/ exists l, stored cs i args l /\ l <> [].
(** the options after distribution *)
Definition given (cs : list cmd) (args : list text) (i : nat) (c c' : cmd) : Prop :=
  exists l, stored cs i args l /\ name c' = name c /\ alt c' = alt c /\ required c' = required c /\ dominant c' = dominant c /\ what c' = what c /\ val c' = val c /\
    arguments c' = arguments c ++ l /\ (handled c' = true <-> handled c = true \/ seen cs args i).
