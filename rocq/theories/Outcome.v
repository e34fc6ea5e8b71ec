(** Outcomes shared by the models.

    [Done a]  : normal termination with result [a];
    [UB]      : the C++ code would execute undefined behaviour (out-of-bounds
                access, division by zero, failed assert compiled away, ...);
    [NoFuel]  : the fuel of a modelled [while] loop ran out.  Theorems never
                treat this as a normal result. *)
From Coq Require Import List Arith Lia.
Import ListNotations.

(** Outcome of a modelled function (modelling device, no code counterpart). *)
Inductive outcome (A : Type) : Type :=
| Done (a : A)
| UB
| NoFuel.
Arguments Done {A} a.
Arguments UB {A}.
Arguments NoFuel {A}.

(** Sequencing of two statements (modelling device, no code counterpart). *)
Definition obind {A B : Type} (m : outcome A) (f : A -> outcome B) : outcome B :=
  match m with
  | Done a => f a
  | UB => UB
  | NoFuel => NoFuel
  end.

Notation "'do' x <- m ; k" := (obind m (fun x => k))
  (at level 200, x pattern, m at level 100, k at level 200, right associativity).

(** [mread m i] : C++ [m[i]] on an array of [length m] elements. *)
Definition mread {A} (m : list A) (i : nat) : outcome A :=
  match nth_error m i with
  | Some a => Done a
  | None => UB
  end.

(** [mwrite m i v] : C++ [m[i] = v]. *)
Definition mwrite {A} (m : list A) (i : nat) (v : A) : outcome (list A) :=
  if i <? length m then Done (firstn i m ++ v :: skipn (S i) m) else UB.

Lemma mread_app1 {A} (m1 m2 : list A) i a :
  nth_error m1 i = Some a -> mread (m1 ++ m2) i = Done a.
Proof.
  intros H. unfold mread. rewrite nth_error_app1, H; auto.
  apply nth_error_Some. congruence.
Qed.

Lemma mread_app2 {A} (m1 m2 : list A) i :
  mread (m1 ++ m2) (length m1 + i) = mread m2 i.
Proof.
  unfold mread. rewrite nth_error_app2 by lia.
  replace (length m1 + i - length m1) with i by lia. reflexivity.
Qed.

Lemma mwrite_app2 {A} (m1 m2 : list A) i v :
  mwrite (m1 ++ m2) (length m1 + i) v =
  match mwrite m2 i v with Done m' => Done (m1 ++ m') | UB => UB | NoFuel => NoFuel end.
Proof.
  unfold mwrite. rewrite app_length.
  destruct (Nat.ltb_spec i (length m2)) as [Hi|Hi];
  destruct (Nat.ltb_spec (length m1 + i) (length m1 + length m2)) as [Hj|Hj]; try lia; auto.
  rewrite firstn_app_2.
  replace (S (length m1 + i)) with (length m1 + S i) by lia.
  rewrite skipn_app. rewrite (skipn_all2 m1) by lia.
  replace (length m1 + S i - length m1) with (S i) by lia.
  rewrite <- app_assoc. reflexivity.
Qed.

Lemma mwrite_length {A} (m m' : list A) i v :
  mwrite m i v = Done m' -> length m' = length m.
Proof.
  unfold mwrite. destruct (Nat.ltb_spec i (length m)) as [Hi|Hi]; [|discriminate].
  intros E. assert (E' : m' = firstn i m ++ v :: skipn (S i) m) by congruence. rewrite E'.
  rewrite app_length, firstn_length.
  change (length (v :: skipn (S i) m)) with (S (length (skipn (S i) m))).
  rewrite skipn_length. lia.
Qed.

Lemma skipn_skipn {A} (x y : nat) (l : list A) : skipn x (skipn y l) = skipn (x + y) l.
Proof.
  revert l. induction y as [|y IH]; intros l.
  - rewrite Nat.add_0_r. reflexivity.
  - rewrite Nat.add_succ_r. destruct l as [|a l]; [now rewrite !skipn_nil|]. cbn [skipn]. apply IH.
Qed.
