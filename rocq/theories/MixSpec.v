(** What a mixed interaction should compute. *)
From Coq Require Import List Arith Bool Permutation.
From Verif Require Import Outcome MixModel.
Import ListNotations.

(** consecutive groups covering [0, n) *)
Fixpoint tiles {Pos Rad EPS} (first : nat) (gs : list (group Pos Rad EPS)) (n : nat) : Prop :=
  match gs with [] => first = n | g :: gs => g_first g = first /\ tiles (first + g_count g) gs n end.
(** group g holds the k-th sorted particle *)
Definition holds {Pos Rad EPS} (g : group Pos Rad EPS) (k : nat) : Prop := g_first g <= k < g_first g + g_count g.
(** a target particle at the wrapped position *)
Definition target {Pos Rad EPT} (PT : particle Pos Rad EPT) (e : mixEPI Pos Rad EPT) (ep : EPT) : Prop :=
  i_trg e = true /\ i_radius e = getRSearch PT ep /\ i_ep e = ep.
(** reading back a position *)
Definition lawful {Pos Rad T} (P : particle Pos Rad T) : Prop :=
  (forall t x, getPos P (setPos P t x) = x) /\ (forall t, setPos P t (getPos P t) = t) /\ (forall t x, getRSearch P (setPos P t x) = getRSearch P t).
