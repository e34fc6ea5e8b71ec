(** What sorting by key must do, and what an OpenMP runtime may do. *)
From Coq Require Import List Arith NArith Permutation Sorted Bool.
From Verif Require Import RadixModel.
Import ListNotations.

(** the sequence ordered by key, elements of equal key in their old order *)
Definition sortedByKey {A} (key : A -> N) (before after : list A) : Prop :=
  Permutation before after /\ StronglySorted (fun x y => (key x <= key y)%N) after /\
  forall k, filter (fun x => (key x =? k)%N) after = filter (fun x => (key x =? k)%N) before.

(** iterations 0 .. n-1 dealt out in consecutive blocks, one for each thread (static schedule) *)
Definition blocks (n : nat) (chunks : list (list nat)) : Prop := concat chunks = seq 0 n.
(** [ev] interleaves the threads: thread t does its block in order *)
Definition follows (chunks : list (list nat)) (ev : list (nat * nat)) : Prop :=
  (forall e, In e ev -> fst e < length chunks) /\
  forall t c, nth_error chunks t = Some c -> map snd (filter (fun e => fst e =? t) ev) = c.
(** a region run by all threads, both loops dealt out the same way *)
Definition staticRegion (n n_thread : nat) (g : region) : Prop :=
  team g = n_thread /\ exists chunks, length chunks = n_thread /\ blocks n chunks /\ follows chunks (counting g) /\ follows chunks (filling g).
(** arrays with one row of [nb] numbers for each thread *)
Definition rows (n_thread nb : nat) (m : list (list nat)) : Prop := length m = n_thread /\ Forall (fun row => length row = nb) m.
