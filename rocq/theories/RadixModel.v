(** Model of the threaded radix sort of FDPS/sort.hpp, which orders tree particles by Morton key. *)
From Coq Require Import List Arith NArith.
From Verif Require Import Outcome ListUtil.
Import ListNotations.

(** reading and writing bucket_size_[t][r] and prefix_sum_[t][r] (FDPS/sort.hpp:22-23) *)
Definition read2 (m : list (list nat)) (t r : nat) : outcome nat := do row <- mread m t; mread row r.
(** FDPS/sort.hpp:22-23 *)
Definition write2 (m : list (list nat)) (t r v : nat) : outcome (list (list nat)) :=
  do row <- mread m t; do row <- mwrite row r v; mwrite m t row.

Section Radix.
  Context {A : Type}.
  (** getKey() of an element; NBIT, and the bits of the key type T (FDPS/sort.hpp:16-17) *)
  Variables (getKey : A -> N) (nbit keybits : nat).

  (** FDPS/sort.hpp:33 *)
  Definition n_bucket : nat := 2 ^ nbit.
  (** FDPS/sort.hpp:36, 83: (key >> shift) & mask_ *)
  Definition radix (shift : nat) (x : A) : nat := N.to_nat (N.land (N.shiftr (getKey x) (N.of_nat shift)) (N.ones (N.of_nat nbit))).
  (** FDPS/sort.hpp:63-64 *)
  Definition n_loop : nat := keybits / nbit + (if keybits mod nbit =? 0 then 0 else 1).

  (** FDPS/sort.hpp:82-86: thread [fst e] counts element [snd e] *)
  Definition countEvent (val : list A) (shift : nat) (b : list (list nat)) (e : nat * nat) : outcome (list (list nat)) :=
    do x <- mread val (snd e);
    do c <- read2 b (fst e) (radix shift x);
    write2 b (fst e) (radix shift x) (S c).
  (** FDPS/sort.hpp:91-100: one entry after the other, bucket by bucket, thread by thread *)
  Definition prefixSums (n_thread : nat) (b p : list (list nat)) : outcome (list (list nat)) :=
    do p <- write2 p 0 0 0;
    ofold (fun p ij => let (i, j) := (ij : nat * nat) in
      let (i', j') := if j =? 0 then (i - 1, n_thread - 1) else (i, j - 1) in
      do s <- read2 p j' i'; do c <- read2 b j' i'; write2 p j i (s + c))
      (tl (list_prod (seq 0 n_bucket) (seq 0 n_thread))) p.
  (** FDPS/sort.hpp:105-111 *)
  Definition fillEvent (val : list A) (shift : nat) (s : list (list nat) * list A) (e : nat * nat) : outcome (list (list nat) * list A) :=
    let (p, buf) := s in
    do x <- mread val (snd e);
    do offset <- read2 p (fst e) (radix shift x);
    do buf <- mwrite buf offset x;
    do p <- write2 p (fst e) (radix shift x) (S offset);
    Done (p, buf).

  (** what the OpenMP runtime decides about one parallel region: the size of the team, and for the two work shared loops
      which thread does which iteration, all threads interleaved (the writes of different threads go to different places) (FDPS/sort.hpp:67-112) *)
  Record region := Region { team : nat; counting : list (nat * nat); filling : list (nat * nat) }.
  (** FDPS/sort.hpp:66-112, one pass: bucket_size_, prefix_sum_ and val_buf afterwards; n_thread_ is the number of rows *)
  Definition pass (g : region) (shift : nat) (b p : list (list nat)) (val buf : list A) : outcome (list (list nat) * list (list nat) * list A) :=
    do b <- ofold (fun b t => mwrite b t (repeat 0 n_bucket)) (seq 0 (team g)) b;
    do b <- ofold (countEvent val shift) (counting g) b;
    do p <- prefixSums (length b) b p;
    do pb <- ofold (fillEvent val shift) (filling g) (p, buf);
    Done (b, fst pb, snd pb).
  (** FDPS/sort.hpp:66-117: [k] passes left; val and val_buf as the local pointers have them at the break *)
  Fixpoint passes (k loop : nat) (gs : nat -> region) (b p : list (list nat)) (val buf : list A) : outcome (list A * list A) :=
    match k with
    | O => NoFuel
    | S k' =>
        do bpb <- pass (gs loop) (loop * nbit) b p val buf;
        let '(b, p, buf) := bpb in
        match k' with O => Done (val, buf) | _ => passes k' (S loop) gs b p buf val end
    end.
  (** FDPS/sort.hpp:56-126 with n_tot = last - first + 1; the arrays val and val_buf of the caller afterwards.
      [first] is not used to index; the caller passes 0. [copying]: the order of the copy loop *)
  Definition lsdSort (first last : nat) (gs : nat -> region) (copying : list nat) (b p : list (list nat)) (val buf : list A) : outcome (list A * list A) :=
    let n_tot := last + 1 - first in
    do vb <- passes n_loop 0 gs b p val buf;
    let (v, w) := (vb : list A * list A) in
    if n_loop mod 2 =? 1
    then do v <- ofold (fun v i => do x <- mread w i; mwrite v i x) copying v; Done (v, w)
    else Done (w, v).
End Radix.
