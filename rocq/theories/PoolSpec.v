(** Arrays in the memory pool as lists of bytes. *)
From Coq Require Import List Arith ZArith Bool.
From Verif Require Import Outcome ListUtil PoolModel.
Import ListNotations.

Section Spec.
  Context {A : Type}.

  (** what a user sees: for each array that was made, None when destroyed, or the size of its elements, whether it uses the pool, and the bytes of its elements *)
  Definition world := list (option (nat * bool * list A)).

  (** the bytes that a call reads from array o *)
  Definition shows (h : heap A) (o sz : nat) (pool : bool) (bs : list A) : Prop :=
    exists a, nth_error (h_arrs h) o = Some (Some a) /\ a_sz a = sz /\ a_pool a = pool /\ length bs = sz * a_size a /\ readAt h (a_data a) 0 (length bs) = Done bs.
  Definition shows_all (h : heap A) (m : world) : Prop := length (h_arrs h) = length m /\
    forall o x, nth_error m o = Some x -> match x with None => nth_error (h_arrs h) o = Some None | Some (sz, pool, bs) => shows h o sz pool bs end.

  (** k bytes, the first ones as before *)
  Definition resized (k : nat) (bs bs' : list A) : Prop := exists tail, bs' = firstn k bs ++ tail /\ length bs' = k.
  (** what calls do to the array that they are for *)
  Definition changes (c : call A) (sz : nat) (pool : bool) (bs : list A) (pool' : bool) (bs' : list A) : Prop :=
    match c with
    | New _ | Destroy => False
    | Initialize _ size p => pool' = p /\ length bs' = sz * size
    | SetAllocMode p => pool' = p /\ bs' = bs
    | Resize n => pool' = pool /\ resized (sz * n) bs bs'
    | Reserve _ | ReserveAtLeast _ | ReserveEmptyArea _ => pool' = pool /\ bs' = bs
    | Clear => pool' = pool /\ bs' = []
    | PushBack v | PushBackNoCheck v => pool' = pool /\ bs' = bs ++ v
    | Set_ i v => pool' = pool /\ exists l old r, bs = l ++ old ++ r /\ length l = sz * i /\ length old = length v /\ bs' = l ++ v ++ r
    | Increase n => pool' = pool /\ resized (length bs + sz * n) bs bs'
    | Decrease n => pool' = pool /\ resized (length bs - sz * n) bs bs'
    | Free which => pool' = pool /\ bs' = if match which with None => true | Some b => Bool.eqb b pool end then [] else bs
    end.
  (** ... and to all arrays *)
  Definition does (c : call A) (o : nat) (m m' : world) : Prop :=
    match c with
    | New sz => m' = m ++ [Some (sz, false, [])]
    | _ => length m' = length m /\ (forall o', o' <> o -> nth_error m' o' = nth_error m o') /\
           exists sz pool bs, nth_error m o = Some (Some (sz, pool, bs)) /\
             match c with
             | Destroy => nth_error m' o = Some None
             | _ => exists pool' bs', nth_error m' o = Some (Some (sz, pool', bs')) /\ changes c sz pool bs pool' bs'
             end
    end.
  Fixpoint does_all (es : list (event A)) (m m' : world) : Prop :=
    match es with
    | [] => m' = m
    | e :: es => exists m1, does (v_call e) (v_arr e) m m1 /\ does_all es m1 m'
    end.

  (** ** What calls ask for *)

  (** the array has no memory: data() is NULL *)
  Definition bare (a : array A) : Prop := a_data a = Null.
  (** the array is in an emergency buffer *)
  Definition buffered (a : array A) : Prop := exists e i, a_data a = InBuf e i.
  (** sizes up to 9 10^8, which leaves room for the larger capacities *)
  Definition moderate (n : nat) : Prop := (Z.of_nat n <= 900000000)%Z.
  Definition allowed (h : heap A) (c : call A) (o : nat) : Prop :=
    match c with
    | New sz => 0 < sz
    | _ => exists a, nth_error (h_arrs h) o = Some (Some a) /\
           match c with
           | New _ => False
           | Initialize cap size pool => bare a /\ size <= cap /\ moderate cap
           | SetAllocMode _ => bare a
           | Resize n => moderate n /\ (a_cap a < n -> ~ buffered a)
           | Reserve n => moderate n /\ (a_cap a < n -> a_pool a = false)
           | ReserveAtLeast n => moderate n /\ (a_pool a = true -> a_cap a <= n -> ~ bare a /\ ~ buffered a)
           | ReserveEmptyArea n => moderate (n + a_size a) /\ (a_pool a = true -> a_cap a <= n + a_size a -> ~ bare a /\ ~ buffered a)
           | Clear => True
           | PushBack v => length v = a_sz a /\ moderate (S (a_size a)) /\ (a_cap a <= a_size a -> ~ buffered a)
           | PushBackNoCheck v => length v = a_sz a /\ a_size a < a_cap a
           | Set_ i v => length v = a_sz a /\ i < a_size a
           | Increase n => moderate (a_size a + n) /\ (a_cap a < a_size a + n -> ~ buffered a)
           | Decrease n => n <= a_size a
           | Free which => a_pool a = true -> which <> Some false -> ~ buffered a
           | Destroy => a_pool a = true -> ~ bare a /\ ~ buffered a
           end
    end.
  (** the table of segments is full *)
  Definition full (h : heap A) : Prop := (SEGMENTS <= Z.of_nat (length (h_segs h) + length (h_bufs h)) + 1)%Z.
  (** every call of the events gets what it asks for, as long as the table of segments is not full *)
  Fixpoint well_used (es : list (event A)) (h : heap A) : Prop :=
    match es with
    | [] => True
    | e :: es => allowed h (v_call e) (v_arr e) /\ forall h', exec (v_par e) (v_fresh e) (v_call e) (v_arr e) h = Done (Some h') -> well_used es h'
    end.
  (** at some point of the events the table of segments is full *)
  Fixpoint gets_full (es : list (event A)) (h : heap A) : Prop :=
    match es with
    | [] => False
    | e :: es => full h \/ exists h', exec (v_par e) (v_fresh e) (v_call e) (v_arr e) h = Done (Some h') /\ gets_full es h'
    end.
End Spec.
Arguments world : clear implicits.
