(** Model of FDPS/memory_pool.hpp and FDPS/reallocatable_array.hpp (without the sanity checks and PARTICLE_SIMULATOR_ROUND_UP_CAPACITY, which are not defined).
    Memory is byte by byte; bytes of new memory are given by [fresh], which is arbitrary in each operation. A member data_ or id_mpool_ of an array that the pool
    knows by address is named by the number of the array. malloc and new are taken to succeed. Dereferencing memory that was given back is UB here because the
    block of the pool and the vector of emergency buffers carry the number of times that they were replaced. *)
From Coq Require Import List Arith ZArith Bool.
From Verif Require Import Outcome ListUtil.
Import ListNotations.

Section Pool.
  Context {A : Type}.

  (** a pointer to bytes: NULL, a block from new[] with its content, a place in the block of the pool, an emergency buffer (FDPS/memory_pool.hpp:28-37) *)
  Inductive ptr := Null | Own (l : list A) | InPool (gen off : nat) | InBuf (epoch idx : nat).
  (** an array: sizeof(T), alloc_mode_ == 1, data_, size_, capacity_, capacity_org_, id_mpool_ (FDPS/reallocatable_array.hpp:13-18) *)
  Record array := Arr { a_sz : nat; a_pool : bool; a_data : ptr; a_size : nat; a_cap : nat; a_org : nat; a_id : Z }.
  (** a segment: cap_per_seg_, used_per_seg_, ptr_data_per_seg_ (FDPS/memory_pool.hpp:33-35) *)
  Record seg := Seg { g_cap : nat; g_used : bool; g_ptr : nat }.
  (** an emergency buffer: data with its cap, used, ptr_data and ptr_id_mpool, both of the same array (FDPS/memory_pool.hpp:16-22) *)
  Record buf := Buf { u_data : list A; u_used : bool; u_ptr : nat }.
  (** the pool: the block of cap_ bytes at bottom_, top_ - bottom_, size_, the first n_segment_ segments (the others have capacity 0 and are not used), the
      emergency buffers (FDPS/memory_pool.hpp:28-37); and the arrays, None when destroyed *)
  Record heap := Heap { h_gen : nat; h_mem : list A; h_top : nat; h_size : nat; h_segs : list seg; h_epoch : nat; h_bufs : list buf; h_arrs : list (option array) }.

  (** N_SEGMENT_LIMIT (FDPS/memory_pool.hpp:14) *)
  Definition SEGMENTS : Z := 10000.
  (** LIMIT_NUMBER_OF_TREE_PARTICLE_PER_NODE (FDPS/ps_defs.hpp:79) *)
  Definition PARTICLES : Z := 2 ^ 30.
  (** getAlignSize (FDPS/memory_pool.hpp:43-45) *)
  Definition getAlignSize (size : nat) : nat := (Nat.div (size - 1) 8 + 1) * 8.
  (** memory from malloc (FDPS/memory_pool.hpp:77, 99, 220) *)
  Definition fill (fresh : nat -> A) (n : nat) : list A := map fresh (seq 0 n).

  (** assignment to an element that exists, as in used_per_seg_[i] = true (FDPS/memory_pool.hpp:176) *)
  Definition put {B} (l : list B) (i : nat) (v : B) : list B := firstn i l ++ match skipn i l with [] => [] | _ :: r => v :: r end.
  (** an array that is alive; others are not to be touched (FDPS/memory_pool.hpp:111) *)
  Definition arr (h : heap) (o : nat) : outcome array := match nth_error (h_arrs h) o with Some (Some a) => Done a | _ => UB end.
  (** members of an array set (FDPS/reallocatable_array.hpp:13-18) *)
  Definition setArr (h : heap) (o : nat) (a : array) : heap := Heap (h_gen h) (h_mem h) (h_top h) (h_size h) (h_segs h) (h_epoch h) (h_bufs h) (put (h_arrs h) o (Some a)).
  (** data_ set (FDPS/memory_pool.hpp:111, 154) *)
  Definition withData (a : array) (p : ptr) : array := Arr (a_sz a) (a_pool a) p (a_size a) (a_cap a) (a_org a) (a_id a).
  (** id_mpool_ set (FDPS/memory_pool.hpp:155) *)
  Definition withId (a : array) (i : Z) : array := Arr (a_sz a) (a_pool a) (a_data a) (a_size a) (a_cap a) (a_org a) i.
  (** size_ set (FDPS/reallocatable_array.hpp:346) *)
  Definition withSize (a : array) (n : nat) : array := Arr (a_sz a) (a_pool a) (a_data a) n (a_cap a) (a_org a) (a_id a).
  (** capacity_ set (FDPS/reallocatable_array.hpp:122) *)
  Definition withCap (a : array) (n : nat) : array := Arr (a_sz a) (a_pool a) (a_data a) (a_size a) n (a_org a) (a_id a).

  (** the loop over the segments of reInitialize (FDPS/memory_pool.hpp:107-114) *)
  Fixpoint repoint (gen : nat) (segs : list seg) (cum : nat) (arrs : list (option array)) : outcome (list (option array)) :=
    match segs with
    | [] => Done arrs
    | g :: rest =>
        do arrs <- (if g_used g then match nth_error arrs (g_ptr g) with Some (Some a) => Done (put arrs (g_ptr g) (Some (withData a (InPool gen cum)))) | _ => UB end else Done arrs);
        repoint gen rest (cum + g_cap g) arrs
    end.
  (** reInitialize (FDPS/memory_pool.hpp:95-124) *)
  Definition reInitialize (fresh : nat -> A) (size_add : nat) (h : heap) : outcome heap :=
    let cap_new := getAlignSize (length (h_mem h) + size_add) in
    do mem <- splice (fill fresh cap_new) 0 (h_mem h);
    do arrs <- repoint (S (h_gen h)) (h_segs h) 0 (h_arrs h);
    Done (Heap (S (h_gen h)) mem (h_top h) (h_size h) (h_segs h) (h_epoch h) (h_bufs h) arrs).

  (** a new segment at the tail, at top_ (FDPS/memory_pool.hpp:144-151, 203-210); the arrays of the segments have N_SEGMENT_LIMIT elements *)
  Definition addSegment (cap o : nat) (h : heap) : outcome heap :=
    if (SEGMENTS <=? Z.of_nat (length (h_segs h)))%Z then UB else
    Done (Heap (h_gen h) (h_mem h) (h_top h + cap) (h_size h + cap) (h_segs h ++ [Seg cap true o]) (h_epoch h) (h_bufs h) (h_arrs h)).
  (** the second loop of unifyMem (FDPS/memory_pool.hpp:138-156) *)
  Fixpoint moveBufs (bs : list buf) (h : heap) : outcome heap :=
    match bs with
    | [] => Done h
    | b :: rest =>
        if negb (u_used b) then moveBufs rest h else
        let top_prev := h_top h in
        do h <- addSegment (length (u_data b)) (u_ptr b) h;
        do mem <- splice (h_mem h) top_prev (u_data b);
        do a <- arr h (u_ptr b);
        moveBufs rest (Heap (h_gen h) mem (h_top h) (h_size h) (h_segs h) (h_epoch h) (h_bufs h)
          (put (h_arrs h) (u_ptr b) (Some (withId (withData a (InPool (h_gen h) top_prev)) (Z.of_nat (length (h_segs h)) - 1)))))
    end.
  (** unifyMem (FDPS/memory_pool.hpp:126-164); [par]: in a parallel region *)
  Definition unifyMem (par : bool) (fresh : nat -> A) (h : heap) : outcome heap :=
    if negb par && negb (length (h_bufs h) =? 0) then
      let size_add := sum_list (map (fun b => if u_used b then length (u_data b) else 0) (h_bufs h)) in
      do h <- (if length (h_mem h) <? h_size h + size_add then reInitialize fresh size_add h else Done h);
      do h <- moveBufs (h_bufs h) h;
      Done (Heap (h_gen h) (h_mem h) (h_top h) (h_size h) (h_segs h) (S (h_epoch h)) [] (h_arrs h))
    else Done h.

  (** the search for a free segment (FDPS/memory_pool.hpp:172-184): index and offset *)
  Fixpoint findSegment (size : nat) (segs : list seg) (i cum : nat) : option (nat * nat) :=
    match segs with
    | [] => None
    | g :: rest => if negb (g_used g) && (size <=? g_cap g) then Some (i, cum) else findSegment size rest (S i) (cum + g_cap g)
    end.
  (** isLastSegment (FDPS/memory_pool.hpp:46-54) *)
  Definition isLastSegment (id : Z) (h : heap) : bool := (id <? SEGMENTS)%Z && (0 <? length (h_segs h)) && (id =? Z.of_nat (length (h_segs h)) - 1)%Z.
  (** the last segment deleted (FDPS/memory_pool.hpp:189-196) *)
  Definition dropLast (h : heap) : heap :=
    let c := match rev (h_segs h) with g :: _ => g_cap g | [] => 0 end in
    Heap (h_gen h) (h_mem h) (h_top h - c) (h_size h - c) (removelast (h_segs h)) (h_epoch h) (h_bufs h) (h_arrs h).
  (** alloc for the array o (FDPS/memory_pool.hpp:166-240): the heap and ret; None when the assertion on the number of segments fails *)
  Definition alloc (par : bool) (fresh : nat -> A) (size o : nat) (h : heap) : outcome (option (heap * ptr)) :=
    if size =? 0 then Done (Some (h, Null)) else
    do h <- unifyMem par fresh h;
    let size_align := getAlignSize size in
    do a <- arr h o;
    match findSegment size_align (h_segs h) 0 0 with
    | Some (i, cum) =>
        let c := match nth_error (h_segs h) i with Some g => g_cap g | None => 0 end in
        Done (Some (setArr (Heap (h_gen h) (h_mem h) (h_top h) (h_size h) (put (h_segs h) i (Seg c true o)) (h_epoch h) (h_bufs h) (h_arrs h)) o (withId a (Z.of_nat i)), InPool (h_gen h) cum))
    | None =>
        if (SEGMENTS <=? Z.of_nat (length (h_segs h)) + 1)%Z then Done None else
        let h := if isLastSegment (a_id a) h then dropLast h else h in
        let flag_realloc := length (h_mem h) <? h_size h + size_align in
        if flag_realloc && par then
          let idx := length (h_bufs h) in
          Done (Some (setArr (Heap (h_gen h) (h_mem h) (h_top h) (h_size h) (h_segs h) (h_epoch h) (h_bufs h ++ [Buf (fill fresh size_align) true o]) (h_arrs h)) o (withId a (Z.of_nat idx + SEGMENTS)), InBuf (h_epoch h) idx))
        else
          do h <- (if flag_realloc then reInitialize fresh size_align h else Done h);
          let top_prev := h_top h in
          do h <- addSegment size_align o h;
          do a <- arr h o;
          Done (Some (setArr h o (withId a (Z.of_nat (length (h_segs h)) - 1)), InPool (h_gen h) top_prev))
    end.

  (** the loop of freeMem from segment i - 1 down (FDPS/memory_pool.hpp:247-253): size_ and the segments *)
  Fixpoint popUnused (i : nat) (segs : list seg) (size : nat) : nat * list seg :=
    match i with
    | O => (size, segs)
    | S i => match nth_error segs i with
             | Some g => if g_used g then (size, segs) else popUnused i (firstn i segs) (size - g_cap g)
             | None => (size, segs)
             end
    end.
  (** MemoryPool::freeMem (FDPS/memory_pool.hpp:242-262). The first line reads cap_per_seg_[id_seg], so that the branch for emergency buffers, with
      id_seg >= N_SEGMENT_LIMIT, is never reached without reading out of bounds *)
  Definition poolFree (par : bool) (fresh : nat -> A) (id : Z) (h : heap) : outcome heap :=
    if ((id <? 0) || (SEGMENTS <=? id))%Z then UB else
    let i := Z.to_nat id in
    match nth_error (h_segs h) i with
    | None => Done h
    | Some g =>
        if g_cap g =? 0 then Done h else
        let segs := put (h_segs h) i (Seg (g_cap g) false (g_ptr g)) in
        let (size, segs) := if S i =? length segs then popUnused (S i) segs (h_size h) else (h_size h, segs) in
        unifyMem par fresh (Heap (h_gen h) (h_mem h) size size segs (h_epoch h) (h_bufs h) (h_arrs h))
    end.

  (** n bytes from p + k (memcpy and copying of elements, FDPS/reallocatable_array.hpp:103-105, 120, 131) *)
  Definition readAt (h : heap) (p : ptr) (k n : nat) : outcome (list A) :=
    if n =? 0 then Done [] else
    match p with
    | Null => UB
    | Own l => if k + n <=? length l then Done (slice k n l) else UB
    | InPool gen off => if (gen =? h_gen h) && (off + k + n <=? length (h_mem h)) then Done (slice (off + k) n (h_mem h)) else UB
    | InBuf e i => if e =? h_epoch h then match nth_error (h_bufs h) i with Some b => if k + n <=? length (u_data b) then Done (slice k n (u_data b)) else UB | None => UB end else UB
    end.
  (** bytes v written to data_ + k of the array o (FDPS/reallocatable_array.hpp:131, 288) *)
  Definition writeAt (h : heap) (o k : nat) (v : list A) : outcome heap :=
    do a <- arr h o;
    if length v =? 0 then Done h else
    match a_data a with
    | Null => UB
    | Own l => do l <- splice l k v; Done (setArr h o (withData a (Own l)))
    | InPool gen off => if gen =? h_gen h then do mem <- splice (h_mem h) (off + k) v; Done (Heap (h_gen h) mem (h_top h) (h_size h) (h_segs h) (h_epoch h) (h_bufs h) (h_arrs h)) else UB
    | InBuf e i => if e =? h_epoch h then match nth_error (h_bufs h) i with
                     | Some b => do d <- splice (u_data b) k v; Done (Heap (h_gen h) (h_mem h) (h_top h) (h_size h) (h_segs h) (h_epoch h) (put (h_bufs h) i (Buf d (u_used b) (u_ptr b))) (h_arrs h))
                     | None => UB end else UB
    end.

  (** memory for cap elements, with capacity_ (FDPS/reallocatable_array.hpp:48-63, 304-317, 122-126); alloc does not read capacity_, so that the order does not matter *)
  Definition getMemory (par : bool) (fresh : nat -> A) (cap o : nat) (h : heap) : outcome (option heap) :=
    do a <- arr h o;
    if a_pool a then
      do x <- alloc par fresh (a_sz a * cap) o h;
      match x with
      | None => Done None
      | Some (h, p) => do a <- arr h o; Done (Some (setArr h o (withCap (withData a p) cap)))
      end
    else Done (Some (setArr h o (withCap (withData a (Own (fill fresh (a_sz a * cap)))) cap))).
  (** ReallocInner (FDPS/reallocatable_array.hpp:94-137) *)
  Definition ReallocInner (par : bool) (fresh : nat -> A) (new_cap o : nat) (h : heap) : outcome (option heap) :=
    do a <- arr h o;
    if a_pool a then
      do data_old <- readAt h (a_data a) 0 (a_sz a * a_cap a);
      do x <- getMemory par fresh new_cap o h;
      match x with
      | None => Done None
      | Some h =>
          do b <- arr h o;
          do h <- (if (a_id a =? a_id b)%Z then Done h else poolFree par fresh (a_id a) h);
          do d <- readAt h (Own data_old) 0 (a_sz a * a_size a);
          do h <- writeAt h o 0 d;
          Done (Some h)
      end
    else
      do data_old <- readAt h (a_data a) 0 (a_sz a * a_size a);
      do x <- getMemory par fresh new_cap o h;
      match x with
      | None => Done None
      | Some h => do h <- writeAt h o 0 data_old; Done (Some h)
      end.

  (** a new array (FDPS/reallocatable_array.hpp:157-170): the constructors *)
  Definition construct (sz : nat) (h : heap) : heap := Heap (h_gen h) (h_mem h) (h_top h) (h_size h) (h_segs h) (h_epoch h) (h_bufs h) (h_arrs h ++ [Some (Arr sz false Null 0 0 0 (-1))]).
  (** initialize, and the constructor with arguments, on an array made by construct (FDPS/reallocatable_array.hpp:47-64, 168-170, 192-198); None for Abort. The code
      sets size_ first, which is not read by alloc *)
  Definition initialize (par : bool) (fresh : nat -> A) (cap size : nat) (pool : bool) (o : nat) (h : heap) : outcome (option heap) :=
    do a <- arr h o;
    if (PARTICLES <=? Z.of_nat cap)%Z then Done None else
    do x <- getMemory par fresh cap o (setArr h o (Arr (a_sz a) pool (a_data a) (a_size a) (a_cap a) (a_org a) (a_id a)));
    match x with
    | None => Done None
    | Some h => do a <- arr h o; Done (Some (setArr h o (withSize a size)))
    end.
  (** setAllocMode (FDPS/reallocatable_array.hpp:188-190) *)
  Definition setAllocMode (pool : bool) (o : nat) (h : heap) : outcome (option heap) :=
    do a <- arr h o; Done (Some (setArr h o (Arr (a_sz a) pool (a_data a) (a_size a) (a_cap a) (a_org a) (a_id a)))).
  (** the capacity for n elements, an int (FDPS/reallocatable_array.hpp:301, 374, 405) *)
  Definition roomy (n : nat) : nat := n + Nat.div (n + 10) 10 + 100.
  (** the largest int, the type of capacities (FDPS/reallocatable_array.hpp:14-15) *)
  Definition INT_MAX : Z := 2147483647.
  (** resizeNoInitialize (FDPS/reallocatable_array.hpp:290-347) *)
  Definition resize (par : bool) (fresh : nat -> A) (n o : nat) (h : heap) : outcome (option heap) :=
    do a <- arr h o;
    if (INT_MAX <? Z.of_nat (roomy n))%Z then UB else
    let new_cap := Nat.max (roomy n) (a_org a) in
    do x <- match a_data a with
            | Null => getMemory par fresh new_cap o h
            | _ => if n <=? a_cap a then Done (Some h) else
                   if (PARTICLES <=? Z.of_nat new_cap)%Z then Done None else ReallocInner par fresh new_cap o h
            end;
    match x with
    | None => Done None
    | Some h => do a <- arr h o; Done (Some (setArr h o (withSize a n)))
    end.
  (** reserve (FDPS/reallocatable_array.hpp:200-222): capacity_ is set before ReallocInner *)
  Definition reserve (par : bool) (fresh : nat -> A) (n o : nat) (h : heap) : outcome (option heap) :=
    do a <- arr h o;
    if n <=? a_cap a then Done (Some h) else
    if (PARTICLES <=? Z.of_nat n)%Z then Done None else ReallocInner par fresh n o (setArr h o (withCap a n)).
  (** reserveAtLeast (FDPS/reallocatable_array.hpp:366-393) *)
  Definition reserveAtLeast (par : bool) (fresh : nat -> A) (n o : nat) (h : heap) : outcome (option heap) :=
    do a <- arr h o;
    if n <? a_cap a then Done (Some h) else
    if (INT_MAX <? Z.of_nat (roomy n))%Z then UB else
    if (PARTICLES <=? Z.of_nat (roomy n))%Z then Done None else ReallocInner par fresh (roomy n) o h.
  (** reserveEmptyAreaAtLeast (FDPS/reallocatable_array.hpp:395-425) *)
  Definition reserveEmptyArea (par : bool) (fresh : nat -> A) (n o : nat) (h : heap) : outcome (option heap) :=
    do a <- arr h o; reserveAtLeast par fresh (n + a_size a) o h.
  (** clearSize (FDPS/reallocatable_array.hpp:363) *)
  Definition clearSize (o : nat) (h : heap) : outcome (option heap) := do a <- arr h o; Done (Some (setArr h o (withSize a 0))).
  (** element i set, of sizeof(T) bytes (FDPS/reallocatable_array.hpp:245-266) *)
  Definition setElement (i : nat) (v : list A) (o : nat) (h : heap) : outcome (option heap) := do a <- arr h o; do h <- writeAt h o (a_sz a * i) v; Done (Some h).
  (** element i read (FDPS/reallocatable_array.hpp:222-243) *)
  Definition getElement (i o : nat) (h : heap) : outcome (list A) := do a <- arr h o; readAt h (a_data a) (a_sz a * i) (a_sz a).
  (** push_back (FDPS/reallocatable_array.hpp:276-289), with the value not an element of the same array *)
  Definition pushBack (par : bool) (fresh : nat -> A) (v : list A) (o : nat) (h : heap) : outcome (option heap) :=
    do a <- arr h o;
    do x <- resize par fresh (S (a_size a)) o h;
    match x with None => Done None | Some h => setElement (a_size a) v o h end.
  (** pushBackNoCheck (FDPS/reallocatable_array.hpp:351-362) *)
  Definition pushBackNoCheck (v : list A) (o : nat) (h : heap) : outcome (option heap) :=
    do a <- arr h o; do h <- writeAt h o (a_sz a * a_size a) v; do a <- arr h o; Done (Some (setArr h o (withSize a (S (a_size a))))).
  (** increaseSize and decreaseSize (FDPS/reallocatable_array.hpp:364-365) *)
  Definition increaseSize (par : bool) (fresh : nat -> A) (n o : nat) (h : heap) : outcome (option heap) := do a <- arr h o; resize par fresh (a_size a + n) o h.
  (** decreaseSize (FDPS/reallocatable_array.hpp:365), n at most the size *)
  Definition decreaseSize (par : bool) (fresh : nat -> A) (n o : nat) (h : heap) : outcome (option heap) := do a <- arr h o; resize par fresh (a_size a - n) o h.
  (** freeMem (FDPS/reallocatable_array.hpp:426-449); [which]: free_alloc_mode, None for -1 *)
  Definition freeMem (par : bool) (fresh : nat -> A) (which : option bool) (o : nat) (h : heap) : outcome (option heap) :=
    do a <- arr h o;
    if match which with None => true | Some b => Bool.eqb b (a_pool a) end then
      if a_pool a then
        match a_data a with
        | Null => Done (Some h)
        | _ => do h <- poolFree par fresh (a_id a) h; do a <- arr h o; Done (Some (setArr h o (Arr (a_sz a) true Null 0 0 (a_cap a) (-1))))
        end
      else if 0 <? a_cap a then Done (Some (setArr h o (Arr (a_sz a) false (Own (fill fresh (a_sz a * 10))) 0 10 (a_cap a) (a_id a))))
      else Done (Some (setArr h o (Arr (a_sz a) false (a_data a) (a_size a) (a_cap a) 0 (a_id a))))
    else Done (Some h).
  (** the destructor (FDPS/reallocatable_array.hpp:172-186) *)
  Definition destroy (par : bool) (fresh : nat -> A) (o : nat) (h : heap) : outcome (option heap) :=
    do a <- arr h o;
    do h <- (if a_pool a then poolFree par fresh (a_id a) h else Done h);
    Done (Some (Heap (h_gen h) (h_mem h) (h_top h) (h_size h) (h_segs h) (h_epoch h) (h_bufs h) (put (h_arrs h) o None))).

  (** the pool after MemoryPool::initialize (FDPS/memory_pool.hpp:74-94), without arrays *)
  Definition start (fresh : nat -> A) (cap : nat) : heap := Heap 0 (fill fresh cap) 0 0 [] 0 [] [].

  (** calls of the interface *)
  Inductive call :=
  | New (sz : nat) | Initialize (cap size : nat) (pool : bool) | SetAllocMode (pool : bool) | Resize (n : nat) | Reserve (n : nat) | ReserveAtLeast (n : nat) | ReserveEmptyArea (n : nat)
  | Clear | PushBack (v : list A) | PushBackNoCheck (v : list A) | Set_ (i : nat) (v : list A) | Increase (n : nat) | Decrease (n : nat) | Free (which : option bool) | Destroy.
  (** a call on the array o; New makes the next array (FDPS/reallocatable_array.hpp:139-449) *)
  Definition exec (par : bool) (fresh : nat -> A) (c : call) (o : nat) (h : heap) : outcome (option heap) :=
    match c with
    | New sz => Done (Some (construct sz h))
    | Initialize cap size pool => initialize par fresh cap size pool o h
    | SetAllocMode pool => setAllocMode pool o h
    | Resize n => resize par fresh n o h
    | Reserve n => reserve par fresh n o h
    | ReserveAtLeast n => reserveAtLeast par fresh n o h
    | ReserveEmptyArea n => reserveEmptyArea par fresh n o h
    | Clear => clearSize o h
    | PushBack v => pushBack par fresh v o h
    | PushBackNoCheck v => pushBackNoCheck v o h
    | Set_ i v => setElement i v o h
    | Increase n => increaseSize par fresh n o h
    | Decrease n => decreaseSize par fresh n o h
    | Free which => freeMem par fresh which o h
    | Destroy => destroy par fresh o h
    end.
  (** a call with what is left open in it: in a parallel region or not, bytes of new memory *)
  Record event := Event { v_par : bool; v_fresh : nat -> A; v_call : call; v_arr : nat }.
  (** calls one after the other (the pool is only used in critical sections, FDPS/reallocatable_array.hpp:55, 116, 179) *)
  Fixpoint execAll (es : list event) (h : heap) : outcome (option heap) :=
    match es with
    | [] => Done (Some h)
    | e :: es => do x <- exec (v_par e) (v_fresh e) (v_call e) (v_arr e) h; match x with None => Done None | Some h => execAll es h end
    end.
End Pool.
Arguments ptr : clear implicits.
Arguments array : clear implicits.
Arguments buf : clear implicits.
Arguments heap : clear implicits.
Arguments call : clear implicits.
Arguments event : clear implicits.
