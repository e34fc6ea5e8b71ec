(** The memory pool and the arrays of FDPS. *)
From Coq Require Import List Arith ZArith Lia Bool.
From Verif Require Import Outcome ListUtil PoolModel PoolSpec PoolProofs PoolAlloc PoolCalls PoolMain.
Import ListNotations.

(** C77: arrays that use the pool are lists. Any calls, in and outside of parallel regions, that ask for what [allowed] says do not touch memory that is not theirs, each
    changes the bytes of its own array as it should and leaves those of all other arrays, wherever their memory moves. Unless the table of 10000 segments is full *)
Theorem C77_trace : forall (A : Type) (fresh : nat -> A) cap es, well_used es (start fresh cap) ->
  gets_full es (start fresh cap) \/ exists h m, execAll es (start fresh cap) = Done (Some h) /\ does_all es [] m /\ shows_all h m.
Proof. exact @trace_holds. Qed.
Print Assumptions C77_trace.

(** every single call, in any state that such calls lead to *)
Theorem C77_call : forall (A : Type) par (fresh : nat -> A) c o h m, good h -> shows_all h m -> allowed h c o ->
  full h \/ exists h' m', exec par fresh c o h = Done (Some h') /\ good h' /\ does c o m m' /\ shows_all h' m'.
Proof. exact @call_holds. Qed.
Print Assumptions C77_call.

(** reading element i of an array gives the bytes of element i that the array shows *)
Theorem C77_element : forall (A : Type) (h : heap A) m o sz pool l v r i, shows_all h m -> nth_error m o = Some (Some (sz, pool, l ++ v ++ r)) -> length l = sz * i -> length v = sz ->
  getElement i o h = Done v.
Proof. exact @element_holds. Qed.
Print Assumptions C77_element.

(** when no array has memory in the pool, all of it is free again: nothing leaks *)
Theorem C77_released : forall (A : Type) (fresh : nat -> A) cap es, well_used es (start fresh cap) -> ~ gets_full es (start fresh cap) ->
  exists h, execAll es (start fresh cap) = Done (Some h) /\
    ((forall o a, nth_error (h_arrs h) o = Some (Some a) -> a_pool a = true -> bare a) -> h_segs h = [] /\ h_bufs h = [] /\ h_size h = 0 /\ h_top h = 0).
Proof. exact @released_holds. Qed.
Print Assumptions C77_released.

(** ** Concrete cases *)

Definition z (i : nat) : nat := Nat.modulo i 3.
Definition ev (par : bool) (c : call nat) (o : nat) : event nat := Event par z c o.
(** what arrays hold at the end *)
Definition look (x : outcome (option (heap nat))) : option (list (option (list nat)) * nat * nat * nat) :=
  match x with
  | Done (Some h) => Some (map (fun c => match c with None => None | Some a => match readAt h (a_data a) 0 (a_sz a * a_size a) with Done l => Some l | _ => None end end) (h_arrs h), length (h_segs h), length (h_bufs h), h_size h)
  | _ => None
  end.
(** two arrays in a pool of 300 bytes; in a parallel region, a third one gets an emergency buffer; the first one grows outside of it, which moves all *)
Definition story : list (event nat) :=
  [ev false (New 2) 0; ev false (Initialize 5 0 true) 0; ev false (PushBack [1; 2]) 0; ev false (PushBack [3; 4]) 0;
   ev false (New 1) 0; ev true (SetAllocMode true) 1; ev true (PushBack [7]) 1;
   ev true (New 3) 0; ev true (SetAllocMode true) 2; ev true (Resize 2) 2; ev true (Set_ 0 [8; 8; 8]) 2; ev true (Set_ 1 [9; 9; 9]) 2;
   ev false (Resize 70) 0; ev false (Resize 3) 0; ev false (Set_ 2 [5; 6]) 0; ev false (PushBack [10; 11; 12]) 2].
Example C77_example : look (execAll story (start z 300)) = Some ([Some [1; 2; 3; 4; 5; 6]; Some [7]; Some [8; 8; 8; 9; 9; 9; 10; 11; 12]], 4, 0, 792) /\ look (execAll (firstn 12 story) (start z 300)) = Some ([Some [1; 2; 3; 4]; Some [7]; Some [8; 8; 8; 9; 9; 9]], 2, 1, 120).
Proof. split; vm_compute; reflexivity. Qed.
Example C77_example_released : look (execAll (story ++ [ev false (Free (Some true)) 0; ev true Destroy 2; ev false Destroy 1]) (start z 300)) = Some ([Some []; None; None], 0, 0, 0).
Proof. vm_compute. reflexivity. Qed.
(** an array that is alone grows in its own segment *)
Example C77_example_alone : look (execAll [ev false (New 1) 0; ev false (Initialize 5 0 true) 0; ev false (PushBack [4]) 0; ev false (Resize 40) 0; ev false (Resize 1) 0] (start z 300)) = Some ([Some [4]], 1, 0, 152).
Proof. vm_compute. reflexivity. Qed.
Example C77_example_element : match execAll story (start z 300) with Done (Some h) => map (fun i => getElement i 2 h) [0; 1; 2] | _ => [] end = [Done [8; 8; 8]; Done [9; 9; 9]; Done [10; 11; 12]].
Proof. vm_compute. reflexivity. Qed.
(** the calls of the story ask for what they may *)
Example C77_example_used : well_used story (start z 300).
Proof.
  unfold story, ev. cbn [well_used v_call v_arr v_par v_fresh].
  repeat (split; [cbn [allowed]; first [lia | eexists; split; [vm_compute; reflexivity|]; unfold bare, buffered, moderate; cbn [a_data a_cap a_size a_sz a_pool];
    first [exact I | reflexivity | repeat split; try lia; try (intros _ (?e & ?i & X); discriminate X)]]|intros ?h ?E; vm_compute in E; injection E as <-]); exact I.
Qed.

(** ** Calls that the condition [allowed] leaves out are not safe *)

(** an array of the pool, freeMem, and the destructor, as in exchangeParticle (FDPS/particle_system.hpp:639-646, 754-761) on every step: MemoryPool::freeMem(-1) reads before its table *)
Theorem C77_destructor_refuted : exists es h, execAll es (start z 300) = Done (Some h) /\ map v_call es = [New 4; Initialize 3 3 true; Free None] /\ exec false z Destroy 0 h = UB.
Proof. exists [ev false (New 4) 0; ev false (Initialize 3 3 true) 0; ev false (Free None) 0]. eexists. split; [vm_compute; reflexivity|]. split; vm_compute; reflexivity. Qed.
Print Assumptions C77_destructor_refuted.
(** reserve sets capacity_ before ReallocInner copies capacity_ elements of the old memory *)
Theorem C77_reserve_refuted : exists es h, execAll es (start z 300) = Done (Some h) /\ map v_call es = [New 4; Initialize 3 3 true] /\ exec false z (Reserve 100) 0 h = UB.
Proof. exists [ev false (New 4) 0; ev false (Initialize 3 3 true) 0]. eexists. split; [vm_compute; reflexivity|]. split; vm_compute; reflexivity. Qed.
Print Assumptions C77_reserve_refuted.
(** reserveAtLeast on an array of the pool without memory frees the segment -1 *)
Theorem C77_bare_refuted : exists es h, execAll es (start z 300) = Done (Some h) /\ map v_call es = [New 4; SetAllocMode true] /\ exec false z (ReserveAtLeast 2) 0 h = UB.
Proof. exists [ev false (New 4) 0; ev false (SetAllocMode true) 0]. eexists. split; [vm_compute; reflexivity|]. split; vm_compute; reflexivity. Qed.
Print Assumptions C77_bare_refuted.
(** an array that got an emergency buffer can neither be given back nor grow in the parallel region: freeMem reads cap_per_seg_ at 10000 or more *)
Theorem C77_buffer_refuted : exists es h, execAll es (start z 300) = Done (Some h) /\ map v_call es = [New 4; Initialize 100 3 true] /\ exec true z (Free None) 0 h = UB /\ exec true z (Resize 101) 0 h = UB /\ exec true z Destroy 0 h = UB.
Proof. exists [ev true (New 4) 0; ev true (Initialize 100 3 true) 0]. eexists. split; [vm_compute; reflexivity|]. repeat split; vm_compute; reflexivity. Qed.
Print Assumptions C77_buffer_refuted.
