(** Property C05 (all-to-all exchange with destinations per item). *)
From Coq Require Import List Arith ZArith Lia Permutation Sorted Bool.
From Verif Require Import Outcome SortModel SortSpec SortProofs CommModel CommSpec CommProofs.
Import ListNotations.

(** What every rank holds afterwards: the received (source, datum) pairs are the
    specified delivery, whatever the receive vectors contained before; the send
    vectors have become their own stable sort by destination. *)
Theorem C05_delivery : forall (D : Type) (dflt : D) (args : list (xarg D)),
  xsizes_ok args -> well_addressed (map xitems args) ->
  exists res, exchangeAllToAllV dflt args = Done res /\ length res = length args /\
    forall r a x, nth_error args r = Some a -> nth_error res r = Some x ->
      length (xr_src x) = length (xr_recv x) /\
      combine (xr_src x) (xr_recv x) = delivery (map xitems args) r /\
      length (xr_dest x) = length (xr_send x) /\
      sorted_stably Z.ltb (xitems a) (combine (xr_dest x) (xr_send x)).
Proof.
  intros D dflt args HS HW. rewrite (exchange_spec dflt args HS HW).
  eexists. split; [reflexivity|]. split; [now rewrite map_length, seq_length|].
  intros r a x Ha Hx. cbv zeta in Hx.
  apply ListUtil.nth_error_map_some in Hx. destruct Hx as (k & Hk & ->).
  assert (Hr : r < length args) by (apply nth_error_Some; congruence).
  rewrite ListUtil.nth_error_seq in Hk by assumption. injection Hk as <-. cbn [Nat.add].
  rewrite (nth_error_nth _ _ _ Ha). cbn [xr_src xr_recv xr_dest xr_send].
  split; [now rewrite !map_length|]. split; [apply ListUtil.combine_fst_snd|].
  split; [now rewrite !map_length|]. rewrite ListUtil.combine_fst_snd.
  apply stable_sort_spec, CommProofs.Zltb_swo.
Qed.
Print Assumptions C05_delivery.

(** The specified deliveries lose nothing, invent nothing and duplicate nothing:
    as multisets of (destination, source, datum) they are what was addressed. *)
Theorem C05_nothing_lost : forall (D : Type) (items : list (list (Z * D))),
  well_addressed items ->
  Permutation
    (concat (map (fun r => map (fun p => (Z.of_nat r, fst p, snd p)) (delivery items r))
                 (seq 0 (length items))))
    (concat (map (fun s => map (fun p => (fst p, Z.of_nat s, snd p)) (nth s items []))
                 (seq 0 (length items)))).
Proof. exact @delivery_conserves. Qed.
Print Assumptions C05_nothing_lost.

(** Sending everything back to where it came from restores every rank's (sorted)
    send vectors and leaves what was received in place. *)
Theorem C05_reply_restores : forall (D : Type) (dflt : D) (args : list (xarg D)) old res,
  xsizes_ok args -> well_addressed (map xitems args) -> length old = length args ->
  exchangeAllToAllV dflt args = Done res ->
  exists res', exchangeAllToAllV dflt (reply res old) = Done res' /\
    map xr_src res' = map xr_dest res /\ map xr_recv res' = map xr_send res /\
    map xr_dest res' = map xr_src res /\ map xr_send res' = map xr_recv res.
Proof. exact @exchange_back. Qed.
Print Assumptions C05_reply_restores.

Definition C05_args : list (xarg nat) :=
  [ Build_xarg [2; 0; 2; 1]%Z [10; 11; 12; 13] [7]%Z [99; 98; 97; 96; 95; 94];
    Build_xarg [] [] [] [];
    Build_xarg [0; 2; 0]%Z [20; 21; 22] [] [] ].

Example C05_example :
  xsizes_ok C05_args /\ well_addressed (map xitems C05_args) /\
  exchangeAllToAllV 0 C05_args
  = Done [ Build_xres [0; 1; 2; 2]%Z [11; 13; 10; 12] [0; 2; 2]%Z [11; 20; 22];
           Build_xres [] [] [0]%Z [13];
           Build_xres [0; 0; 2]%Z [20; 22; 21] [0; 0; 2]%Z [10; 12; 21] ].
Proof.
  split; [repeat constructor|]. split; [|vm_compute; reflexivity].
  repeat (constructor; cbn; try lia).
Qed.
