(** C61: the threaded radix sort of the tree code *)
From Coq Require Import List Arith NArith Permutation Sorted Lia.
From Verif Require Import Outcome ListUtil RadixModel RadixSpec RadixProofs.
Import ListNotations.

(** On however many threads, however the iterations interleave: the first [n] elements come out ordered by key, equal keys in their
    old order, and nothing behind them is touched in either array. *)
Theorem C61_sort : forall (A : Type) (key : A -> N) nbit keybits n n_thread gs copying b p val buf,
  0 < nbit -> 0 < keybits -> 0 < n_thread ->
  (forall loop, staticRegion n n_thread (gs loop)) -> Permutation copying (seq 0 n) ->
  rows n_thread (2 ^ nbit) b -> rows n_thread (2 ^ nbit) p ->
  n <= length val -> n <= length buf -> (forall x, In x (firstn n val) -> (key x < 2 ^ N.of_nat keybits)%N) ->
  exists sorted buf', lsdSort key nbit keybits 0 (n - 1) gs copying b p val buf = Done (sorted ++ skipn n val, buf') /\
    sortedByKey key (firstn n val) sorted /\ length buf' = length buf /\ skipn n buf' = skipn n buf.
Proof. intros A key nbit keybits n nt gs copying b p val buf Hnb Hkb Hnt Hg Pc Hb Hp Lv Lb Hk. exact (sort_ok key nbit Hnb keybits n nt gs copying b p val buf Hkb Hnt Hg Pc Hb Hp Lv Lb Hk). Qed.
Print Assumptions C61_sort.

(** ... so the result does not depend on the number of threads or on the schedule *)
Theorem C61_same : forall (A : Type) (key : A -> N) before after after',
  sortedByKey key before after -> sortedByKey key before after' -> after = after'.
Proof. intros A key before after after'. exact (sorted_unique key after before after'). Qed.
Print Assumptions C61_same.

(** two threads, four elements, eight bit keys in three bit digits (three passes, so copied back); a fifth element is out of range *)
Definition serialRegion : region := Region 2 [(0, 0); (1, 2); (0, 1); (1, 3)] [(1, 2); (0, 0); (1, 3); (0, 1)].
Example C61_static : staticRegion 4 2 serialRegion.
Proof.
  split; [reflexivity|]. exists [[0; 1]; [2; 3]]. split; [reflexivity|]. split; [reflexivity|]. split.
  - split; [intros e He; cbn in He; decompose [or] He; subst; cbn; try lia; contradiction|]. intros [|[|t]] c Hc; cbn in Hc; inversion Hc; try reflexivity. destruct t; discriminate.
  - split; [intros e He; cbn in He; decompose [or] He; subst; cbn; try lia; contradiction|]. intros [|[|t]] c Hc; cbn in Hc; inversion Hc; try reflexivity. destruct t; discriminate.
Qed.
Definition junk : list (list nat) := repeat (repeat 7 8) 2.
Example C61_example :
  lsdSort fst 3 8 0 3 (fun _ => serialRegion) [3; 0; 1; 2] junk junk [(200%N, 1); (9%N, 2); (200%N, 3); (7%N, 4); (0%N, 5)] (repeat (0%N, 0) 4) =
  Done ([(7%N, 4); (9%N, 2); (200%N, 1); (200%N, 3); (0%N, 5)], [(7%N, 4); (9%N, 2); (200%N, 1); (200%N, 3)]).
Proof. vm_compute. reflexivity. Qed.

(** A team smaller than the one the sorter was built for leaves the counts of the missing threads as they were: elements are
    written outside the array. *)
Theorem C61_small_team_refuted : exists gs copying b p (val buf : list (N * nat)), (forall loop, staticRegion 4 1 (gs loop)) /\ rows 2 8 b /\ rows 2 8 p /\ length val = 4 /\ length buf = 4 /\
  lsdSort fst 3 8 0 3 gs copying b p val buf = UB.
Proof.
  exists (fun _ => Region 1 [(0, 0); (0, 1); (0, 2); (0, 3)] [(0, 0); (0, 1); (0, 2); (0, 3)]), (seq 0 4), junk, junk, [(200%N, 1); (9%N, 2); (200%N, 3); (7%N, 4)], (repeat (0%N, 0) 4).
  split; [|split; [|split; [|split; [|split]]]]; [intros _|split; [reflexivity|repeat constructor]|split; [reflexivity|repeat constructor]|reflexivity|reflexivity|vm_compute; reflexivity].
  split; [reflexivity|]. exists [[0; 1; 2; 3]]. split; [reflexivity|]. split; [reflexivity|].
  split; (split; [intros e He; cbn in He; decompose [or] He; subst; cbn; try lia; contradiction|]); intros [|t] c Hc; cbn in Hc; inversion Hc; try reflexivity; destruct t; discriminate.
Qed.
Print Assumptions C61_small_team_refuted.

(** [first] other than 0 orders the wrong elements: asked for positions 1 and 2, the sorter orders 0 and 1. *)
Theorem C61_first_refuted : exists gs (val : list (N * nat)) out buf,
  (forall loop, staticRegion 2 1 (gs loop)) /\ lsdSort fst 3 8 1 2 gs [0; 1] [repeat 0 8] [repeat 0 8] val (repeat (0%N, 0) 3) = Done (out, buf) /\
  nth_error out 0 <> nth_error val 0 /\ ~ StronglySorted (fun x y => (fst x <= fst y)%N) (skipn 1 out).
Proof.
  exists (fun _ => Region 1 [(0, 0); (0, 1)] [(0, 0); (0, 1)]), [(9%N, 1); (8%N, 2); (7%N, 3)], [(8%N, 2); (9%N, 1); (7%N, 3)], [(8%N, 2); (9%N, 1); (0%N, 0)].
  split; [intros _; split; [reflexivity|]; exists [[0; 1]]; split; [reflexivity|]; split; [reflexivity|]|].
  - split; (split; [intros e He; cbn in He; decompose [or] He; subst; cbn; try lia; contradiction|]); intros [|t] c Hc; cbn in Hc; inversion Hc; try reflexivity; destruct t; discriminate.
  - split; [vm_compute; reflexivity|]. split; [discriminate|]. intros H. apply StronglySorted_inv in H as (_ & H). inversion H as [|? ? H1 _]. cbn in H1. lia.
Qed.
Print Assumptions C61_first_refuted.

(** The two loops must be dealt out alike, which only the static schedule promises: with another deal the elements overwrite one another. *)
Theorem C61_other_deal_refuted : exists g (val : list (N * nat)) out buf,
  team g = 2 /\ follows [[0; 1]; [2; 3]] (counting g) /\ follows [[2; 3]; [0; 1]] (filling g) /\
  lsdSort fst 3 8 0 3 (fun _ => g) (seq 0 4) [repeat 0 8; repeat 0 8] [repeat 0 8; repeat 0 8] val (repeat (0%N, 0) 4) = Done (out, buf) /\ ~ Permutation val out.
Proof.
  exists (Region 2 [(0, 0); (0, 1); (1, 2); (1, 3)] [(0, 2); (0, 3); (1, 0); (1, 1)]), [(1%N, 1); (1%N, 2); (1%N, 3); (2%N, 4)].
  eexists. eexists. split; [reflexivity|]. split; [|split; [|split; [vm_compute; reflexivity|]]].
  1,2: split; [intros e He; cbn in He; decompose [or] He; subst; cbn; try lia; contradiction|]; intros [|[|t]] c Hc; cbn in Hc; inversion Hc; try reflexivity; destruct t; discriminate.
  intros P. assert (I : In (2%N, 4) [(1%N, 1); (1%N, 2); (1%N, 3); (2%N, 4)]) by (cbn; tauto). apply (Permutation_in _ P) in I. vm_compute in I. repeat (destruct I as [I|I]; [discriminate|]). exact I.
Qed.
Print Assumptions C61_other_deal_refuted.
