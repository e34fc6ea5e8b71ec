(** C49, C50, C60: statistics over all objects. *)
From Coq Require Import List Arith ZArith Bool Reals Permutation.
From Flocq Require Import Core BinarySingleNaN.
From Verif Require Import F64 Arith ParticleModel ConModel VecModel VecSpec SylModel StatModel StatSpec StatProofs.
Import ListNotations.
Local Open Scope R_scope.

(** every end point is inside the local box; the low corner touches an end point, the high corner too if an end point has a coordinate of 2^-1022 or more *)
Theorem C49_local : forall ss, finiteEnds ss ->
  (forall s p, In s ss -> In p (endpoints s) -> inside (fst (localBox ss)) (snd (localBox ss)) p) /\
  (ss <> [] -> forall k, attained (flat_map endpoints ss) k (vget (fst (localBox ss)) k)) /\
  (forall k, (exists p, In p (flat_map endpoints ss) /\ bpow radix2 (-1022) <= B2R (vget p k)) -> attained (flat_map endpoints ss) k (vget (snd (localBox ss)) k)) /\
  finite3 (fst (localBox ss)) /\ finite3 (snd (localBox ss)).
Proof. exact local_ok. Qed.
Print Assumptions C49_local.
(** the same over all ranks, some of them possibly without objects *)
Theorem C49_global : forall ranks, ranks <> [] -> finiteEnds (concat ranks) ->
  (forall s p, In s (concat ranks) -> In p (endpoints s) -> inside (fst (globalBox ranks)) (snd (globalBox ranks)) p) /\
  (concat ranks <> [] -> forall k, attained (flat_map endpoints (concat ranks)) k (vget (fst (globalBox ranks)) k)) /\
  (forall k, (exists p, In p (flat_map endpoints (concat ranks)) /\ bpow radix2 (-1022) <= B2R (vget p k)) -> attained (flat_map endpoints (concat ranks)) k (vget (snd (globalBox ranks)) k)).
Proof. exact global_ok. Qed.
Print Assumptions C49_global.

Definition exZ : vec F_arith := Vec (f_ofZ 0) (f_ofZ 0) (f_ofZ 0).
Definition exMot : motion F_arith := Motion exZ exZ exZ exZ exZ exZ exZ exZ exZ exZ exZ exZ exZ exZ exZ exZ exZ exZ.
(** an object of length 2 along z *)
Definition exAt (x y z : Z) : sylinder F_arith :=
  Syl 0 0 0 0 false (f_ofZ 1) (f_ofZ 1) (f_ofZ 2) (f_ofZ 2) (f_ofZ 1) (f_ofZ 0) (f_ofZ 0) (Vec (f_ofZ x) (f_ofZ y) (f_ofZ z)) (Quat (f_ofZ 0) (f_ofZ 0) (f_ofZ 0) (f_ofZ 1)) exMot.
Definition sameV (a b : vec F_arith) : bool := feq (vx a) (vx b) && feq (vy a) (vy b) && feq (vz a) (vz b).
Example C49_example : let b := globalBox [[exAt 5 5 5]; []; [exAt 1 8 7; exAt 2 (-3) 6]] in
  (sameV (fst b) (Vec (f_ofZ 1) (f_ofZ (-3)) (f_ofZ 4)) && sameV (snd b) (Vec (f_ofZ 5) (f_ofZ 8) (f_ofZ 8)))%bool = true.
Proof. vm_compute. reflexivity. Qed.
(** the high corner of a box of objects at negative coordinates is not the least one: it is 2^-1022 *)
Theorem C49_high_refuted : exists ss, finiteEnds ss /\ ss <> [] /\ (forall p, In p (flat_map endpoints ss) -> B2R (vget p 0) = -7) /\ B2R (vget (snd (localBox ss)) 0) = bpow radix2 (-1022).
Proof.
  exists [exAt (-7) 1 1]. split; [|split; [discriminate|split]].
  - intros s p [<-|[]] Hp. destruct Hp as [<-|[<-|[]]]; intros [|[|k]]; vm_compute; reflexivity.
  - intros p Hp. rewrite <- (proj1 (f_ofZ_exact (-7) ltac:(discriminate))). destruct Hp as [<-|[<-|[]]]; (apply feq_B2R; [vm_compute; reflexivity..|vm_compute; reflexivity]).
  - rewrite <- (proj2 dblMin_ok). apply feq_B2R; vm_compute; reflexivity.
Qed.
Print Assumptions C49_high_refuted.

(** the reported numbers are the mean director and the mean of d d^T - I/3 over all objects *)
Theorem C50_mean : forall ranks, let ss := concat (concat ranks) in
  orderParameter (N := R_arith) ranks = [polar ss 0; polar ss 1; polar ss 2; nematic ss 0 0; nematic ss 0 1; nematic ss 0 2; nematic ss 1 0; nematic ss 1 1; nematic ss 1 2; nematic ss 2 0; nematic ss 2 1; nematic ss 2 2].
Proof. exact order_ok. Qed.
Print Assumptions C50_mean.
(** and do not depend on how the objects are split over ranks and threads *)
Theorem C50_split : forall ranks ranks', Permutation (concat (concat ranks)) (concat (concat ranks')) -> orderParameter (N := R_arith) ranks = orderParameter (N := R_arith) ranks'.
Proof. exact order_perm. Qed.
Print Assumptions C50_split.
Theorem C50_polar_bound : forall ss, ss <> [] -> (forall s, In s ss -> unitq (orient s)) -> norm3 (Vec (polar ss 0) (polar ss 1) (polar ss 2)) <= 1.
Proof. exact polar_bound. Qed.
Print Assumptions C50_polar_bound.
Theorem C50_symmetric : forall ss i j, nematic ss i j = nematic ss j i.
Proof. exact nematic_sym. Qed.
Print Assumptions C50_symmetric.
Theorem C50_traceless : forall ss, (forall s, In s ss -> unitq (orient s)) -> nematic ss 0 0 + nematic ss 1 1 + nematic ss 2 2 = 0.
Proof. exact nematic_trace. Qed.
Print Assumptions C50_traceless.
(** the quadratic form on unit vectors, hence every eigenvalue, is between -1/3 and 2/3 *)
Theorem C50_eigenvalues : forall ss x, ss <> [] -> (forall s, In s ss -> unitq (orient s)) -> unit3 x -> - (1 / 3) <= quadform (nematic ss) x <= 2 / 3.
Proof. exact nematic_bound. Qed.
Print Assumptions C50_eigenvalues.
Theorem C50_flip : forall ss ss', Forall2 reversed ss ss' -> (forall i, polar ss' i = - polar ss i) /\ (forall i j, nematic ss' i j = nematic ss i j).
Proof. exact order_flip. Qed.
Print Assumptions C50_flip.
(** in doubles: two objects along z and one against it, on two ranks *)
Definition exTurn (s : sylinder F_arith) : sylinder F_arith := withPose s (spos s) (Quat (f_ofZ 1) (f_ofZ 0) (f_ofZ 0) (f_ofZ 0)).
Example C50_example : let pQ := orderParameter [[[exAt 5 5 5]; [exTurn (exAt 1 2 3)]]; [[]; [exAt 4 5 6]]; [[exAt 9 9 9]]] in
  forallb (fun xy => feq (fst xy) (snd xy)) (combine pQ [f_ofZ 0; f_ofZ 0; f_lit 1 (-1)]) = true /\
  forallb (fun xy => flt (fabs (fsub (fst xy) (snd xy))) (f_lit 1 (-50)))
    (combine (skipn 3 pQ) (let t := fdiv (f_ofZ 1) (f_ofZ 3) in [fopp t; f_ofZ 0; f_ofZ 0; f_ofZ 0; fopp t; f_ofZ 0; f_ofZ 0; f_ofZ 0; fadd t t])) = true /\ length pQ = 12%nat.
Proof. vm_compute. auto. Qed.

(** the reported volume is the volume of all spherocylinders, the fraction that volume over the box volume *)
Theorem C60_volume : forall Pi lo hi ranks, let ss := concat (concat ranks) in
  let vol := rsum (fun s => Pi * (radius s * radius s) * slength s + 4 / 3 * Pi * (radius s * radius s * radius s)) ss in
  calcVolFrac (N := R_arith) Pi lo hi ranks = (vol, vol / ((vx hi - vx lo) * (vy hi - vy lo) * (vz hi - vz lo))).
Proof. exact volume_ok. Qed.
Print Assumptions C60_volume.
Theorem C60_split : forall Pi lo hi ranks ranks', Permutation (concat (concat ranks)) (concat (concat ranks')) ->
  calcVolFrac (N := R_arith) Pi lo hi ranks = calcVolFrac (N := R_arith) Pi lo hi ranks'.
Proof. exact volume_perm. Qed.
Print Assumptions C60_split.
(** in doubles with Pi = 3: two objects of radius 1 and length 2 have volume 2 * (6 + 4) *)
Example C60_example : let r := calcVolFrac (f_ofZ 3) (Vec (f_ofZ 0) (f_ofZ 0) (f_ofZ 0)) (Vec (f_ofZ 2) (f_ofZ 5) (f_ofZ 4)) [[[exAt 5 5 5]; []]; [[exTurn (exAt 1 2 3)]]] in
  (flt (fabs (fsub (fst r) (f_ofZ 20))) (f_lit 1 (-40)) && flt (fabs (fsub (snd r) (f_lit 1 (-1)))) (f_lit 1 (-40)))%bool = true.
Proof. vm_compute. reflexivity. Qed.
