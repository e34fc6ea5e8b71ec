(** Property C10 (the process grid and the domain decomposition). *)
From Coq Require Import List Arith ZArith Lia Bool Permutation Sorted Reals.
From Flocq Require Import Core.
From Verif Require Import Outcome ListUtil F64 SortModel SortProofs ParticleModel ParticleSpec ExchangeProofs
  DomainModel DomainSpec DomainProofs DomainFloat.
Import ListNotations.

(** The process grid.  [guess] stands for (S32)pow(...), any value at least 1. *)
Theorem C10_process_grid : forall guess nproc, (0 < nproc)%Z ->
  (forall d n, (0 < n)%Z -> (1 <= guess d n)%Z) ->
  exists nx ny nz, (nx * ny * nz = nproc)%Z /\ (1 <= nz <= ny)%Z /\ (ny <= nx)%Z /\
    forall rank, (0 <= rank < nproc)%Z ->
    exists rx ry rz, setNumberOfDomain guess nproc rank = Done ([nx; ny; nz], [rx; ry; rz]) /\
      (0 <= rx < nx)%Z /\ (0 <= ry < ny)%Z /\ (0 <= rz < nz)%Z /\ (rank = (rx * ny + ry) * nz + rz)%Z.
Proof. exact setNumberOfDomain_spec. Qed.
Print Assumptions C10_process_grid.

Example C10_process_grid_example :
  setNumberOfDomain (fun d n => if Z.eqb d 3 then 2 else 3)%Z 12 7 = Done ([3; 2; 2], [1; 1; 1])%Z.
Proof. vm_compute. reflexivity. Qed.

(** Any coordinate arithmetic whose averages are averages, any sort, any nonempty
    history of decompositions of the same root box with at least as many samples as
    ranks: the resulting domains tile the root box. *)
Theorem C10_tiles : forall (C : Type) (le lt : C -> C -> bool), coord_order le lt ->
  forall mid ema, averaging le mid ema -> forall sortBy, sorts le sortBy ->
  forall root nx ny nz, 0 < nx -> 0 < ny -> 0 < nz ->
  forall calls, calls <> [] ->
  Forall (fun c => nx * ny * nz <= length (concat c) /\ Forall (within le root) (concat c)) calls ->
  exists doms, decomposeHistory mid ema sortBy root nx ny nz (nx * ny * nz) None calls = Done (Some doms) /\
    length doms = nx * ny * nz /\ tiles le lt root doms /\ grid_of le root nx ny nz doms.
Proof. exact @history_tiles. Qed.
Print Assumptions C10_tiles.

(** The same for exact real coordinates and every smoothing factor in [0,1]. *)
Theorem C10_tiles_reals : forall coef, (0 <= coef <= 1)%R ->
  forall sortBy, sorts Rle_bool sortBy ->
  forall root nx ny nz, 0 < nx -> 0 < ny -> 0 < nz ->
  forall calls, calls <> [] ->
  Forall (fun c => nx * ny * nz <= length (concat c) /\ Forall (within Rle_bool root) (concat c)) calls ->
  exists doms,
    decomposeHistory (fun a b => / 2 * (a + b))%R (fun t o => coef * t + (1 - coef) * o)%R sortBy
      root nx ny nz (nx * ny * nz) None calls = Done (Some doms) /\
    length doms = nx * ny * nz /\ tiles Rle_bool Rlt_bool root doms.
Proof. exact history_tiles_reals. Qed.
Print Assumptions C10_tiles_reals.

(** The same as computed in doubles (magnitudes up to 2^1000) with the smoothing
    factor 1 that the code uses by default. *)
Theorem C10_tiles_doubles : forall sortBy, sorts cle sortBy ->
  forall root nx ny nz, 0 < nx -> 0 < ny -> 0 < nz ->
  forall calls, calls <> [] ->
  Forall (fun c => nx * ny * nz <= length (concat c) /\ Forall (within cle root) (concat c)) calls ->
  exists doms,
    decomposeHistory cmid cema sortBy root nx ny nz (nx * ny * nz) None calls = Done (Some doms) /\
    length doms = nx * ny * nz /\ tiles cle clt root doms.
Proof. exact history_tiles_doubles. Qed.
Print Assumptions C10_tiles_doubles.

(** In doubles another smoothing factor (here 0.9f) moves the outer faces by rounding:
    after two decompositions a point of the root box is in no domain. *)
Definition C10_root : ort f64 :=
  let h := f_lit 0x144fb8bb989877 (-47) in Ort (Vec (f_ofZ 0) (f_ofZ 0) (f_ofZ 0)) (Vec h h h).
Definition C10_point : vec f64 :=
  let h := f_lit 0x144fb8bb989876 (-47) in Vec h h h.
Definition C10_samples : list (list (vec f64)) := [[Vec (f_ofZ 1) (f_ofZ 1) (f_ofZ 1)]].
Definition C10_coef : f64 := f_lit 0xe66666 (-24).

Lemma C10_smoothing_gap (r : outcome (option (list (ort f64)))) root p :
  match r with Done (Some doms) => forallb (fun d => negb (insideb fle flt p d)) doms | _ => false end = true ->
  insideb fle flt p root = true ->
  exists doms, r = Done (Some doms) /\ insideb fle flt p root = true /\
    forallb (fun d => negb (insideb fle flt p d)) doms = true.
Proof. destruct r as [[doms|]| |]; try discriminate. intros A B. exists doms. auto. Qed.

Theorem C10_smoothing_doubles_refuted : exists coef root p calls doms,
  decomposeHistory fmid (fun t o => fadd (fmul coef t) (fmul (fsub (f_ofZ 1) coef) o))
    (fun k => stable_sort (fun a b => flt (k a) (k b))) root 1 1 1 1 None calls = Done (Some doms) /\
  insideb fle flt p root = true /\ forallb (fun d => negb (insideb fle flt p d)) doms = true.
Proof.
  exists C10_coef, C10_root, C10_point, [C10_samples; C10_samples].
  apply C10_smoothing_gap; vm_compute; reflexivity.
Qed.
Print Assumptions C10_smoothing_doubles_refuted.

(** With fewer samples than ranks the decomposition reads before the sample array. *)
Theorem C10_few_samples_refuted : exists root samples,
  Forall (within Z.leb root) (concat samples) /\ length (concat samples) = 1 /\
  decomposeDomain (fun a b => (a + b) / 2)%Z (fun t o => t)
    (fun k => stable_sort (fun a b => Z.ltb (k a) (k b))) root 2 1 1 2 None samples = UB.
Proof.
  exists (Ort (Vec 0 0 0) (Vec 8 8 8))%Z, [[Vec 5 5 5]]%Z.
  split; [|split; vm_compute; reflexivity].
  repeat constructor.
Qed.
Print Assumptions C10_few_samples_refuted.

(** A 2 x 2 x 1 decomposition over the integers from two ranks' samples, then a second
    one from other samples. *)
Example C10_example :
  let root := (Ort (Vec 0 0 0) (Vec 100 100 100))%Z in
  decomposeHistory (fun a b => (a + b) / 2)%Z (fun t o => t)
    (fun k => stable_sort (fun a b => Z.ltb (k a) (k b))) root 2 2 1 4 None
    [ [[Vec 10 50 1; Vec 90 20 2]; []; [Vec 30 70 3; Vec 80 60 4]; []]%Z;
      [[Vec 10 10 1; Vec 20 90 2]; [Vec 40 50 5]; [Vec 60 70 3; Vec 80 40 4]; []]%Z ]
  = Done (Some [ Ort (Vec 0 0 0) (Vec 30 50 100); Ort (Vec 0 50 0) (Vec 30 100 100);
                 Ort (Vec 30 0 0) (Vec 100 45 100); Ort (Vec 30 45 0) (Vec 100 100 100) ]%Z).
Proof. vm_compute. reflexivity. Qed.

(** the integer arithmetic of the example and its sort satisfy the assumptions *)
Example C10_example_averaging : averaging Z.leb (fun a b => (a + b) / 2)%Z (fun t o => t).
Proof.
  split; intros; rewrite ?Z.leb_le in *; try reflexivity; try assumption.
  - apply Z.div_le_lower_bound; lia.
  - apply Z.div_le_upper_bound; lia.
Qed.
Example C10_example_sorts : sorts Z.leb (fun k => stable_sort (fun a b => Z.ltb (k a) (k b))).
Proof. exact Z_sorts. Qed.
