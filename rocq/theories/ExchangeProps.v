(** Property C07 (particle migration). *)
From Coq Require Import List Arith ZArith Lia Bool Permutation.
From Verif Require Import Outcome ListUtil F64 ParticleModel ParticleSpec ExchangeProofs.
Import ListNotations.

(** For any particle and coordinate type, any grid of domains and any number of
    particles per rank, all inside the (half-open) root box: no particle is lost
    or duplicated; every particle ends on the rank whose domain contains it; those
    already there stay in front in their order; the counters grow by the particles
    that left and arrived, and balance globally. *)
Theorem C07_migration : forall (C P : Type) (le lt : C -> C -> bool), coord_order le lt ->
  forall (getPos : P -> vec C) (di : dinfo) nx ny nz,
  grid_of le (di_root di) nx ny nz (di_dom di) -> di_n di = (nx, ny, nz) ->
  forall ranks : list prank, length ranks = length (di_dom di) ->
  forall junk : P,
  Forall (fun s => Forall (fun p => inside le lt (getPos p) (di_root di)) (pr_ptcl s)) ranks ->
  exists out, exchangeParticle le lt getPos di junk ranks = Done (Some out) /\
    length out = length ranks /\
    Permutation (concat (map pr_ptcl out)) (concat (map pr_ptcl ranks)) /\
    sum_list (map pr_nsend out) + sum_list (map pr_nrecv ranks)
    = sum_list (map pr_nrecv out) + sum_list (map pr_nsend ranks) /\
    forall r s s' d, nth_error ranks r = Some s -> nth_error out r = Some s' -> nth_error (di_dom di) r = Some d ->
      Forall (fun p => inside le lt (getPos p) d) (pr_ptcl s') /\
      exists arrived,
        pr_ptcl s' = filter (fun p => insideb le lt (getPos p) d) (pr_ptcl s) ++ arrived /\
        pr_nsend s' = pr_nsend s + length (filter (fun p => negb (insideb le lt (getPos p) d)) (pr_ptcl s)) /\
        pr_nrecv s' = pr_nrecv s + length arrived.
Proof. exact @exchange_correct. Qed.
Print Assumptions C07_migration.

(** A particle strictly outside the root box, on any rank, aborts the run. *)
Theorem C07_outside_aborts : forall (C P : Type) (le lt : C -> C -> bool), coord_order le lt ->
  forall (getPos : P -> vec C) (di : dinfo) nx ny nz,
  grid_of le (di_root di) nx ny nz (di_dom di) -> di_n di = (nx, ny, nz) ->
  forall ranks : list prank, length ranks = length (di_dom di) ->
  forall junk : P,
  Forall (fun s => Forall (fun p => inside le lt (getPos p) (di_root di) \/ beyond lt (getPos p) (di_root di)) (pr_ptcl s)) ranks ->
  Exists (fun s => Exists (fun p => beyond lt (getPos p) (di_root di)) (pr_ptcl s)) ranks ->
  exchangeParticle le lt getPos di junk ranks = Done None.
Proof. exact @exchange_abort. Qed.
Print Assumptions C07_outside_aborts.

(** A concrete 2 x 1 x 2 grid over the integers; particles are (label, position). *)
Definition C07_grid : @dinfo Z :=
  {| di_root := Ort (Vec 0 0 0) (Vec 10 10 10); di_n := (2, 1, 2)%nat;
     di_dom := [ Ort (Vec 0 0 0) (Vec 4 10 5); Ort (Vec 0 0 5) (Vec 4 10 10);
                 Ort (Vec 4 0 0) (Vec 10 10 7); Ort (Vec 4 0 7) (Vec 10 10 10) ] |}%Z.

Definition C07_ranks : list (@prank (nat * vec Z)) :=
  [ Build_prank [(1%nat, Vec 9 9 9); (2%nat, Vec 0 0 0); (3%nat, Vec 3 3 5)]%Z 7 8;
    Build_prank [] 0 0;
    Build_prank [(4%nat, Vec 4 2 6); (5%nat, Vec 9 0 6); (6%nat, Vec 4 4 7)]%Z 0 0;
    Build_prank [(7%nat, Vec 3 9 4)]%Z 1 0 ].

Lemma C07_Z_order : coord_order Z.leb Z.ltb.
Proof.
  split; intros; rewrite ?Z.leb_le in *; try lia.
Qed.

Example C07_example_grid : grid_of Z.leb (di_root C07_grid) 2 1 2 (di_dom C07_grid).
Proof.
  split; [reflexivity|].
  exists (fun i => nth i [0; 4; 10] 0)%Z, (fun _ j => nth j [0; 10] 0)%Z,
         (fun i _ k => nth k (nth i [[0; 5; 10]; [0; 7; 10]] []) 0)%Z.
  split; [|split; [|split]].
  - split; [reflexivity|]. split; [reflexivity|]. intros [|[|]] H; try lia; reflexivity.
  - intros [|[|]] H; try lia; (split; [reflexivity|]; split; [reflexivity|]; intros [|] H'; try lia; reflexivity).
  - intros [|[|]] [|] H H'; try lia; (split; [reflexivity|]; split; [reflexivity|]; intros [|[|]] H''; try lia; reflexivity).
  - intros [|[|]] [|] [|[|]] H H' H''; try lia; reflexivity.
Qed.

Example C07_example :
  length C07_ranks = length (di_dom C07_grid) /\
  Forall (fun s => Forall (fun p => inside Z.leb Z.ltb (snd p) (di_root C07_grid)) (pr_ptcl s)) C07_ranks /\
  match exchangeParticle Z.leb Z.ltb snd C07_grid (0%nat, Vec 0 0 0)%Z C07_ranks with
  | Done (Some out) => map (fun s => (map fst (pr_ptcl s), pr_nsend s, pr_nrecv s)) out
  | _ => []
  end = [([2; 7], 9, 9); ([3], 0, 1); ([4; 5], 1, 0); ([1; 6], 2, 2)].
Proof. split; [reflexivity|]. split; [repeat constructor|]. vm_compute. reflexivity. Qed.

Example C07_example_abort :
  exchangeParticle Z.leb Z.ltb (@snd nat (vec Z)) C07_grid (0%nat, Vec 0 0 0)%Z
    [ Build_prank [] 0 0; Build_prank [(1%nat, Vec 3 3 3)]%Z 0 0; Build_prank [(2%nat, Vec 3 11 3)]%Z 0 0;
      Build_prank [] 0 0 ] = Done None.
Proof. vm_compute. reflexivity. Qed.

(** The abort test uses the closed box, so a particle exactly on the upper face of
    the root box passes it; the domain search then leaves the array of domains. *)
Theorem C07_upper_face_refuted : exists (di : dinfo) (ranks : list (@prank (vec Z))) junk,
  grid_of Z.leb (di_root di) 2 1 2 (di_dom di) /\ di_n di = (2, 1, 2) /\
  length ranks = length (di_dom di) /\
  Forall (fun s => Forall (fun p => notOverlapped Z.ltb (di_root di) p = false) (pr_ptcl s)) ranks /\
  exchangeParticle Z.leb Z.ltb (fun p => p) di junk ranks = UB.
Proof.
  exists C07_grid, [ Build_prank [Vec 10 3 3]%Z 0 0; Build_prank [] 0 0; Build_prank [] 0 0; Build_prank [] 0 0 ],
    (Vec 0 0 0)%Z.
  split; [apply C07_example_grid|]. split; [reflexivity|]. split; [reflexivity|].
  split; [repeat constructor|]. vm_compute. reflexivity.
Qed.
Print Assumptions C07_upper_face_refuted.

(** ** Doubles *)

(** Finite doubles with the comparisons of the language are such an order, so
    C07_migration applies to them. *)
Theorem C07_finite_doubles : coord_order
  (fun a b : {x : f64 | f_finite x = true} => fle (proj1_sig a) (proj1_sig b))
  (fun a b => flt (proj1_sig a) (proj1_sig b)).
Proof. exact finite_doubles_order. Qed.
Print Assumptions C07_finite_doubles.

Definition C07_d (k : nat) : f64 := f_ofZ (Z.of_nat k).
(** two unit domains along x *)
Definition C07_fgrid : @dinfo f64 :=
  {| di_root := Ort (Vec (C07_d 0) (C07_d 0) (C07_d 0)) (Vec (C07_d 2) (C07_d 1) (C07_d 1)); di_n := (2, 1, 1);
     di_dom := [ Ort (Vec (C07_d 0) (C07_d 0) (C07_d 0)) (Vec (C07_d 1) (C07_d 1) (C07_d 1));
                 Ort (Vec (C07_d 1) (C07_d 0) (C07_d 0)) (Vec (C07_d 2) (C07_d 1) (C07_d 1)) ] |}.
(** particle 13 has a NaN coordinate, the others sit at the low corner *)
Definition C07_fpos (k : nat) : vec f64 :=
  if k =? 13 then Vec (fdiv f_zero f_zero) f_zero f_zero else Vec f_zero f_zero f_zero.

(** A NaN position passes the abort test, is addressed to rank 0, and on rank 0 is
    replaced by whatever the receive buffer contained: it is lost. *)
Theorem C07_nan_refuted : exists out,
  exchangeParticle fle flt C07_fpos C07_fgrid 99
    [ Build_prank [11; 13] 0 0; Build_prank [] 0 0 ] = Done (Some out) /\
  map pr_ptcl out = [[11; 99]; []].
Proof. eexists. split; [vm_compute; reflexivity|]. reflexivity. Qed.
Print Assumptions C07_nan_refuted.
