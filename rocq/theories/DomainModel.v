(** Model of FDPS/domain_info.hpp (MPI build, three dimensions). *)
From Coq Require Import List Arith ZArith Bool.
From Verif Require Import Outcome ListUtil SortModel ParticleModel.
Import ListNotations.

(** ** The process grid *)

(** FDPS/domain_info.hpp:25-27: while(np_tmp%tmp) tmp--;  a modulo by zero is [UB].
    [fuel] is exhausted only if tmp started above it. *)
Fixpoint lowerToDivisor (fuel : nat) (np tmp : Z) : outcome Z :=
  match fuel with
  | O => NoFuel
  | S f => if Z.eqb tmp 0 then UB
           else if Z.eqb (Z.rem np tmp) 0 then Done tmp
           else lowerToDivisor f np (tmp - 1)
  end.

(** FDPS/domain_info.hpp:23-31 for DIM = 3.  [guess d np] is the value of
    (S32)pow(np+0.000001, (1.0/d)*1.000001), which is not modelled further. *)
Definition factorThree (guess : Z -> Z -> Z) (nproc : Z) : outcome (Z * Z * Z) :=
  do a <- lowerToDivisor (S (Z.to_nat (guess 3 nproc)))%Z nproc (guess 3 nproc)%Z;
  let np1 := Z.quot nproc a in
  do b <- lowerToDivisor (S (Z.to_nat (guess 2 np1)))%Z np1 (guess 2 np1)%Z;
  Done (a, b, Z.quot np1 b).

(** FDPS/domain_info.hpp:14-39, SetNumberOfDomainMultiDimension<3>: the number of
    domains per axis (sorted, largest first; line 33) and the grid coordinates of
    one rank (lines 34-38). *)
Definition setNumberOfDomain (guess : Z -> Z -> Z) (nproc rank : Z) : outcome (list Z * list Z) :=
  do f <- factorThree guess nproc;
  let '(a, b, c) := f in
  match stable_sort Z.gtb [a; b; c] with
  | [nx; ny; nz] =>
      Done ([nx; ny; nz],
            [Z.rem (Z.quot (Z.quot rank nz) ny) nx; Z.rem (Z.quot rank nz) ny; Z.rem rank nz])
  | _ => UB
  end.

(** ** Decomposition *)

(** p[i] for an S32 index i (FDPS/domain_info.hpp:101-134) *)
Definition zread {A} (l : list A) (i : Z) : outcome A :=
  if (i <? 0)%Z then UB else mread l (Z.to_nat i).

Section Decompose.
  (** Coordinates: [mid a b] is 0.5*(a+b), [ema t o] is coef*t + (1-coef)*o in the
      arithmetic of the code; [sortBy k] is std::sort with Cmpvec(k). *)
  Context {C : Type} (mid ema : C -> C -> C)
          (sortBy : (vec C -> C) -> list (vec C) -> list (vec C)).

  (** FDPS/domain_info.hpp:101-134, calculateBoundaryOfDomainX/Y/Z: [key] selects the
      coordinate, [off] is the offset of pos_sample in the sample array. *)
  Definition boundary (key : vec C -> C) (root : ort C) (np : Z) (tot : list (vec C)) (off : Z)
    (istart iend : Z) : outcome (C * C) :=
    do lo <- (if Z.eqb istart 0 then Done (key (olow root))
              else do a <- zread tot (off + istart - 1); do b <- zread tot (off + istart);
                   Done (mid (key a) (key b)));
    do hi <- (if Z.eqb iend (np - 1) then Done (key (ohigh root))
              else do a <- zread tot (off + iend); do b <- zread tot (off + iend + 1);
                   Done (mid (key a) (key b)));
    Done (lo, hi).

  (** FDPS/domain_info.hpp:802-807 *)
  Definition istart (ntot nproc i : nat) : nat := i * ntot / nproc.
  (** FDPS/domain_info.hpp:804-807 *)
  Definition iend (ntot nproc i : nat) : Z :=
    if i =? nproc - 1 then (Z.of_nat ntot - 1)%Z else (Z.of_nat (istart ntot nproc (S i)) - 1)%Z.

  (** std::sort(pos_sample_tot_+lo, pos_sample_tot_+hi, Cmpvec(key)); a negative
      range is [UB] (FDPS/domain_info.hpp:801, 826, 861) *)
  Definition sortRange (key : vec C -> C) (lo : nat) (hi : Z) (tot : list (vec C)) : outcome (list (vec C)) :=
    if (hi <? Z.of_nat lo)%Z || (Z.of_nat (length tot) <? hi)%Z then UB else
    Done (firstn lo tot ++ sortBy key (slice lo (Z.to_nat hi - lo) tot) ++ skipn (Z.to_nat hi) tot).

  (** FDPS/domain_info.hpp:797-875: rank 0 computes the domains of all ranks from the
      gathered samples.  The x bounds are computed after sorting by x, the y bounds of
      each slab after sorting the slab by y, the z bounds of each column after sorting
      it by z. *)
  Definition decompose (root : ort C) (nx ny nz : nat) (nproc : nat) (samples : list (vec C))
    : outcome (list (ort C)) :=
    let ntot := length samples in
    let ist := istart ntot nproc in
    let ien := iend ntot nproc in
    let ist z := Z.of_nat (ist z) in
    do tot <- sortRange vx 0 (Z.of_nat ntot) samples;
    do xb <- omap (fun ix => boundary vx root (Z.of_nat ntot) tot 0 (ist (ix * ny * nz)%nat)
                                      (ien ((ix + 1) * ny * nz - 1)%nat)) (seq 0 nx);
    do sty <- ofold (fun st ix =>
        let '(tot, acc) := st in
        let ix0 := ix * ny * nz in let ix1 := (ix + 1) * ny * nz in
        do tot' <- sortRange vy (istart ntot nproc ix0) (ien (ix1 - 1) + 1) tot;
        let npy := (ien (ix1 - 1)%nat - ist ix0 + 1)%Z in
        do yb <- omap (fun iy =>
          let iy0 := ix0 + iy * nz in let iy1 := ix0 + (iy + 1) * nz in
          boundary vy root npy tot' (ist ix0) (ist iy0 - ist ix0) (ien (iy1 - 1)%nat - ist ix0)) (seq 0 ny);
        Done (tot', acc ++ [yb])) (seq 0 nx) (tot, []);
    let '(tot, yb) := sty in
    do stz <- ofold (fun st ixy =>
        let '(tot, acc) := st in
        let '(ix, iy) := ixy in
        let ix0 := ix * ny * nz in
        let iy0 := ix0 + iy * nz in let iy1 := ix0 + (iy + 1) * nz in
        do tot' <- sortRange vz (istart ntot nproc iy0) (ien (iy1 - 1) + 1) tot;
        let npz := (ien (iy1 - 1)%nat - ist iy0 + 1)%Z in
        do zb <- omap (fun iz =>
          let iz0 := iy0 + iz in
          boundary vz root npz tot' (ist iy0) (ist iz0 - ist iy0) (ien iz0 - ist iy0)) (seq 0 nz);
        Done (tot', acc ++ [zb])) (list_prod (seq 0 nx) (seq 0 ny)) (tot, []);
    let '(_, zb) := stz in
    omap (fun i =>
      let ix := i / (ny * nz) in let iy := i / nz mod ny in let iz := i mod nz in
      do bx <- mread xb ix;
      do by1 <- mread yb ix; do by' <- mread by1 iy;
      do bz1 <- mread zb (ix * ny + iy); do bz <- mread bz1 iz;
      Done (Ort (Vec (fst bx) (fst by') (fst bz)) (Vec (snd bx) (snd by') (snd bz)))) (seq 0 nproc).

  (** FDPS/domain_info.hpp:878-893: first call copies, later calls smooth. *)
  Definition emaVec (t o : vec C) : vec C := Vec (ema (vx t) (vx o)) (ema (vy t) (vy o)) (ema (vz t) (vz o)).
  (** FDPS/domain_info.hpp:886-893 *)
  Definition emaOrt (t o : ort C) : ort C := Ort (emaVec (olow t) (olow o)) (emaVec (ohigh t) (ohigh o)).

  (** FDPS/domain_info.hpp:734-910, decomposeDomain: the allgathered samples of all
      ranks are concatenated (lines 757-775), rank 0 decomposes, all ranks receive the
      domains (line 897).  [old] is None until the first call. *)
  Definition decomposeDomain (root : ort C) (nx ny nz nproc : nat) (old : option (list (ort C)))
    (samples : list (list (vec C))) : outcome (list (ort C)) :=
    do temp <- decompose root nx ny nz nproc (concat samples);
    match old with
    | None => Done temp
    | Some o => omap (fun i => do t <- mread temp i; do p <- mread o i; Done (emaOrt t p)) (seq 0 nproc)
    end.

  (** A history of decomposition calls with the same root domain (calls of FDPS/domain_info.hpp:734-910) *)
  Fixpoint decomposeHistory (root : ort C) (nx ny nz nproc : nat) (old : option (list (ort C)))
    (calls : list (list (list (vec C)))) : outcome (option (list (ort C))) :=
    match calls with
    | [] => Done old
    | c :: r => do d <- decomposeDomain root nx ny nz nproc old c;
                decomposeHistory root nx ny nz nproc (Some d) r
    end.
End Decompose.
