(** C80: the text of the VTK files. *)
From Coq Require Import String List Arith NArith ZArith Reals Bool Ascii Permutation.
From Flocq Require Import Core BinarySingleNaN.
From Verif Require Import Outcome F64 Arith ParticleModel ConModel VecModel SylModel SylFloat RunModel VtpModel XmlModel XmlSpec XmlBytes XmlMain XmlFiles.
Import ListNotations.
Local Open Scope list_scope.
Local Notation length := List.length.
Local Notation concat := List.concat.

(** A file with arrays that have proper names, values of their types and less than 4 GiB is an XML document, and reading it gives the arrays back bit by bit. *)
Theorem C80_file : forall p, storable (p_points p) /\ Forall storable (p_lines p) /\ Forall storable (p_point p) /\ Forall storable (p_cell p) ->
  exists t, fileVTP p = Done t /\ readVTP t = Some p.
Proof. exact file_ok. Qed.
Print Assumptions C80_file.

(** The files of objects and of constraints are such files, whatever the doubles in them (also infinite or NaN). *)
Theorem C80_objects : forall order (ss : list (sylinder F_arith)), Permutation order (seq 0 (length ss)) ->
  Forall (fun s => (- 2 ^ 31 <= s_gid s < 2 ^ 31)%Z /\ (- 2 ^ 31 <= s_group s < 2 ^ 31)%Z) ss -> (48 * N.of_nat (length ss) < 2 ^ 32)%N ->
  exists p t, writeVTP (N := F_arith) to32 order ss = Done p /\ fileVTP p = Done t /\ readVTP t = Some p.
Proof. exact objects_text. Qed.
Print Assumptions C80_objects.
Theorem C80_constraints : forall o1 o2 (p : pool F_arith), Permutation o1 (seq 0 (length (concat p))) -> Permutation o2 (seq 0 (length p)) ->
  Forall (fun b => (- 2 ^ 31 <= gidI b < 2 ^ 31)%Z /\ (- 2 ^ 31 <= gidJ b < 2 ^ 31)%Z /\ (- 2 ^ 31 <= globalIndexI b < 2 ^ 31)%Z /\ (- 2 ^ 31 <= globalIndexJ b < 2 ^ 31)%Z) (concat p) ->
  (48 * N.of_nat (length (concat p)) < 2 ^ 32)%N ->
  exists q t, writeConVTP (N := F_arith) to32 o1 o2 p = Done q /\ fileVTP q = Done t /\ readVTP t = Some q.
Proof. exact blocks_text. Qed.
Print Assumptions C80_constraints.

(** The parallel headers, which name the files of all ranks. *)
Theorem C80_header : forall snapID nProcs, readParallel "PolyData" (filePVTP (writePVTP (dec (Z.of_nat snapID)) nProcs)) = Some (writePVTP (dec (Z.of_nat snapID)) nProcs).
Proof. exact header_text. Qed.
Print Assumptions C80_header.
Theorem C80_con_header : forall prefix snapID nProcs, quotable prefix ->
  readParallel "PolyData" (filePVTP (writeConPVTP prefix (dec (Z.of_nat snapID)) nProcs)) = Some (writeConPVTP prefix (dec (Z.of_nat snapID)) nProcs).
Proof. exact con_header_text. Qed.
Print Assumptions C80_con_header.
(** All four functions that write parallel headers. *)
Theorem C80_parallel : forall kind, kind = "PolyData"%string \/ kind = "UnstructuredGrid"%string -> forall pts cells pieces,
  Forall (fun f => quotable (h_name f)) pts -> Forall (fun f => quotable (h_name f)) cells -> Forall quotable pieces ->
  readParallel kind (writeParallel (txt kind) pts cells pieces) = Some (Header pts cells (3%nat, Float64) pieces).
Proof. exact parallel_ok. Qed.
Print Assumptions C80_parallel.
Theorem C80_parallel_points : forall kind, kind = "PolyData"%string \/ kind = "UnstructuredGrid"%string -> forall pts pieces,
  Forall (fun f => quotable (h_name f)) pts -> Forall quotable pieces ->
  readParallel kind (writeParallelPoint (txt kind) pts pieces) = Some (Header pts [] (3%nat, Float64) pieces).
Proof. exact parallelPoint_ok. Qed.
Print Assumptions C80_parallel_points.

(** Restart in doubles from the texts of all ranks: the ids are exact, sizes and velocities are those rounded to float, and every coordinate of the
    position is precise to 2^-51 of the coordinate and of half of the object. *)
Theorem C80_restart : forall eps perp fresh cont order orders (sss : list (list (sylinder F_arith))), sss <> [] ->
  Forall2 (fun o ss => Permutation o (seq 0 (length ss))) orders sss -> Permutation order (seq 0 (length (concat sss))) ->
  Forall (Forall (fun s => (- 2 ^ 31 <= s_gid s < 2 ^ 31)%Z /\ (- 2 ^ 31 <= s_group s < 2 ^ 31)%Z)) sss -> Forall (fun ss => (48 * N.of_nat (length ss) < 2 ^ 32)%N) sss ->
  exists texts ps objs,
    Forall2 (fun oss t => (do p <- writeVTP (N := F_arith) to32 (fst oss) (snd oss); fileVTP p) = Done t) (combine orders sss) texts /\ all readVTP texts = Some ps /\
    setInitialFromVTKFile (N := F_arith) eps perp fresh order 0 ps cont = Done objs /\ length objs = length (concat sss) /\
    forall i s, nth_error (concat sss) i = Some s -> exists t, nth_error objs i = Some t /\ restoredF s t.
Proof. exact restart_text. Qed.
Print Assumptions C80_restart.

(** What is rounded to float keeps 24 bits; numbers of 24 bits are kept as they are; a second snapshot loses nothing more. *)
Theorem C80_float : forall x : f64, is_finite x = true -> (Rabs (B2R x) <= IZR (2 ^ 24 - 1) * bpow radix2 104)%R ->
  is_finite (to32 x) = true /\ (Rabs (B2R (to32 x) - B2R x) <= bpow radix2 (-24) * Rabs (B2R x) + bpow radix2 (-150))%R.
Proof. exact to32_error. Qed.
Print Assumptions C80_float.
Theorem C80_float_exact : forall x : f64, is_finite x = true -> generic_format radix2 (FLT_exp (-149) 24) (B2R x) -> (Rabs (B2R x) < bpow radix2 128)%R -> to32 x = x.
Proof. exact to32_exact. Qed.
Print Assumptions C80_float_exact.
Theorem C80_float_twice : forall x, to32 (to32 x) = to32 x.
Proof. exact to32_twice. Qed.
Print Assumptions C80_float_twice.

(** ** Limits *)
(** a finite force that is too large for a float becomes infinite in the file *)
Theorem C80_large_refuted : exists x : f64, is_finite x = true /\ is_finite (to32 x) = false.
Proof. exists (f_lit 1 128). vm_compute. split; reflexivity. Qed.
Print Assumptions C80_large_refuted.
(** a small finite one becomes zero *)
Theorem C80_small_refuted : exists x : f64, feq x (f_ofZ 0) = false /\ to32 x = f_ofZ 0.
Proof. exists (f_lit 1 (-150)). vm_compute. split; reflexivity. Qed.
Print Assumptions C80_small_refuted.
(** names are not escaped *)
Theorem C80_names_refuted : exists f : fieldVTU, readParallel "PolyData" (writeParallel (txt "PolyData") [f] [] []) = None.
Proof. exists (FieldVTU 1 Float32 (str "a""b")). vm_compute. reflexivity. Qed.
Print Assumptions C80_names_refuted.

(** ** Concrete cases *)
Example C80_example_array : option_map string_of_list_ascii
    (match writeDataArrayBase64 (DArray (N := F_arith) (str "gid") Int32 1 [VI 7%Z; VI (-1)%Z]) with Done t => Some t | _ => None end) =
  Some ("<DataArray Name=""gid"" type=""Int32"" NumberOfComponents=""1"" format=""binary"">" ++ String nl "CAAAAA==BwAAAP////8=" ++ String nl "</DataArray>" ++ String nl "")%string.
Proof. vm_compute. reflexivity. Qed.
Definition lines (l : list string) : string := fold_right (fun a b => append a (String nl b)) EmptyString l.
Example C80_example_header : string_of_list_ascii (writeParallel (txt "UnstructuredGrid") [FieldVTU 3 Float64 (str "vel")] [FieldVTU 1 Int32 (str "gid")] [str "r0.vtu"; str "r1.vtu"]) =
  lines ["<?xml version=""1.0""?>"; "<VTKFile type=""PUnstructuredGrid"" version=""1.0"" byte_order=""LittleEndian"" header_type=""UInt32""> "; "<PUnstructuredGrid GhostLevel=""0""> ";
    "<PPointData Scalars=""scalars"">"; "<PDataArray Name=""vel"" type=""Float64"" NumberOfComponents=""3"" format=""binary""/>"; "</PPointData>";
    "<PCellData Scalars=""scalars"">"; "<PDataArray Name=""gid"" type=""Int32"" NumberOfComponents=""1"" format=""binary""/>"; "</PCellData>";
    "<PPoints> "; "<PDataArray NumberOfComponents=""3"" type=""Float64"" format=""binary""/>"; "</PPoints> ";
    "<Piece Source=""r0.vtu""/>"; "<Piece Source=""r1.vtu""/>"; "</PUnstructuredGrid>"; "</VTKFile>"]%string.
Proof. vm_compute. reflexivity. Qed.
Definition a1 : sylinder F_arith := object 7 (f_lit 1 (-1)) (f_ofZ 4) (v3 1 2 3) upright.
Definition a2 : sylinder F_arith := object (-9) (f_ofZ 1) (f_ofZ 2) (v3 0 0 0) (Quat (N := F_arith) (f_ofZ 1) (f_ofZ 0) (f_ofZ 0) (f_ofZ 0)).
(** a file of two objects, written and read; and the start of its text *)
Example C80_example_file :
  match writeVTP (N := F_arith) to32 [1; 0]%nat [a1; a2] with
  | Done p => match fileVTP p with
      | Done t => match readVTP t with
          | Some q => match map (fun a => a_data a) (firstn 2 (p_cell q)), a_data (p_points q) with
              | [[VI g; VI g']; _], VR x :: _ => Z.eqb g 7 && Z.eqb g' (-9) && feq x (f_ofZ 1)
              | _, _ => false end && prefix (lines ["<?xml version=""1.0""?>";
                  "<VTKFile type=""PolyData"" version=""1.0"" byte_order=""LittleEndian""  header_type=""UInt32"">"; "<PolyData>"; "<Piece NumberOfPoints=""4"" NumberOfLines=""2"">"]%string) (string_of_list_ascii t)
          | None => false end
      | _ => false end
  | _ => false end = true.
Proof. vm_compute. reflexivity. Qed.
