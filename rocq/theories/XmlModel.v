(** The text of the VTK files: Util/IOHelper.hpp, Sylinder/Sylinder.hpp writeVTP/writePVTP and
    Constraint/ConstraintCollector.cpp writeVTP/writePVTP, character by character.
    The contents of the arrays are those of VtpModel; a file stream is the text written to it. *)
From Coq Require Import String List Arith NArith ZArith Bool Ascii.
From Flocq Require Import Core BinarySingleNaN Binary Bits.
From Verif Require Import Outcome ListUtil F64 Arith RunModel VtpModel Base64Model.
Import ListNotations.
Local Open Scope list_scope.

Definition f32 := BinarySingleNaN.binary_float 24 128. (* float, Sylinder/Sylinder.hpp:301-333 *)
Global Instance Hprec32 : Prec_gt_0 24. Proof. reflexivity. Qed. (* float, Sylinder/Sylinder.hpp:301-333 *)
Global Instance Hemax32 : Prec_lt_emax 24 128. Proof. reflexivity. Qed. (* float, Sylinder/Sylinder.hpp:301-333 *)

(** conversion of double to float, to nearest (the assignments of Sylinder/Sylinder.hpp:361-392) *)
Definition narrow (x : f64) : f32 :=
  match x with
  | BinarySingleNaN.B754_zero s => BinarySingleNaN.B754_zero s
  | BinarySingleNaN.B754_infinity s => BinarySingleNaN.B754_infinity s
  | BinarySingleNaN.B754_nan => BinarySingleNaN.B754_nan
  | BinarySingleNaN.B754_finite s m e _ => BinarySingleNaN.binary_normalize 24 128 _ _ mode_NE (cond_Zopp s (Zpos m)) e s
  end.
(** conversion of float to double (GetComponent, Sylinder/SylinderSystem.cpp:455-468) *)
Definition widen (x : f32) : f64 :=
  match x with
  | BinarySingleNaN.B754_zero s => BinarySingleNaN.B754_zero s
  | BinarySingleNaN.B754_infinity s => BinarySingleNaN.B754_infinity s
  | BinarySingleNaN.B754_nan => BinarySingleNaN.B754_nan
  | BinarySingleNaN.B754_finite s m e _ => BinarySingleNaN.binary_normalize 53 1024 _ _ mode_NE (cond_Zopp s (Zpos m)) e s
  end.
(** what a number is after it was stored in an array of floats (Sylinder/Sylinder.hpp:361-392) *)
Definition to32 (x : f64) : f64 := widen (narrow x).

(** the n bytes of a number in memory, lowest first (the reinterpret_cast of Util/Base64.hpp:266, little-endian) *)
Fixpoint leBytes (n : nat) (z : Z) : list N :=
  match n with O => [] | S n => Z.to_N (z mod 256) :: leBytes n (z / 256) end.
(** bits of a float and of a double; all NaN are stored as one quiet NaN (vectors of Sylinder/Sylinder.hpp:289-333) *)
Definition bits32 (x : f32) : Z := bits_of_b32 (BSN2B 24 128 default_nan_pl32 x).
Definition bits64 (x : f64) : Z := bits_of_b64 (BSN2B 53 1024 default_nan_pl64 x). (* the vector pos, Sylinder/Sylinder.hpp:289 *)

(** sizeof of the element types (Util/Base64.hpp:262) *)
Definition sizeOf (t : vtype) : nat := match t with UInt8 => 1 | Int32 => 4 | Float32 => 4 | Float64 => 8 end.
(** one element of a vector in memory (Sylinder/Sylinder.hpp:289-393): integers of the integer types, numbers of the others *)
Definition elementBytes (t : vtype) (v : value F_arith) : list N :=
  match v with
  | VI z => match t with
            | UInt8 => leBytes 1 z | Int32 => leBytes 4 z
            | Float32 => leBytes 4 (bits32 (narrow (f_ofZ z))) | Float64 => leBytes 8 (bits64 (f_ofZ z))
            end
  | VR x => match t with
            | UInt8 => leBytes 1 (f_trunc x) | Int32 => leBytes 4 (f_trunc x)
            | Float32 => leBytes 4 (bits32 (narrow x)) | Float64 => leBytes 8 (bits64 x)
            end
  end.

(** Util/IOHelper.hpp:44-56, getTypeName, and the names of Util/IOHelper.hpp:276-286 *)
Definition typeName (t : vtype) : text :=
  match t with UInt8 => txt "UInt8" | Int32 => txt "Int32" | Float32 => txt "Float32" | Float64 => txt "Float64" end.

(** Util/IOHelper.hpp:274-294, writeDataArrayBase64 *)
Definition writeDataArrayBase64 (a : darray F_arith) : outcome text :=
  let mem := concat (map (elementBytes (a_type a)) (a_data a)) in
  do contentB64 <- getBase64FromVector (N.of_nat (List.length (a_data a))) (N.of_nat (sizeOf (a_type a))) mem [];
  Done (txt "<DataArray Name=""" ++ a_name a ++ txt """ type=""" ++ typeName (a_type a) ++ txt """ NumberOfComponents=""" ++ dec (Z.of_nat (a_comp a))
        ++ txt """ format=""binary"">" ++ [nl] ++ map ascii_of_N contentB64 ++ [nl] ++ txt "</DataArray>" ++ [nl]).

(** Util/IOHelper.hpp:81-86 writeHeadVTU and 181-186 writeHeadVTP: [kind] is UnstructuredGrid or PolyData *)
Definition writeHead (kind : text) : text :=
  txt "<?xml version=""1.0""?>" ++ [nl] ++ txt "<VTKFile type=""" ++ kind ++ txt """ version=""1.0"" byte_order=""LittleEndian""  header_type=""UInt32"">" ++ [nl]
  ++ txt "<" ++ kind ++ txt ">" ++ [nl].
(** Util/IOHelper.hpp:88-91 writeTailVTU and 188-191 writeTailVTP *)
Definition writeTail (kind : text) : text := txt "</" ++ kind ++ txt ">" ++ [nl] ++ txt "</VTKFile>" ++ [nl].

(** Sylinder/Sylinder.hpp:401-448 and Constraint/ConstraintCollector.cpp:193-220, the text of a piece *)
Definition writePiece (p : piece F_arith) : outcome text :=
  do points <- writeDataArrayBase64 (p_points p);
  do lines <- omap writeDataArrayBase64 (p_lines p);
  do pointData <- omap writeDataArrayBase64 (p_point p);
  do cellData <- omap writeDataArrayBase64 (p_cell p);
  Done (txt "<Piece NumberOfPoints=""" ++ dec (Z.of_nat (n_points p)) ++ txt """ NumberOfLines=""" ++ dec (Z.of_nat (n_lines p)) ++ txt """>" ++ [nl]
        ++ txt "<Points>" ++ [nl] ++ points ++ txt "</Points>" ++ [nl]
        ++ txt "<Lines>" ++ [nl] ++ concat lines ++ txt "</Lines>" ++ [nl]
        ++ txt "<PointData Scalars=""scalars"">" ++ [nl] ++ concat pointData ++ txt "</PointData>" ++ [nl]
        ++ txt "<CellData Scalars=""scalars"">" ++ [nl] ++ concat cellData ++ txt "</CellData>" ++ [nl]
        ++ txt "</Piece>" ++ [nl]).
(** Sylinder/Sylinder.hpp:399-451 and Constraint/ConstraintCollector.cpp:190-223, the whole file *)
Definition fileVTP (p : piece F_arith) : outcome text :=
  do t <- writePiece p; Done (writeHead (txt "PolyData") ++ t ++ writeTail (txt "PolyData")).

(** one array of a parallel header (Util/IOHelper.hpp:105-112, 141-148, 207-211, 238-242) *)
Definition pDataArray (f : fieldVTU) : text :=
  txt "<PDataArray Name=""" ++ h_name f ++ txt """ type=""" ++ typeName (h_type f) ++ txt """ NumberOfComponents=""" ++ dec (Z.of_nat (h_comp f))
  ++ txt """ format=""binary""/>" ++ [nl].
(** the lines before the arrays (Util/IOHelper.hpp:98-101, 135-138, 199-202, 232-235) *)
Definition pHead (kind : text) : text :=
  txt "<?xml version=""1.0""?>" ++ [nl] ++ txt "<VTKFile type=""P" ++ kind ++ txt """ version=""1.0"" byte_order=""LittleEndian"" header_type=""UInt32""> " ++ [nl]
  ++ txt "<P" ++ kind ++ txt " GhostLevel=""0""> " ++ [nl].
(** the lines after the arrays (Util/IOHelper.hpp:116-126, 164-174, 214-223, 253-262) *)
Definition pTail (kind : text) (pieces : list text) : text :=
  txt "<PPoints> " ++ [nl] ++ txt "<PDataArray NumberOfComponents=""3"" type=""Float64"" format=""binary""/>" ++ [nl] ++ txt "</PPoints> " ++ [nl]
  ++ concat (map (fun piece => txt "<Piece Source=""" ++ piece ++ txt """/>" ++ [nl]) pieces)
  ++ txt "</P" ++ kind ++ txt ">" ++ [nl] ++ txt "</VTKFile>" ++ [nl].
(** Util/IOHelper.hpp:129-175 writePVTUFile and 226-263 writePVTPFile, with point data and cell data *)
Definition writeParallel (kind : text) (pointFields cellFields : list fieldVTU) (pieces : list text) : text :=
  pHead kind ++ txt "<PPointData Scalars=""scalars"">" ++ [nl] ++ concat (map pDataArray pointFields) ++ txt "</PPointData>" ++ [nl]
  ++ txt "<PCellData Scalars=""scalars"">" ++ [nl] ++ concat (map pDataArray cellFields) ++ txt "</PCellData>" ++ [nl] ++ pTail kind pieces.
(** Util/IOHelper.hpp:93-127 writePVTUFile and 193-224 writePVTPFile, with point data only *)
Definition writeParallelPoint (kind : text) (pointFields : list fieldVTU) (pieces : list text) : text :=
  pHead kind ++ txt "<PPointData Scalars=""scalars"">" ++ [nl] ++ concat (map pDataArray pointFields) ++ txt "</PPointData>" ++ [nl] ++ pTail kind pieces.
(** Sylinder/Sylinder.hpp:218-263 and Constraint/ConstraintCollector.cpp:76-101, the .pvtp file *)
Definition filePVTP (h : header) : text := writeParallel (txt "PolyData") (h_point h) (h_cell h) (h_pieces h).
