(** The VTK snapshot files: Sylinder/Sylinder.hpp writeVTP/writePVTP, Constraint/ConstraintCollector.cpp writeVTP/writePVTP,
    Util/IOHelper.hpp, and the restart reader setInitialFromVTKFile of Sylinder/SylinderSystem.cpp.
    A file is its list of arrays; the base64 text of an array is the subject of Base64Model. *)
From Coq Require Import List Arith ZArith Bool Ascii String.
From Verif Require Import Outcome ListUtil Arith ParticleModel ConModel VecModel SylModel StepModel RunModel.
Import ListNotations.
Local Notation length := List.length.
Local Notation concat := List.concat.
Local Open Scope nat_scope.

(** Util/IOHelper.hpp:34, IOTYPE *)
Inductive vtype := UInt8 | Int32 | Float32 | Float64.
(** Util/IOHelper.hpp:36-42, FieldVTU: components, type, name *)
Record fieldVTU := FieldVTU { h_comp : nat; h_type : vtype; h_name : text }.
(** Util/IOHelper.hpp:230-263: what the parallel header lists *)
Record header := Header { h_point : list fieldVTU; h_cell : list fieldVTU; h_pos : nat * vtype; h_pieces : list text }.

(** equality of std::string (array lookup by name, Sylinder/SylinderSystem.cpp:424-441) *)
Fixpoint teq (a b : text) : bool :=
  match a, b with
  | [], [] => true
  | x :: a, y :: b => if ascii_dec x y then teq a b else false
  | _, _ => false
  end.

Section Vtp.
  Context {N : arith}.
  Local Open Scope arith_scope.

  (** an entry of an array: integer types, floating types (the vectors of Sylinder/Sylinder.hpp:289-333) *)
  Inductive value := VI (z : Z) | VR (x : N).
  (** Util/IOHelper.hpp:274-294, writeDataArrayBase64: name, type, components, contents *)
  Record darray := DArray { a_name : text; a_type : vtype; a_comp : nat; a_data : list value }.
  (** Sylinder/Sylinder.hpp:399-453: one .vtp file *)
  Record piece := Piece { n_points : nat; n_lines : nat; p_points : darray; p_lines : list darray; p_point : list darray; p_cell : list darray }.

  (** what the loop stores in one array: name, type, components, entries per item, entries of item i (Sylinder/Sylinder.hpp:289-393) *)
  Record field (X : Type) := Field { f_name : text; f_type : vtype; f_comp : nat; f_per : nat; f_get : nat -> X -> list value }.
  Arguments Field {X}. Arguments f_name {X}. Arguments f_type {X}. Arguments f_comp {X}. Arguments f_per {X}. Arguments f_get {X}.

  (** one array of the parallel loop Sylinder/Sylinder.hpp:336-393; the arrays are disjoint, so the loop is
      modelled array by array; the vector starts as zeros *)
  Definition fillArray {X} (order : list nat) (f : field X) (xs : list X) : outcome darray :=
    do d <- ofold (fun a i => do x <- mread xs i; splice a (f_per f * i) (f_get f i x)) order (repeat (VI 0) (f_per f * length xs));
    Done (DArray (f_name f) (f_type f) (f_comp f) d).

  (** the loop over the queues, Constraint/ConstraintCollector.cpp:142-184 *)
  Definition fillPool (order : list nat) (f : field (block N)) (p : pool N) : outcome darray :=
    let idx := snd (buildConIndex p) in
    do d <- ofold (fun a q =>
        do que <- mread p q;
        do k <- mread idx q;
        ofold (fun a c => do b <- mread que c; splice a (f_per f * (k + c)) (f_get f (k + c) b)) (seq 0 (length que)) a)
      order (repeat (VI 0) (f_per f * last idx 0%nat));
    Done (DArray (f_name f) (f_type f) (f_comp f) d).

  (** three doubles (e.g. Sylinder/Sylinder.hpp:342-344) *)
  Definition vals (v : vec N) : list value := [VR (vx v); VR (vy v); VR (vz v)].
  (** three doubles converted to float (e.g. Sylinder/Sylinder.hpp:368-392); [f32] is the conversion *)
  Definition vals32 (f32 : N -> N) (v : vec N) : list value := [VR (f32 (vx v)); VR (f32 (vy v)); VR (f32 (vz v))].

  (** Sylinder/Sylinder.hpp:339-347, the two ends *)
  Definition endMinus (s : sylinder N) : vec N := vsub (spos s) (vscale (slength s * a_lit 1 (-1)) (axis s)).
  Definition endPlus (s : sylinder N) : vec N := vadd (spos s) (vscale (slength s * a_lit 1 (-1)) (axis s)). (* Sylinder/Sylinder.hpp:342 *)

  (** Sylinder/Sylinder.hpp:339-347, 404 *)
  Definition posField : field (sylinder N) := Field (txt "position") Float64 3 6 (fun _ s => vals (endMinus s) ++ vals (endPlus s)).
  (** Sylinder/Sylinder.hpp:352-354, 408-409; Constraint/ConstraintCollector.cpp:134-140 *)
  Definition lineFields {X} : list (field X) :=
    [Field (txt "connectivity") Int32 1 2 (fun i _ => [VI (Z.of_nat (2 * i)); VI (Z.of_nat (2 * i + 1))]);
     Field (txt "offsets") Int32 1 1 (fun i _ => [VI (Z.of_nat (2 * i + 2))])].
  (** Sylinder/Sylinder.hpp:348-349, 413 *)
  Definition pointFields : list (field (sylinder N)) := [Field (txt "endLabel") UInt8 1 2 (fun _ _ => [VI 0; VI 1])].
  (** a three-component float array (Sylinder/Sylinder.hpp:368-392, 425-447) *)
  Definition vecField (f32 : N -> N) (name : text) (g : sylinder N -> vec N) : field (sylinder N) :=
    Field name Float32 3 3 (fun _ s => vals32 f32 (g s)).
  (** a one-component float array (Sylinder/Sylinder.hpp:361-364, 420-423) *)
  Definition numField (f32 : N -> N) (name : text) (g : sylinder N -> N) : field (sylinder N) :=
    Field name Float32 1 1 (fun _ s => [VR (f32 (g s))]).
  (** Sylinder/Sylinder.hpp:357-392, 417-447 *)
  Definition cellFields (f32 : N -> N) : list (field (sylinder N)) :=
    [Field (txt "gid") Int32 1 1 (fun _ s => [VI (s_gid s)]);
     Field (txt "group") Int32 1 1 (fun _ s => [VI (s_group s)]);
     Field (txt "isImmovable") UInt8 1 1 (fun _ s => [VI (if immovable s then 1 else 0)]);
     numField f32 (txt "radius") (@radius N);
     numField f32 (txt "radiusCollision") (@radiusCol N);
     numField f32 (txt "length") (@slength N);
     numField f32 (txt "lengthCollision") (@lengthCol N);
     vecField f32 (txt "vel") (fun s => vel (mot s));
     vecField f32 (txt "omega") (fun s => omega (mot s));
     vecField f32 (txt "velCollision") (fun s => velCol (mot s));
     vecField f32 (txt "omegaCollision") (fun s => omegaCol (mot s));
     vecField f32 (txt "velBilateral") (fun s => velBi (mot s));
     vecField f32 (txt "omegaBilateral") (fun s => omegaBi (mot s));
     vecField f32 (txt "velNonBrown") (fun s => velNonB (mot s));
     vecField f32 (txt "omegaNonBrown") (fun s => omegaNonB (mot s));
     vecField f32 (txt "force") (fun s => force (mot s));
     vecField f32 (txt "torque") (fun s => torque (mot s));
     vecField f32 (txt "forceCollision") (fun s => forceCol (mot s));
     vecField f32 (txt "torqueCollision") (fun s => torqueCol (mot s));
     vecField f32 (txt "forceBilateral") (fun s => forceBi (mot s));
     vecField f32 (txt "torqueBilateral") (fun s => torqueBi (mot s));
     vecField f32 (txt "forceNonBrown") (fun s => forceNonB (mot s));
     vecField f32 (txt "torqueNonBrown") (fun s => torqueNonB (mot s));
     vecField f32 (txt "velBrown") (fun s => velBrown (mot s));
     vecField f32 (txt "omegaBrown") (fun s => omegaBrown (mot s));
     vecField f32 (txt "xnorm") (fun s => qrot (orient s) (Vec (a_Z 1) (a_Z 0) (a_Z 0)));
     vecField f32 (txt "znorm") (fun s => qrot (orient s) (Vec (a_Z 0) (a_Z 0) (a_Z 1)))].

  (** Sylinder/Sylinder.hpp:282-453, the contents of the file *)
  Definition writeVTP (f32 : N -> N) (order : list nat) (ss : list (sylinder N)) : outcome piece :=
    do pos <- fillArray order posField ss;
    do lines <- omap (fun f => fillArray order f ss) lineFields;
    do pt <- omap (fun f => fillArray order f ss) pointFields;
    do cell <- omap (fun f => fillArray order f ss) (cellFields f32);
    Done (Piece (length ss * 2) (length ss) pos lines pt cell).

  (** Constraint/ConstraintCollector.cpp:150-182, 204-217, the point arrays and the cell arrays of a block *)
  Definition conPosField : field (block N) := Field (txt "position") Float64 3 6 (fun _ b => vals (labI b) ++ vals (labJ b)).
  Definition conPointFields (f32 : N -> N) : list (field (block N)) := (* Constraint/ConstraintCollector.cpp:157-173, 205-208 *)
    [Field (txt "gid") Int32 1 2 (fun _ b => [VI (gidI b); VI (gidJ b)]);
     Field (txt "globalIndex") Int32 1 2 (fun _ b => [VI (globalIndexI b); VI (globalIndexJ b)]);
     Field (txt "posIJ") Float32 3 6 (fun _ b => vals32 f32 (posI b) ++ vals32 f32 (posJ b));
     Field (txt "normIJ") Float32 3 6 (fun _ b => vals32 f32 (normI b) ++ vals32 f32 (normJ b))].
  Definition conCellFields (f32 : N -> N) : list (field (block N)) := (* Constraint/ConstraintCollector.cpp:174-182, 212-217 *)
    [Field (txt "oneSide") Int32 1 1 (fun _ b => [VI (if oneSide b then 1 else 0)]);
     Field (txt "bilateral") Int32 1 1 (fun _ b => [VI (if bilateral b then 1 else 0)]);
     Field (txt "delta0") Float32 1 1 (fun _ b => [VR (f32 (delta0 b))]);
     Field (txt "gamma") Float32 1 1 (fun _ b => [VR (f32 (gamma b))]);
     Field (txt "kappa") Float32 1 1 (fun _ b => [VR (f32 (kappa b))]);
     Field (txt "Stress") Float32 9 9 (fun _ b => map (fun kk => VR (f32 (nth kk (stress b) (a_Z 0)))) (seq 0 9))].

  (** Constraint/ConstraintCollector.cpp:103-218; [o1] schedules the connectivity loop, [o2] the loop over the queues *)
  Definition writeConVTP (f32 : N -> N) (o1 o2 : list nat) (p : pool N) : outcome piece :=
    let n := last (snd (buildConIndex p)) 0%nat in
    do lines <- omap (fun f => fillArray o1 f (repeat tt n)) lineFields;
    do pos <- fillPool o2 conPosField p;
    do pt <- omap (fun f => fillPool o2 f p) (conPointFields f32);
    do cell <- omap (fun f => fillPool o2 f p) (conCellFields f32);
    Done (Piece (n * 2) n pos lines pt cell).

  (** the array with this name (vtkFieldData::GetArray, Sylinder/SylinderSystem.cpp:424-441) *)
  Fixpoint lookup (name : text) (l : list darray) : option darray :=
    match l with [] => None | a :: l => if teq (a_name a) name then Some a else lookup name l end.

  (** vtkXMLPPolyDataReader (Sylinder/SylinderSystem.cpp:414-419): a cell array of the merged data, piece after piece *)
  Definition merged (ps : list piece) (name : text) : option darray :=
    match ps with
    | [] => None
    | p :: _ =>
        match lookup name (p_cell p) with
        | None => None
        | Some a => Some (DArray name (a_type a) (a_comp a)
                            (concat (map (fun q => match lookup name (p_cell q) with Some b => a_data b | None => [] end) ps)))
        end
    end.

  (** GetComponent(i, j) (Sylinder/SylinderSystem.cpp:452-468); a missing array is a null pointer *)
  Definition component (a : option darray) (i j : nat) : outcome N :=
    match a with
    | None => UB
    | Some a => match nth_error (a_data a) (a_comp a * i + j) with Some (VR x) => Done x | Some (VI z) => Done (a_Z z) | None => UB end
    end.
  (** the same for an array down-cast to an integer type (Sylinder/SylinderSystem.cpp:424-430); another type is a null pointer *)
  Definition intComponent (t : vtype) (a : option darray) (i : nat) : outcome Z :=
    match a with
    | None => UB
    | Some a => match t, a_type a with
                | Int32, Int32 | UInt8, UInt8 => match nth_error (a_data a) (a_comp a * i) with Some (VI z) => Done z | _ => UB end
                | _, _ => UB
                end
    end.
  (** vtkPoints::GetPoint (Sylinder/SylinderSystem.cpp:449-450) *)
  Definition getPoint (d : list value) (i : nat) : outcome (vec N) :=
    match nth_error d (3 * i), nth_error d (3 * i + 1), nth_error d (3 * i + 2) with
    | Some (VR x), Some (VR y), Some (VR z) => Done (Vec x y z)
    | _, _, _ => UB
    end.
  (** three components (Sylinder/SylinderSystem.cpp:460-468) *)
  Definition component3 (a : option darray) (i : nat) : outcome (vec N) :=
    do x <- component a i 0; do y <- component a i 1; do z <- component a i 2; Done (Vec x y z).

  (** Quaternion::setFromTwoVectors (Eigen/src/Geometry/Quaternion.h) including nearly opposite vectors: [eps] is the
      precision constant, [perp] the third right singular vector of the two rows *)
  Definition fromTwoVectorsAny (eps : N) (perp : vec N -> vec N -> vec N) (a b : vec N) : quat N :=
    let v0 := vnormalized a in let v1 := vnormalized b in
    let c := vdot v1 v0 in
    if c <? a_Z (-1) + eps
    then let c := if c <? a_Z (-1) then a_Z (-1) else c in
         let ax := perp v0 v1 in
         let w2 := (a_Z 1 + c) * a_lit 1 (-1) in
         let sn := a_sqrt (a_Z 1 - w2) in
         Quat (vx ax * sn) (vy ax * sn) (vz ax * sn) (a_sqrt w2)
    else fromTwoVectors a b.

  (** Sylinder/SylinderSystem.cpp:446-469, one object; the other members keep what the container held *)
  Definition readObject (eps : N) (perp : vec N -> vec N -> vec N) (ps : list piece) (i : nat) (s : sylinder N) : outcome (sylinder N) :=
    let posData := concat (map (fun p => a_data (p_points p)) ps) in
    let half := a_lit 1 (-1) in
    do l <- getPoint posData (i * 2);
    do r <- getPoint posData (i * 2 + 1);
    do gid <- intComponent Int32 (merged ps (txt "gid")) i;
    do grp <- intComponent Int32 (merged ps (txt "group")) i;
    do imm <- intComponent UInt8 (merged ps (txt "isImmovable")) i;
    do len <- component (merged ps (txt "length")) i 0;
    do lenCol <- component (merged ps (txt "lengthCollision")) i 0;
    do rad <- component (merged ps (txt "radius")) i 0;
    do radCol <- component (merged ps (txt "radiusCollision")) i 0;
    do dir <- component3 (merged ps (txt "znorm")) i;
    do v <- component3 (merged ps (txt "vel")) i;
    do w <- component3 (merged ps (txt "omega")) i;
    let m := mot s in
    Done (Syl gid (s_index s) (s_rank s) grp (0 <? imm)%Z rad radCol len lenCol (radiusSearch s) (sepmin s) (colBuf s)
            (vscale half (vadd l r)) (fromTwoVectorsAny eps perp (Vec (a_Z 0) (a_Z 0) (a_Z 1)) dir)
            (Motion v w (velCol m) (omegaCol m) (velBi m) (omegaBi m) (velNonB m) (omegaNonB m) (velBrown m) (omegaBrown m)
               (force m) (torque m) (forceCol m) (torqueCol m) (forceBi m) (torqueBi m) (forceNonB m) (torqueNonB m))).

  (** setNumberOfParticleLocal (FDPS/particle_system.hpp: resize): old elements stay, new ones are default constructed *)
  Definition resize (n : nat) (fresh : sylinder N) (cont : list (sylinder N)) : list (sylinder N) :=
    firstn n cont ++ repeat fresh (n - length cont).

  (** Sylinder/SylinderSystem.cpp:406-476, setInitialFromVTKFile on one rank *)
  Definition setInitialFromVTKFile (eps : N) (perp : vec N -> vec N -> vec N) (fresh : sylinder N) (order : list nat) (rank : nat)
    (ps : list piece) (cont : list (sylinder N)) : outcome (list (sylinder N)) :=
    if negb (rank =? 0)%nat then Done []
    else match ps with
         | [] => UB
         | _ =>
             let points := (length (concat (map (fun p => a_data (p_points p)) ps)) / 3)%nat in
             let n := (points / 2)%nat in
             forEach order (readObject eps perp ps) (resize n fresh cont)
         end.
End Vtp.
Arguments value : clear implicits. Arguments darray : clear implicits. Arguments piece : clear implicits.
Arguments field : clear implicits.
Arguments Field {N X}. Arguments f_name {N X}. Arguments f_type {N X}. Arguments f_comp {N X}. Arguments f_per {N X}. Arguments f_get {N X}.

(** a one-line abbreviation for entries of the header lists (Sylinder/Sylinder.hpp:222-255) *)
Definition fv (c : nat) (t : vtype) (name : text) : fieldVTU := FieldVTU c t name.

(** Sylinder/Sylinder.hpp:218-263, the contents of the .pvtp file *)
Definition writePVTP (postfix : text) (nProcs : nat) : header :=
  Header [fv 1 UInt8 (txt "endLabel")]
    [fv 1 Int32 (txt "gid"); fv 1 Int32 (txt "group"); fv 1 UInt8 (txt "isImmovable");
     fv 1 Float32 (txt "radius"); fv 1 Float32 (txt "radiusCollision"); fv 1 Float32 (txt "length"); fv 1 Float32 (txt "lengthCollision");
     fv 3 Float32 (txt "vel"); fv 3 Float32 (txt "omega"); fv 3 Float32 (txt "velCollision"); fv 3 Float32 (txt "omegaCollision");
     fv 3 Float32 (txt "velBilateral"); fv 3 Float32 (txt "omegaBilateral"); fv 3 Float32 (txt "velNonBrown"); fv 3 Float32 (txt "omegaNonBrown");
     fv 3 Float32 (txt "force"); fv 3 Float32 (txt "torque"); fv 3 Float32 (txt "forceCollision"); fv 3 Float32 (txt "torqueCollision");
     fv 3 Float32 (txt "forceBilateral"); fv 3 Float32 (txt "torqueBilateral"); fv 3 Float32 (txt "forceNonBrown"); fv 3 Float32 (txt "torqueNonBrown");
     fv 3 Float32 (txt "velBrown"); fv 3 Float32 (txt "omegaBrown"); fv 3 Float32 (txt "xnorm"); fv 3 Float32 (txt "znorm")]
    (3, Float64)
    (map (fun i => txt "Sylinder_" ++ txt "r" ++ dec (Z.of_nat i) ++ txt "_" ++ postfix ++ txt ".vtp") (seq 0 nProcs)).

(** Constraint/ConstraintCollector.cpp:76-101, the contents of the .pvtp file *)
Definition writeConPVTP (prefix postfix : text) (nProcs : nat) : header :=
  Header [fv 1 Int32 (txt "gid"); fv 1 Int32 (txt "globalIndex"); fv 3 Float32 (txt "posIJ"); fv 3 Float32 (txt "normIJ")]
    [fv 1 Int32 (txt "oneSide"); fv 1 Int32 (txt "bilateral"); fv 1 Float32 (txt "delta0"); fv 1 Float32 (txt "gamma");
     fv 1 Float32 (txt "kappa"); fv 9 Float32 (txt "Stress")]
    (3, Float64)
    (map (fun i => prefix ++ txt "ConBlock_" ++ txt "r" ++ dec (Z.of_nat i) ++ txt "_" ++ postfix ++ txt ".vtp") (seq 0 nProcs)).
