(** C43: reading the configuration. *)
From Coq Require Import List Arith ZArith Bool Ascii String.
From Coq Require Import Reals.
From Flocq Require Import Core BinarySingleNaN.
From Verif Require Import Outcome F64 Arith ParticleModel VecModel BoundaryModel RunModel VtpModel YamlModel YamlSpec YamlProofs.
Import ListNotations.
Local Notation length := List.length.

(** a document without maps in place of arrays loads exactly to the configuration it spells out, with the documented default for every absent
    optional key (timerLevel: the log level; initBoxLow/High: the simulation box) *)
Theorem C43_load : forall cs l c, plain l -> loadConfig cs (Map l) = Ok c <-> says cs l c /\ readBoundaries cs (Map l) = Ok (boundaries c).
Proof. exact load_ok. Qed.
Print Assumptions C43_load.

(** whatever the document: if it loads, it is a map, has every required key, and no array key has a size other than three *)
Theorem C43_required : forall cs doc c, loadConfig cs doc = Ok c ->
  exists l, doc = Map l /\ (forall k, In k required -> exists n, gives l (txt k) n) /\ (forall k n, In k arrays -> gives l (txt k) n -> nodeSize n = 3).
Proof. exact load_required. Qed.
Print Assumptions C43_required.

(** the list of boundaries: one construction per entry, in order *)
Theorem C43_boundaries : forall cs l bs, readBoundaries cs (Map l) = Ok bs <->
  (absent l (txt "boundaries") /\ bs = []) \/
  (exists ns bss, gives l (txt "boundaries") (Seq ns) /\ Forall2 (fun n b => readBoundary cs n = Ok b) ns bss /\ bs = List.concat bss) \/
  (bs = [] /\ (gives l (txt "boundaries") Null \/ (exists t, gives l (txt "boundaries") (Scalar t)) \/ gives l (txt "boundaries") (Map []))).
Proof. exact boundaries_ok. Qed.
Print Assumptions C43_boundaries.
Theorem C43_boundary : forall cs m bs, bplain m -> readBoundary cs (Map m) = Ok bs <-> boundaryOf cs (Map m) bs.
Proof. exact boundary_ok. Qed.
Print Assumptions C43_boundary.

(** the defaults of linkGap and sylinderColBuf are the doubles next to 0.01 and 0.3 *)
Theorem C43_constants : (Rabs (B2R hundredth - 1 / 100) <= / 2 * bpow radix2 (-59) /\ Rabs (B2R three_tenths - 3 / 10) <= / 2 * bpow radix2 (-54))%R.
Proof. exact defaults_near. Qed.
Print Assumptions C43_constants.
(** the three readConfig functions for any type, key and dimension *)
Theorem C43_array : forall {T} cs (cv : node -> option T) l k d o dim ns xs, gives l (txt k) (Seq ns) ->
  readArray cs cv (Map l) (txt k) d dim o = Ok xs <-> length ns = dim /\ items cv ns xs.
Proof. exact @array_ok. Qed.
Print Assumptions C43_array.
Theorem C43_vector : forall {T} cs (cv : node -> option T) l k d o ns xs, gives l (txt k) (Seq ns) ->
  readVector cs cv (Map l) (txt k) d o = Ok xs <-> items cv ns xs.
Proof. exact @vector_ok. Qed.
Print Assumptions C43_vector.
Theorem C43_absent : forall {T} cs (cv : node -> option T) l k x (d : list T) dim, absent l (txt k) ->
  readConfig cv (Map l) (txt k) x true = Ok x /\ readArray cs cv (Map l) (txt k) d dim true = Ok d /\ readVector cs cv (Map l) (txt k) d true = Ok d /\
  readConfig cv (Map l) (txt k) x false = Exit1 /\ readArray cs cv (Map l) (txt k) d dim false = Exit1 /\ readVector cs cv (Map l) (txt k) d false = Exit1.
Proof. exact @absent_ok. Qed.
Print Assumptions C43_absent.

(** toy conversions: unsigned decimal numbers *)
Definition num (n : node) : option Z :=
  match n with Scalar (c :: t) => Some (fold_left (fun z c => 10 * z + Z.of_nat (nat_of_ascii c) - 48)%Z (c :: t) 0%Z) | _ => None end.
Definition toy : convs := Convs num num (fun n => option_map f_ofZ (num n)) (fun n => option_map (Z.eqb 1) (num n))
  (fun n => match n with Scalar t => Some t | _ => None end) (fun k i => teq k (dec (Z.of_nat i))).
Definition sc (s : string) : node := Scalar (txt s).
Definition base : list (text * node) :=
  map (fun k => (txt k, sc "5")) ["rngSeed"; "viscosity"; "KBT"; "sylinderNumber"; "sylinderLength"; "sylinderDiameter"; "dt"; "timeTotal"; "timeSnap"; "conResTol"; "conMaxIte"; "conSolverChoice"]%string.
Definition boxes : list (text * node) :=
  [(txt "simBoxLow", Seq [sc "0"; sc "0"; sc "0"]); (txt "simBoxHigh", Seq [sc "9"; sc "8"; sc "7"]); (txt "simBoxPBC", Seq [sc "1"; sc "0"; sc "1"])].
Definition wall : node := Map [(txt "type", sc "wall"); (txt "center", Seq [sc "1"; sc "2"; sc "3"]); (txt "norm", Seq [sc "0"; sc "0"; sc "2"])].

Example C43_example :
  match loadConfig toy (Map (base ++ boxes ++ [(txt "logLevel", sc "4"); (txt "linkKappa", sc "25"); (txt "boundaries", Seq [wall])])) with
  | Ok c => Z.eqb (rngSeed c) 5 && feq (nth 1 (simBoxHigh c) (f_ofZ 0)) (f_ofZ 8) && feq (nth 1 (initBoxHigh c) (f_ofZ 0)) (f_ofZ 8) &&
      nth 2 (simBoxPBC c) false && Z.eqb (timerLevel c) 4 && Z.eqb (initPreSteps c) 100 && feq (linkKappa c) (f_ofZ 25) && feq (linkGap c) hundredth &&
      match boundaries c with [Wall p n] => feq (vz p) (f_ofZ 3) && feq (vz n) (f_ofZ 1) | _ => false end
  | _ => false end = true.
Proof. vm_compute. reflexivity. Qed.
Example C43_example_fail :
  match loadConfig toy (Map base) with Exit1 => true | _ => false end &&
  match loadConfig toy (Map (base ++ boxes ++ [(txt "initOrient", Seq [sc "1"; sc "1"])])) with Exit1 => true | _ => false end &&
  match loadConfig toy (Map ((txt "dt", Seq []) :: base ++ boxes)) with Thrown => true | _ => false end = true.
Proof. vm_compute. reflexivity. Qed.

(** a boundary with a misspelt type is dropped without an error *)
Theorem C43_unknown_refuted : exists t, t <> txt "wall" /\ t <> txt "tube" /\ t <> txt "sphere" /\
  match loadConfig toy (Map (base ++ boxes ++ [(txt "boundaries", Seq [Map [(txt "type", Scalar t); (txt "center", Seq [sc "1"; sc "2"; sc "3"])]])])) with
  | Ok c => match boundaries c with [] => true | _ => false end
  | _ => false end = true.
Proof. exists (txt "spherical"). do 3 (split; [discriminate|]). vm_compute. reflexivity. Qed.
Print Assumptions C43_unknown_refuted.
(** a scalar where a list is expected silently reads as the empty list *)
Theorem C43_scalar_vector_refuted : exists l n, gives l (txt "xs") n /\ num n = Some 5%Z /\ readVector toy num (Map l) (txt "xs") [1%Z] false = Ok [].
Proof. exists [(txt "xs", sc "5")], (sc "5"). split; [apply entry_gives; reflexivity|]. split; reflexivity. Qed.
Print Assumptions C43_scalar_vector_refuted.
