(** Reading the run configuration: Util/YamlHelper.hpp, Sylinder/SylinderConfig.cpp and the initialize functions of Boundary/Boundary.cpp.
    The YAML parser is outside the model: a document is its node tree, conversions of scalars are oracles. Map keys are scalars. *)
From Coq Require Import List Arith ZArith Bool Ascii String.
From Verif Require Import Outcome F64 Arith ParticleModel VecModel BoundaryModel RunModel VtpModel.
Import ListNotations.
Local Notation length := List.length.
Local Open Scope nat_scope.

(** YAML::Node, used throughout Util/YamlHelper.hpp:35-107 *)
Inductive node := Null | Scalar (t : text) | Seq (l : list node) | Map (l : list (text * node)).

(** a run of the constructor: a value, std::exit(1) (Util/YamlHelper.hpp:42-43), or an exception of yaml-cpp that nobody catches *)
Inductive res (A : Type) := Ok (a : A) | Exit1 | Thrown.
Arguments Ok {A}. Arguments Exit1 {A}. Arguments Thrown {A}.
(** sequencing of two statements (modelling device, no code counterpart) (as in Util/YamlHelper.hpp:35-45) *)
Definition rbind {A B} (m : res A) (f : A -> res B) : res B := match m with Ok a => f a | Exit1 => Exit1 | Thrown => Thrown end.
(** as in Util/YamlHelper.hpp:35-45 *)
Notation "'set' x <- m ; k" := (rbind m (fun x => k)) (at level 200, x pattern, m at level 100, k at level 200, right associativity).

(** node.as<T>() for the types read (Util/YamlHelper.hpp:39, 69, 98; Sylinder/SylinderConfig.cpp:75), None: BadConversion is thrown;
    [isIndex k i]: the map key k equals the integer i *)
Record convs := Convs { asUInt : node -> option Z; asInt : node -> option Z; asDouble : node -> option f64; asBool : node -> option bool;
                        asText : node -> option text; isIndex : text -> nat -> bool }.

(** the first entry of a map with this key (yaml-cpp node_data::get, Util/YamlHelper.hpp:38) *)
Fixpoint entryOf (p : text -> bool) (l : list (text * node)) : option node :=
  match l with [] => None | (k, n) :: l => if p k then Some n else entryOf p l end.

(** config[name] for a constant node (Util/YamlHelper.hpp:38); a scalar has no members (BadSubscript) *)
Definition member (config : node) (name : text) : res (option node) :=
  match config with
  | Scalar _ => Thrown
  | Map l => Ok (entryOf (fun k => teq k name) l)
  | _ => Ok None
  end.
(** as<T>() that throws if the conversion fails (Util/YamlHelper.hpp:39) *)
Definition as_ {T} (cv : node -> option T) (n : node) : res T := match cv n with Some x => Ok x | None => Thrown end.

(** Util/YamlHelper.hpp:35-47, one variable *)
Definition readConfig {T} (cv : node -> option T) (config : node) (name : text) (variable : T) (optional : bool) : res T :=
  set m <- member config name;
  match m with
  | Some n => as_ cv n
  | None => if optional then Ok variable else Exit1
  end.

(** seq.size() (Util/YamlHelper.hpp:64, 95) *)
Definition nodeSize (n : node) : nat := match n with Seq l => length l | Map l => length l | _ => 0 end.
(** seq[i] (Util/YamlHelper.hpp:69, 98); a node that does not exist cannot be converted *)
Definition nodeAt (cs : convs) (n : node) (i : nat) : res node :=
  match n with
  | Seq l => match nth_error l i with Some x => Ok x | None => Thrown end
  | Map l => match entryOf (fun k => isIndex cs k i) l with Some x => Ok x | None => Thrown end
  | _ => Thrown
  end.
(** the loop Util/YamlHelper.hpp:68-70, 97-99 *)
Fixpoint readItems {T} (cs : convs) (cv : node -> option T) (n : node) (is : list nat) : res (list T) :=
  match is with
  | [] => Ok []
  | i :: is => set x <- nodeAt cs n i; set v <- as_ cv x; set vs <- readItems cs cv n is; Ok (v :: vs)
  end.

(** Util/YamlHelper.hpp:59-78, a fixed-size array *)
Definition readArray {T} (cs : convs) (cv : node -> option T) (config : node) (name : text) (variable : list T) (dim : nat) (optional : bool) : res (list T) :=
  set m <- member config name;
  match m with
  | Some n => if negb (nodeSize n =? dim) then Exit1 else readItems cs cv n (seq 0 dim)
  | None => if optional then Ok variable else Exit1
  end.
(** Util/YamlHelper.hpp:90-107, a std::vector *)
Definition readVector {T} (cs : convs) (cv : node -> option T) (config : node) (name : text) (variable : list T) (optional : bool) : res (list T) :=
  set m <- member config name;
  match m with
  | Some n => readItems cs cv n (seq 0 (nodeSize n))
  | None => if optional then Ok variable else Exit1
  end.

(** Sylinder/SylinderConfig.hpp:24-75 *)
Record config := Config {
  rngSeed : Z; simBoxLow : list f64; simBoxHigh : list f64; simBoxPBC : list bool; viscosity : f64; KBT : f64;
  sylinderNumber : Z; sylinderLength : f64; sylinderDiameter : f64; dt : f64; timeTotal : f64; timeSnap : f64;
  conResTol : f64; conMaxIte : Z; conSolverChoice : Z;
  logLevel : Z; timerLevel : Z; monolayer : bool; initBoxLow : list f64; initBoxHigh : list f64; initOrient : list f64;
  initCircularX : bool; initPreSteps : Z; linkKappa : f64; linkGap : f64; sylinderFixed : bool; sylinderLengthSigma : f64;
  sylinderDiameterColRatio : f64; sylinderLengthColRatio : f64; sylinderColBuf : f64; boundaries : list (boundary F_arith) }.

(** three doubles as a vector (Emap3, Boundary/Boundary.cpp:101, 173) *)
Definition vec3 (l : list f64) : vec F_arith := Vec (nth 0 l (f_ofZ 0)) (nth 1 l (f_ofZ 0)) (nth 2 l (f_ofZ 0)).
(** the members before they are read (Boundary/Boundary.hpp:60, 76-77, 91-92): every one is required, so these are always overwritten *)
Definition unset3 : list f64 := repeat (f_ofZ 0) 3.

(** Boundary/Boundary.cpp:18-22 *)
Definition readSphereShell (cs : convs) (b : node) : res (boundary F_arith) :=
  set center <- readArray cs (asDouble cs) b (txt "center") unset3 3 false;
  set radius <- readConfig (asDouble cs) b (txt "radius") (f_ofZ 0) false;
  set inside <- readConfig (asBool cs) b (txt "inside") true false;
  Ok (newSphereShell (N := F_arith) (vec3 center) radius inside).
(** Boundary/Boundary.cpp:98-102 *)
Definition readWall (cs : convs) (b : node) : res (boundary F_arith) :=
  set center <- readArray cs (asDouble cs) b (txt "center") unset3 3 false;
  set norm <- readArray cs (asDouble cs) b (txt "norm") unset3 3 false;
  Ok (newWall (N := F_arith) (vec3 center) (vec3 norm)).
(** Boundary/Boundary.cpp:168-174 *)
Definition readTube (cs : convs) (b : node) : res (boundary F_arith) :=
  set center <- readArray cs (asDouble cs) b (txt "center") unset3 3 false;
  set axis <- readArray cs (asDouble cs) b (txt "axis") unset3 3 false;
  set inside <- readConfig (asBool cs) b (txt "inside") true false;
  set radius <- readConfig (asDouble cs) b (txt "radius") (f_ofZ 0) false;
  Ok (newTube (N := F_arith) (vec3 center) (vec3 axis) radius inside).

(** Sylinder/SylinderConfig.cpp:74-84, one entry; an unknown type adds nothing *)
Definition readBoundary (cs : convs) (b : node) : res (list (boundary F_arith)) :=
  set m <- member b (txt "type");
  match m with
  | None => Thrown
  | Some n =>
      set name <- as_ (asText cs) n;
      if teq name (txt "wall") then set x <- readWall cs b; Ok [x]
      else if teq name (txt "tube") then set x <- readTube cs b; Ok [x]
      else if teq name (txt "sphere") then set x <- readSphereShell cs b; Ok [x]
      else Ok []
  end.
(** the loop Sylinder/SylinderConfig.cpp:74-84 *)
Fixpoint readBoundaryList (cs : convs) (l : list node) : res (list (boundary F_arith)) :=
  match l with
  | [] => Ok []
  | b :: l => set x <- readBoundary cs b; set xs <- readBoundaryList cs l; Ok (x ++ xs)
  end.
(** Sylinder/SylinderConfig.cpp:71-85; iterating over a map gives pairs, which have no member "type"; over a scalar nothing *)
Definition readBoundaries (cs : convs) (doc : node) : res (list (boundary F_arith)) :=
  set m <- member doc (txt "boundaries");
  match m with
  | None => Ok []
  | Some (Seq l) => readBoundaryList cs l
  | Some (Map (_ :: _)) => Thrown
  | Some _ => Ok []
  end.

(** the double nearest to 0.01 (Sylinder/SylinderConfig.cpp:56) *)
Definition f_001 : f64 := f_lit 0x147ae147ae147b (-59).
(** the double nearest to 0.3 (Sylinder/SylinderConfig.cpp:68) *)
Definition f_03 : f64 := f_lit 0x13333333333333 (-54).

(** Sylinder/SylinderConfig.cpp:6-86; spdlog::level::info is 2 *)
Definition loadConfig (cs : convs) (doc : node) : res config :=
  let D := asDouble cs in let I := asInt cs in let B := asBool cs in
  let zero := f_ofZ 0 in
  set seed <- readConfig (asUInt cs) doc (txt "rngSeed") 0%Z false;
  set low <- readArray cs D doc (txt "simBoxLow") unset3 3 false;
  set high <- readArray cs D doc (txt "simBoxHigh") unset3 3 false;
  set pbc <- readArray cs B doc (txt "simBoxPBC") (repeat false 3) 3 false;
  set visc <- readConfig D doc (txt "viscosity") zero false;
  set kbt <- readConfig D doc (txt "KBT") zero false;
  set num <- readConfig I doc (txt "sylinderNumber") 0%Z false;
  set len <- readConfig D doc (txt "sylinderLength") zero false;
  set dia <- readConfig D doc (txt "sylinderDiameter") zero false;
  set dt <- readConfig D doc (txt "dt") zero false;
  set total <- readConfig D doc (txt "timeTotal") zero false;
  set snap <- readConfig D doc (txt "timeSnap") zero false;
  set tol <- readConfig D doc (txt "conResTol") zero false;
  set ite <- readConfig I doc (txt "conMaxIte") 0%Z false;
  set choice <- readConfig I doc (txt "conSolverChoice") 0%Z false;
  set log <- readConfig I doc (txt "logLevel") 2%Z true;
  set timer <- readConfig I doc (txt "timerLevel") log true;
  set mono <- readConfig B doc (txt "monolayer") false true;
  set ilow <- readArray cs D doc (txt "initBoxLow") low 3 true;
  set ihigh <- readArray cs D doc (txt "initBoxHigh") high 3 true;
  set orient <- readArray cs D doc (txt "initOrient") (repeat (f_ofZ 2) 3) 3 true;
  set circ <- readConfig B doc (txt "initCircularX") false true;
  set pre <- readConfig I doc (txt "initPreSteps") 100%Z true;
  set kappa <- readConfig D doc (txt "linkKappa") (f_ofZ 100) true;
  set gap <- readConfig D doc (txt "linkGap") f_001 true;
  set fixed <- readConfig B doc (txt "sylinderFixed") false true;
  set sigma <- readConfig D doc (txt "sylinderLengthSigma") (f_ofZ (-1)) true;
  set diaRatio <- readConfig D doc (txt "sylinderDiameterColRatio") (f_ofZ 1) true;
  set lenRatio <- readConfig D doc (txt "sylinderLengthColRatio") (f_ofZ 1) true;
  set buf <- readConfig D doc (txt "sylinderColBuf") f_03 true;
  set bs <- readBoundaries cs doc;
  Ok (Config seed low high pbc visc kbt num len dia dt total snap tol ite choice log timer mono ilow ihigh orient circ pre kappa gap fixed sigma
        diaRatio lenRatio buf bs).
