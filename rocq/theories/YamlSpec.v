(** What a configuration document says. *)
From Coq Require Import List Arith ZArith Bool Ascii String.
From Verif Require Import Outcome F64 Arith ParticleModel VecModel BoundaryModel RunModel YamlModel.
Import ListNotations.
Local Notation length := List.length.

(** the document gives the key this node: the first entry counts *)
Inductive gives : list (text * node) -> text -> node -> Prop :=
| gives_here k n l : gives ((k, n) :: l) k n
| gives_later k k' n n' l : k' <> k -> gives l k n -> gives ((k', n') :: l) k n.
Definition absent (l : list (text * node)) (k : text) : Prop := ~ In k (map fst l).

(** a scalar, a triple *)
Definition scalar {T} (cv : node -> option T) (l : list (text * node)) (k : string) (x : T) : Prop := exists n, gives l (txt k) n /\ cv n = Some x.
Definition items {T} (cv : node -> option T) (ns : list node) (xs : list T) : Prop := Forall2 (fun n x => cv n = Some x) ns xs.
Definition triple {T} (cv : node -> option T) (l : list (text * node)) (k : string) (xs : list T) : Prop :=
  exists ns, gives l (txt k) (Seq ns) /\ length ns = 3 /\ items cv ns xs.
(** an optional setting: the given value, or the default if the key is absent *)
Definition or_default {T} (P : list (text * node) -> string -> T -> Prop) (d : T) (l : list (text * node)) (k : string) (x : T) : Prop :=
  (absent l (txt k) /\ x = d) \/ P l k x.
(** no key is given a map where an array is expected (a map with keys 0, 1, 2 would be accepted too) *)
Definition arrays : list string := ["simBoxLow"; "simBoxHigh"; "simBoxPBC"; "initBoxLow"; "initBoxHigh"; "initOrient"]%string.
Definition plain (l : list (text * node)) : Prop := forall k m, In k arrays -> ~ gives l (txt k) (Map m).

Definition required : list string :=
  ["rngSeed"; "simBoxLow"; "simBoxHigh"; "simBoxPBC"; "viscosity"; "KBT"; "sylinderNumber"; "sylinderLength"; "sylinderDiameter"; "dt";
   "timeTotal"; "timeSnap"; "conResTol"; "conMaxIte"; "conSolverChoice"]%string.

(** the doubles nearest to 0.01 and 0.3 *)
Definition hundredth : f64 := f_lit 5764607523034235 (-59).
Definition three_tenths : f64 := f_lit 5404319552844595 (-54).

Section Says.
  Context (cs : convs).
  Definition says (l : list (text * node)) (c : config) : Prop :=
    scalar (asUInt cs) l "rngSeed" (rngSeed c) /\ triple (asDouble cs) l "simBoxLow" (simBoxLow c) /\ triple (asDouble cs) l "simBoxHigh" (simBoxHigh c) /\
    triple (asBool cs) l "simBoxPBC" (simBoxPBC c) /\ scalar (asDouble cs) l "viscosity" (viscosity c) /\ scalar (asDouble cs) l "KBT" (KBT c) /\
    scalar (asInt cs) l "sylinderNumber" (sylinderNumber c) /\ scalar (asDouble cs) l "sylinderLength" (sylinderLength c) /\
    scalar (asDouble cs) l "sylinderDiameter" (sylinderDiameter c) /\ scalar (asDouble cs) l "dt" (dt c) /\ scalar (asDouble cs) l "timeTotal" (timeTotal c) /\
    scalar (asDouble cs) l "timeSnap" (timeSnap c) /\ scalar (asDouble cs) l "conResTol" (conResTol c) /\ scalar (asInt cs) l "conMaxIte" (conMaxIte c) /\
    scalar (asInt cs) l "conSolverChoice" (conSolverChoice c) /\
    or_default (scalar (asInt cs)) 2%Z l "logLevel" (logLevel c) /\ or_default (scalar (asInt cs)) (logLevel c) l "timerLevel" (timerLevel c) /\
    or_default (scalar (asBool cs)) false l "monolayer" (monolayer c) /\
    or_default (triple (asDouble cs)) (simBoxLow c) l "initBoxLow" (initBoxLow c) /\ or_default (triple (asDouble cs)) (simBoxHigh c) l "initBoxHigh" (initBoxHigh c) /\
    or_default (triple (asDouble cs)) [f_ofZ 2; f_ofZ 2; f_ofZ 2] l "initOrient" (initOrient c) /\
    or_default (scalar (asBool cs)) false l "initCircularX" (initCircularX c) /\ or_default (scalar (asInt cs)) 100%Z l "initPreSteps" (initPreSteps c) /\
    or_default (scalar (asDouble cs)) (f_ofZ 100) l "linkKappa" (linkKappa c) /\ or_default (scalar (asDouble cs)) hundredth l "linkGap" (linkGap c) /\
    or_default (scalar (asBool cs)) false l "sylinderFixed" (sylinderFixed c) /\ or_default (scalar (asDouble cs)) (f_ofZ (-1)) l "sylinderLengthSigma" (sylinderLengthSigma c) /\
    or_default (scalar (asDouble cs)) (f_ofZ 1) l "sylinderDiameterColRatio" (sylinderDiameterColRatio c) /\
    or_default (scalar (asDouble cs)) (f_ofZ 1) l "sylinderLengthColRatio" (sylinderLengthColRatio c) /\
    or_default (scalar (asDouble cs)) three_tenths l "sylinderColBuf" (sylinderColBuf c).

  (** one entry of the list of boundaries; [bplain]: no map in place of an array *)
  Definition bplain (m : list (text * node)) : Prop := forall k x, In k ["center"; "norm"; "axis"]%string -> ~ gives m (txt k) (Map x).
  Definition three (v : vec F_arith) : list f64 := [vx v; vy v; vz v].
  Inductive boundaryOf : node -> list (boundary F_arith) -> Prop :=
  | b_wall m t c n : gives m (txt "type") t -> asText cs t = Some (txt "wall") -> triple (asDouble cs) m "center" (three c) -> triple (asDouble cs) m "norm" (three n) ->
      boundaryOf (Map m) [newWall (N := F_arith) c n]
  | b_tube m t c a r i : gives m (txt "type") t -> asText cs t = Some (txt "tube") -> triple (asDouble cs) m "center" (three c) -> triple (asDouble cs) m "axis" (three a) ->
      scalar (asDouble cs) m "radius" r -> scalar (asBool cs) m "inside" i -> boundaryOf (Map m) [newTube (N := F_arith) c a r i]
  | b_sphere m t c r i : gives m (txt "type") t -> asText cs t = Some (txt "sphere") -> triple (asDouble cs) m "center" (three c) ->
      scalar (asDouble cs) m "radius" r -> scalar (asBool cs) m "inside" i -> boundaryOf (Map m) [newSphereShell (N := F_arith) c r i]
  | b_other m t x : gives m (txt "type") t -> asText cs t = Some x -> x <> txt "wall" -> x <> txt "tube" -> x <> txt "sphere" -> boundaryOf (Map m) [].
End Says.
