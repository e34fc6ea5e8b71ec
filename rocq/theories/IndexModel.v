(** Model of the id, index and link bookkeeping of the system class:
    Sylinder/SylinderSystem.cpp (addNewSylinder, getMaxGid, updateSylinderMap,
    addNewLink, setLinkMapFromFile, writeAscii), Trilinos/ZDD.hpp and the map
    constructors of Trilinos/TpetraUtil.cpp. *)
From Coq Require Import List Arith ZArith Bool.
From Verif Require Import Outcome ListUtil MPIModel PointsModel.
Import ListNotations.
Local Open Scope Z_scope.

(** ** Global ids *)

(** An object: its id and everything else (Sylinder/Sylinder.hpp:38-88, class Sylinder). *)
Record obj (B : Type) := Obj { gid : Z; body : B }.
Arguments Obj {B} _ _. Arguments gid {B} _. Arguments body {B} _.

(** Sylinder/SylinderSystem.cpp:1162-1166, the local maximum (starts at 0). *)
Definition maxGidLocal (gids : list Z) : Z := fold_left Z.max gids 0.

(** Teuchos::reduceAll with MaxValueReductionOp (Sylinder/SylinderSystem.cpp:1169). *)
Definition maxReduce (l : list Z) : Z :=
  match l with [] => 0 | x :: r => fold_left Z.max r x end.

(** Sylinder/SylinderSystem.cpp:1161-1173, getMaxGid run by all ranks. *)
Definition getMaxGid {B} (ranks : list (list (obj B))) : list (Z * Z) :=
  let loc := map (fun l => maxGidLocal (map gid l)) ranks in
  map (fun m => (m, maxReduce loc)) loc.

(** std::iota on int (Sylinder/SylinderSystem.cpp:1329): the value is incremented
    after every element, the last one included; signed overflow is [UB]. *)
Fixpoint iota (n : nat) (v : Z) : outcome (list Z) :=
  if INT_MAX <? v then UB else
  match n with
  | O => Done []
  | S n' => do r <- iota n' (v + 1); Done (v :: r)
  end.

(** MPI_Scatterv from rank 0 (Sylinder/SylinderSystem.cpp:1339-1340): the receive
    buffers of all ranks. *)
Definition MPI_Scatterv_root {A} (send : vbuf A) (recvCounts : list nat) : outcome (list (list A)) :=
  omap (fun r => do b <- vblock send r; do c <- mread recvCounts r;
                 if (length b =? c)%nat then Done b else UB) (seq 0 (length recvCounts)).

(** Sylinder/SylinderSystem.cpp:1343-1347: each new object gets its id and is appended. *)
Definition setNewGid {B} (old new : list (obj B)) (ids : list Z) : list (obj B) :=
  old ++ map (fun p => Obj (snd p) (body (fst p))) (combine new ids).

(** Sylinder/SylinderSystem.cpp:1311-1350, addNewSylinder run by all ranks: rank r holds
    [ranks[r]] and adds [news[r]].  [shuffle] is std::shuffle on rank 0.  Returns the new
    local containers and the ids returned on each rank. *)
Definition addNewSylinder {B} (shuffle : list Z -> list Z) (ranks news : list (list (obj B)))
  : outcome (list (list (obj B)) * list (list Z)) :=
  let newCount := map (@length _) news in
  let displ := psum newCount in
  do max0 <- mread (getMaxGid ranks) 0;
  do pool <- iota (last displ 0%nat) (snd max0 + 1);
  do recv <- MPI_Scatterv_root (Build_vbuf (shuffle pool) newCount displ) newCount;
  Done (map (fun p => setNewGid (fst (fst p)) (snd (fst p)) (snd p)) (combine (combine ranks news) recv), recv).

(** ** Maps *)

(** Trilinos/TpetraUtil.cpp:39-41, getTMAPFromLocalSize: a contiguous, rank-ordered map;
    the global indices owned by each rank.  Global ordinals are int. *)
Definition getTMAPFromLocalSize (sizes : list nat) : outcome (list (list Z)) :=
  if INT_MAX <? Z.of_nat (sum_list sizes) then UB else
  Done (map (fun r => map Z.of_nat (seq (sum_list (firstn r sizes)) (nth r sizes 0%nat))) (seq 0 (length sizes))).

(** Sylinder/SylinderSystem.cpp:868-880, updateSylinderMap: the globalIndex of every local
    object, and the rows of sylinderMobilityMap owned by each rank.  getMinGlobalIndex is
    the first index of a contiguous block; its value on an empty rank is never used. *)
Definition updateSylinderMap (sizes : list nat) : outcome (list (list Z) * list (list Z)) :=
  do m <- getTMAPFromLocalSize sizes;
  do rows <- getTMAPFromLocalSize (map (fun n => n * 6)%nat sizes);
  Done (map (fun p => map (fun i => Z.of_nat i + hd 0 (snd p)) (seq 0 (fst p))) (combine sizes m), rows).

(** getGlobalNumElements of a map (Trilinos/TpetraUtil.cpp:57) *)
Definition globalSize (m : list (list Z)) : Z := Z.of_nat (sum_list (map (@length _) m)).

(** Trilinos/TpetraUtil.cpp:48-71, getTMAPFromTwoBlockTMAP for two contiguous maps. *)
Definition getTMAPFromTwoBlockTMAP (m1 m2 : list (list Z)) : outcome (list (list Z)) :=
  if INT_MAX <? globalSize m1 + globalSize m2 then UB else
  Done (map (fun p => fst p ++ map (fun g => g + globalSize m1) (snd p)) (combine m1 m2)).

(** Trilinos/TpetraUtil.cpp:73-83, getTVFromTwoBlockTV: the local entries of the new vector
    on one rank.  It starts zeroed; the two sub-views are overwritten (update with beta 0). *)
Definition getTVFromTwoBlockTV {A} (zero : A) (v1 v2 : list A) : outcome (list A) :=
  do v <- splice (repeat zero (length v1 + length v2)) 0 v1;
  splice v (length v1) v2.

(** Trilinos/TpetraUtil.cpp:85-105, getTVFromVector: local entry i is in[i]; [junk] is the
    uninitialised content. *)
Definition getTVFromVector {A} (junk : A) (inv : list A) : outcome (list A) :=
  ofold (fun out i => do x <- mread inv i; mwrite out i x) (seq 0 (length inv)) (repeat junk (length inv)).

(** ** Links *)

(** linkMap and linkReverseMap (Sylinder/SylinderSystem.hpp:46-47) of one rank.  An
    unordered multimap is a list of key/value pairs; the order carries no meaning. *)
Record links := { fwd : list (Z * Z); rev : list (Z * Z) }.

(** linkMap.emplace(prev,next); linkReverseMap.emplace(next,prev) for a list of links
    (Sylinder/SylinderSystem.cpp:1364-1367, 397-398) *)
Definition emplaceLinks (s : links) (ls : list (Z * Z)) : links :=
  {| fwd := fwd s ++ ls; rev := rev s ++ map (fun l => (snd l, fst l)) ls |}.

(** Sylinder/SylinderSystem.cpp:1352-1368, addNewLink run by all ranks.  The receive buffer
    of the allgather is default initialised ([(-1,-1)], Sylinder/Sylinder.hpp:29-32). *)
Definition addNewLink (ranks : list links) (news : list (list (Z * Z))) : outcome (list links) :=
  let newCount := map (@length _) news in
  let displ := psum newCount in
  do recv <- MPI_Gatherv_root news (Build_vbuf (repeat (-1, -1) (last displ 0%nat)) newCount displ);
  Done (map (fun s => emplaceLinks s recv) ranks).

(** Character codes of std::isspace in the C locale (operator>> at Sylinder/SylinderSystem.cpp:383) *)
Definition isSpace (c : Z) : bool := (c =? 32) || ((9 <=? c) && (c <=? 13)).
(** operator>> at Sylinder/SylinderSystem.cpp:383 *)
Definition isDigit (c : Z) : bool := (48 <=? c) && (c <=? 57).

(** leading white space skipped by operator>> (operator>> at Sylinder/SylinderSystem.cpp:383) *)
Fixpoint skipWs (l : list Z) : list Z :=
  match l with c :: r => if isSpace c then skipWs r else l | [] => [] end.

(** the longest digit prefix and what follows (operator>> at Sylinder/SylinderSystem.cpp:383) *)
Fixpoint takeDigits (l : list Z) : list Z * list Z :=
  match l with
  | c :: r => if isDigit c then let (d, t) := takeDigits r in (c :: d, t) else ([], l)
  | [] => ([], [])
  end.

(** operator>> at Sylinder/SylinderSystem.cpp:383 *)
Definition digitsValue (ds : list Z) : Z := fold_left (fun acc c => 10 * acc + (c - 48)) ds 0.

(** stream >> int (Sylinder/SylinderSystem.cpp:383; C++11 num_get): value, success, rest.
    No digits: 0 and failure; out of range: nearest int and failure. *)
Definition readInt (l : list Z) : Z * bool * list Z :=
  let l := skipWs l in
  let '(sgn, l') := match l with
                    | 45 :: r => (-1, r)
                    | 43 :: r => (1, r)
                    | _ => (1, l)
                    end in
  let (ds, rest) := takeDigits l' in
  match ds with
  | [] => (0, false, rest)
  | _ => let v := sgn * digitsValue ds in
         if v <? INT_MIN then (INT_MIN, false, rest)
         else if INT_MAX <? v then (INT_MAX, false, rest)
         else (v, true, rest)
  end.

(** Sylinder/SylinderSystem.cpp:380-385, parseLink.  When the first number cannot be read
    the second one keeps its default -1 (Sylinder/Sylinder.hpp:29-32). *)
Definition parseLink (line : list Z) : Z * Z :=
  let l := tl (skipWs line) in
  let '(p, ok, l1) := readInt l in
  if ok then let '(n, _, _) := readInt l1 in (p, n) else (p, -1).

(** Sylinder/SylinderSystem.cpp:377-404, setLinkMapFromFile on the lines of the file: the
    first two are skipped, those starting with 'L' (76) are links.  Only linkMap is cleared. *)
Definition setLinkMapFromFile (s : links) (lines : list (list Z)) : links :=
  let ls := filter (fun l => hd 0 l =? 76) (skipn 2 lines) in
  emplaceLinks {| fwd := []; rev := rev s |} (map parseLink ls).

(** %d for a non-negative value of at most [fuel] digits (fprintf at Sylinder/SylinderSystem.cpp:501) *)
Fixpoint fmtDigits (fuel : nat) (n : Z) : list Z :=
  match fuel with
  | O => []
  | S f => if n <? 10 then [48 + n] else fmtDigits f (n / 10) ++ [48 + n mod 10]
  end.
(** %d for an int (fprintf at Sylinder/SylinderSystem.cpp:501) *)
Definition fmtInt (n : Z) : list Z := if n <? 0 then 45 :: fmtDigits 10 (- n) else fmtDigits 10 n.
(** Sylinder/SylinderSystem.cpp:501, "L %d %d" without the newline *)
Definition fmtLink (l : Z * Z) : list Z := 76 :: 32 :: fmtInt (fst l) ++ 32 :: fmtInt (snd l).

(** Sylinder/SylinderSystem.cpp:489-506, writeAscii, as lines: two header lines and one line
    per object (formats "%d \n %lf\n", Sylinder/Sylinder.hpp:463, and "%c %d ...", where %c
    is 'S' or 'C', Sylinder/Sylinder.cpp:101-109), then the links. *)
Definition asciiLines (h1 h2 : list Z) (objects : list (list Z)) (ls : list (Z * Z)) : list (list Z) :=
  h1 :: h2 :: objects ++ map fmtLink ls.

(** ** The distributed directory *)

(** Zoltan_DD, an external library: a global table id -> data.  Update replaces or inserts;
    the table is a list with the newest entry first (used at Trilinos/ZDD.hpp:118) *)
Definition ddUpdate {D} (dir : list (Z * D)) (pairs : list (Z * D)) : list (Z * D) := List.rev pairs ++ dir.
(** Zoltan_DD::Find as used at Trilinos/ZDD.hpp:138-148 *)
Definition ddLookup {D} (dir : list (Z * D)) (id : Z) : option D :=
  match find (fun e => fst e =? id) dir with Some e => Some (snd e) | None => None end.

(** Trilinos/ZDD.hpp:105-131, buildIndex called by all ranks: rank r publishes its
    (gidOnLocal, dataOnLocal) pairs. *)
Definition buildIndex {D} (dir : list (Z * D)) (published : list (list (Z * D))) : list (Z * D) :=
  ddUpdate dir (concat published).

(** Trilinos/ZDD.hpp:138-148, find on one rank: dataToFind after the call and whether
    Zoltan reports success.  [fresh] is a default-constructed element; [junk id] is what
    is stored for an unknown id. *)
Definition zddFind {D} (fresh : D) (junk : Z -> D) (dir : list (Z * D)) (gidToFind : list Z)
  (dataToFind : list D) : list D * bool :=
  let n := length gidToFind in
  let data := if (length dataToFind <? n)%nat then dataToFind ++ repeat fresh (n - length dataToFind) else dataToFind in
  (map (fun id => match ddLookup dir id with Some d => d | None => junk id end) gidToFind ++ skipn n data,
   forallb (fun id => match ddLookup dir id with Some _ => true | None => false end) gidToFind).
