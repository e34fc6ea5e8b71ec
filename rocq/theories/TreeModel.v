(** Model of the tree of the neighbour search on one rank: FDPS/tree_for_force_utils.hpp
    (LinkCell, CalcMoment, MakeIPGroupShort), FDPS/tree_walk.hpp and the boxes of
    FDPS/orthotope3.hpp, for the search mode SEARCH_MODE_SYMMETRY used by SimToolbox. *)
From Coq Require Import List Arith ZArith Bool.
From Verif Require Import Outcome ListUtil Arith ParticleModel PointsModel MortonModel DomainModel NearModel.
Import ListNotations.
Local Open Scope Z_scope.

(** TREE_LEVEL_LIMIT (FDPS/ps_defs.hpp:151) *)
Definition levelLimit : Z := 21.
(** N_CHILDREN (FDPS/ps_defs.hpp:152) *)
Definition nChildren : Z := 8.

(** conversion to U32 (the members of FDPS/tree.hpp:48-49) *)
Definition toU32 (z : Z) : Z := z mod 2 ^ 32.
(** conversion of a U32 to S32 (e.g. FDPS/tree_for_force_utils.hpp:371) *)
Definition toS32 (u : Z) : Z := if u <? 2 ^ 31 then u else u - 2 ^ 32.
(** FDPS/ps_defs.hpp:1346-1349 *)
Definition getMSB (u : Z) : bool := Z.testbit u 31.
(** SetMSB((U32)0) (FDPS/ps_defs.hpp:1393-1396) *)
Definition onlyMSB : Z := 2 ^ 31.

(** a[i] = v for an S32 index (FDPS/tree_for_force_utils.hpp:376) *)
Definition zwrite {A} (l : list A) (i : Z) (v : A) : outcome (list A) :=
  if i <? 0 then UB else mwrite l (Z.to_nat i) v.

(** FDPS/tree.hpp:45-51; the moments are a separate array *)
Record cell := Cell { n_ptcl : Z; adr_tc : Z; adr_ptcl : Z; level : Z }.

(** FDPS/tree.hpp:63-65 *)
Definition isLeaf (limit : Z) (c : cell) : bool := (n_ptcl c <=? limit) || (level c =? levelLimit).

(** ** The cells *)

(** MortonKey::getCellID(lev, tp[i].getKey()) (FDPS/tree_for_force_utils.hpp:316) *)
Definition cellOf (keys : list Z) (lev i : Z) : outcome Z := do k <- zread keys i; getCellID3 lev k.

(** the while loop of GetPartitionID (FDPS/tree_for_force_utils.hpp:320-333) *)
Fixpoint partitionLoop (fuel : nat) (keys : list Z) (ref lev l r : Z) : outcome Z :=
  match fuel with
  | O => NoFuel
  | S f =>
      if l <? r then
        do s <- as_int (l + r);
        let cen := Z.quot s 2 in
        do v <- cellOf keys lev cen;
        let '(l', r') := if ref >? v then (cen + 1, r) else (l, cen) in
        do w <- cellOf keys lev l';
        if w =? ref then Done l' else partitionLoop f keys ref lev l' r'
      else Done (-1)
  end.

(** FDPS/tree_for_force_utils.hpp:309-334; the loop runs at most right - left times *)
Definition getPartitionID (keys : list Z) (left right ref lev : Z) : outcome Z :=
  do vr <- cellOf keys lev right;
  if vr <? ref then Done (-1) else
  do vl <- cellOf keys lev left;
  if vl >? ref then Done (-1) else
  partitionLoop (S (Z.to_nat (right - left))) keys ref lev left right.

(** the body of the loop over the children (FDPS/tree_for_force_utils.hpp:374-388): c is the parent; the state holds the cells and adr *)
Definition setChild (keys : list Z) (c : cell) (lev : Z) (st : list cell * list Z) (j : nat) : outcome (list cell * list Z) :=
  let '(tc, adr) := st in
  let a := toS32 (toU32 (adr_tc c + Z.of_nat j)) in
  let adr0 := toS32 (adr_ptcl c) in
  do p <- getPartitionID keys adr0 (adr0 + n_ptcl c - 1) (Z.of_nat j) (lev + 1);
  do d <- zread tc a;
  let u := toU32 p in
  if getMSB u then do tc' <- zwrite tc a (Cell 0 onlyMSB u (lev + 1)); Done (tc', adr)
  else do tc' <- zwrite tc a (Cell (n_ptcl d) (adr_tc d) u (lev + 1)); Done (tc', adr ++ [a]).

(** FDPS/tree_for_force_utils.hpp:421-424 *)
Definition countStep (st : list cell * Z) (ab : Z * Z) : outcome (list cell * Z) :=
  let '(tc, cum) := st in
  let '(a, b) := ab in
  do ca <- zread tc a;
  do cb <- zread tc b;
  let n := toS32 (toU32 (adr_ptcl cb - adr_ptcl ca)) in
  do tc' <- zwrite tc a (Cell n (adr_tc ca) (adr_ptcl ca) (level ca));
  Done (tc', cum + n).

(** the body of the parallel loop over the parents (FDPS/tree_for_force_utils.hpp:368-428; 486-513): the state holds the
    cells and n_cell_new; UB: the assertion on n_cnt fails, or, in LinkCellST, adr[-1] is read *)
Definition splitCell (keys : list Z) (limit lev : Z) (st : list cell * Z) (i : Z) : outcome (list cell * Z) :=
  let '(tc, new) := st in
  do c <- zread tc i;
  if n_ptcl c <=? limit then Done (tc, new) else
  do s1 <- ofold (setChild keys c lev) (seq 0 8) (tc, []);
  let '(tc1, adr) := s1 in
  do s2 <- ofold countStep (combine adr (tl adr)) (tc1, 0);
  let '(tc2, cum) := s2 in
  match adr with
  | [] => UB
  | _ =>
      let a := last adr 0 in
      do d <- zread tc2 a;
      do tc3 <- zwrite tc2 a (Cell (n_ptcl c - cum) (adr_tc d) (adr_ptcl d) (level d));
      Done (tc3, new + nChildren)
  end.

(** FDPS/tree_for_force_utils.hpp:445-451 *)
Definition assignStep (limit : Z) (st : list cell * Z) (i : Z) : outcome (list cell * Z) :=
  let '(tc, offset) := st in
  do c <- zread tc i;
  if isLeaf limit c then Done (tc, offset)
  else do tc' <- zwrite tc i (Cell (n_ptcl c) (toU32 offset) (adr_ptcl c) (level c));
       do o <- as_int (offset + nChildren);
       Done (tc', o).

(** ReallocatableArray::resizeNoInitialize (FDPS/reallocatable_array.hpp:291-341): elements that become visible hold anything *)
Definition resize (junk : nat -> cell) (n : Z) (tc : list cell) : list cell :=
  firstn (Z.to_nat n) tc ++ map junk (seq (length tc) (Z.to_nat n - length tc)).

(** the integers from a to b-1 (the loops of FDPS/tree_for_force_utils.hpp:368, 445, 549) *)
Definition zrange (a b : Z) : list Z := map (fun k => a + Z.of_nat k) (seq 0 (Z.to_nat (b - a))).

(** the while loop (FDPS/tree_for_force_utils.hpp:361-454); [sched lev n] is the order in which the n parents of a level
    are processed; the result holds the cells, adr_tc_level_partition and lev_max *)
Fixpoint linkLevels (fuel : nat) (junk : nat -> cell) (sched : Z -> nat -> list nat) (keys : list Z) (limit : Z)
  (tc : list cell) (part : list Z) (lev left right : Z) : outcome (list cell * list Z * Z) :=
  match fuel with
  | O => NoFuel
  | S f =>
      do s <- ofold (splitCell keys limit lev) (map (fun k => left + Z.of_nat k) (sched lev (Z.to_nat (right + 1 - left)))) (tc, 0);
      let '(tc1, new) := s in
      if new =? 0 then Done (tc1, part, lev) else
      let left' := right + 1 in
      do right' <- as_int (right + new);
      let lev' := lev + 1 in
      do part' <- zwrite part (lev' + 1) (right' + 1);
      if lev' =? levelLimit then Done (tc1, part', lev') else
      do s2 <- ofold (assignStep limit) (zrange left' (right' + 1)) (tc1, right' + 1);
      let '(tc2, offset) := s2 in
      linkLevels f junk sched keys limit (resize junk offset tc2) part' lev' left' right'
  end.

(** FDPS/tree_for_force_utils.hpp:338-455 (LinkCell) and, with the parents in order, 458-531 (LinkCellST);
    tc and part are what the arrays hold before the call *)
Definition linkCell (junk : nat -> cell) (sched : Z -> nat -> list nat) (keys : list Z) (limit : Z) (tc : list cell) (part : list Z)
  : outcome (list cell * list Z * Z) :=
  let n := Z.of_nat (length keys) in
  let tc0 := resize junk (nChildren * 2) tc in
  do tc1 <- zwrite tc0 0 (Cell n nChildren 0 0);
  do tc2 <- ofold (fun tc k => zwrite tc k (Cell 0 onlyMSB onlyMSB 0)) (zrange 1 nChildren) tc1;
  do part1 <- zwrite part 0 0;
  do part2 <- zwrite part1 1 nChildren;
  if n <=? limit then Done (tc2, part2, 0)
  else linkLevels 22 junk sched keys limit tc2 part2 0 0 (nChildren - 1).

(** ** Boxes *)

Section Boxes.
  Context {N : arith}.
  Local Open Scope arith_scope.

  (** the search radius and position of a particle (getPos, getRSearch; FDPS/tree.hpp:1234-1243) *)
  Record site := Site { s_pos : vec N; s_rad : N }.

  (** the particle of the tree that stands for an object (Sylinder/SylinderNear.hpp:98, 108-110) *)
  Definition siteOf (e : nearEP N) : site := Site (e_pos e) (getRSearch e).

  (** std::numeric_limits<float>::max() / 128 (FDPS/orthotope3.hpp:32) *)
  Definition boxInit : N := a_lit (2 ^ 24 - 1) 97.
  (** FDPS/orthotope3.hpp:31-38 *)
  Definition emptyBox : ort N := Ort (Vec boxInit boxInit boxInit) (Vec (- boxInit) (- boxInit) (- boxInit)).

  (** ( a > b ) ? a : b (FDPS/orthotope3.hpp:45) *)
  Definition hi (a b : N) : N := if a >? b then a else b.
  (** ( a <= b ) ? a : b (FDPS/orthotope3.hpp:48) *)
  Definition lo (a b : N) : N := if a <=? b then a else b.

  (** FDPS/orthotope3.hpp:44-51 *)
  Definition mergeBox (o b : ort N) : ort N :=
    Ort (Vec (lo (vx (olow o)) (vx (olow b))) (lo (vy (olow o)) (vy (olow b))) (lo (vz (olow o)) (vz (olow b))))
        (Vec (hi (vx (ohigh o)) (vx (ohigh b))) (hi (vy (ohigh o)) (vy (ohigh b))) (hi (vz (ohigh o)) (vz (ohigh b)))).
  (** FDPS/orthotope3.hpp:53-60 *)
  Definition mergePos (o : ort N) (p : vec N) : ort N :=
    Ort (Vec (lo (vx (olow o)) (vx p)) (lo (vy (olow o)) (vy p)) (lo (vz (olow o)) (vz p)))
        (Vec (hi (vx (ohigh o)) (vx p)) (hi (vy (ohigh o)) (vy p)) (hi (vz (ohigh o)) (vz p))).
  (** FDPS/orthotope3.hpp:62-69 *)
  Definition mergeBall (o : ort N) (p : vec N) (size : N) : ort N :=
    Ort (Vec (lo (vx (olow o)) (vx p - size)) (lo (vy (olow o)) (vy p - size)) (lo (vz (olow o)) (vz p - size)))
        (Vec (hi (vx (ohigh o)) (vx p + size)) (hi (vy (ohigh o)) (vy p + size)) (hi (vz (ohigh o)) (vz p + size))).

  (** FDPS/orthotope3.hpp:96-103 *)
  Definition overlapsPos (o : ort N) (p : vec N) : bool :=
    negb ((vx p <? vx (olow o)) || (vx (ohigh o) <? vx p) || (vy p <? vy (olow o)) || (vy (ohigh o) <? vy p)
          || (vz p <? vz (olow o)) || (vz (ohigh o) <? vz p)).
  (** FDPS/orthotope3.hpp:105-113 *)
  Definition overlapsBox (o a : ort N) : bool :=
    negb ((vx (ohigh a) <? vx (olow o)) || (vx (ohigh o) <? vx (olow a)) || (vy (ohigh a) <? vy (olow o)) || (vy (ohigh o) <? vy (olow a))
          || (vz (ohigh a) <? vz (olow o)) || (vz (ohigh o) <? vz (olow a))).
  (** one line of FDPS/orthotope3.hpp:152-154 *)
  Definition gap (l h x : N) : N := if x >? h then x - h else if x <? l then l - x else a_Z 0.
  (** FDPS/orthotope3.hpp:149-156 *)
  Definition distanceMinSQ (o : ort N) (p : vec N) : N :=
    let dx := gap (vx (olow o)) (vx (ohigh o)) (vx p) in
    let dy := gap (vy (olow o)) (vy (ohigh o)) (vy p) in
    let dz := gap (vz (olow o)) (vz (ohigh o)) (vz p) in
    dx * dx + dy * dy + dz * dz.

  (** ** Moments *)

  (** MomentSearchInAndOut (FDPS/tree.hpp:1224-1227) *)
  Record moment := Moment { v_out : ort N; v_in : ort N }.
  (** FDPS/tree.hpp:1228-1231 *)
  Definition initMoment : moment := Moment emptyBox emptyBox.
  (** FDPS/tree.hpp:1234-1238 *)
  Definition accumulateAtLeaf (m : moment) (e : site) : moment :=
    Moment (mergeBall (v_out m) (s_pos e) (s_rad e)) (mergePos (v_in m) (s_pos e)).
  (** FDPS/tree.hpp:1245-1248 *)
  Definition accumulate (m a : moment) : moment := Moment (mergeBox (v_out m) (v_out a)) (mergeBox (v_in m) (v_in a)).

  (** the body of the loop over the cells (FDPS/tree_for_force_utils.hpp:549-577); set, accumulateAtLeaf2 and accumulate2 do
      nothing for these moments (FDPS/tree.hpp:1244-1251) *)
  Definition cellMoment (tc : list cell) (eps : list site) (limit : Z) (moms : list moment) (j : Z) : outcome (list moment) :=
    do c <- zread tc j;
    do m <- (if (n_ptcl c =? 0)%Z then Done initMoment
             else if isLeaf limit c then
               let adr := toS32 (adr_ptcl c) in
               ofold (fun m k => do e <- zread eps k; Done (accumulateAtLeaf m e)) (zrange adr (adr + n_ptcl c)) initMoment
             else
               ofold (fun m k => do d <- zread tc (adr_tc c + k);
                                 if (n_ptcl d =? 0)%Z then Done m
                                 else do a <- zread moms (adr_tc c + k); Done (accumulate m a)) (zrange 0 nChildren) initMoment);
    zwrite moms j m.

  (** FDPS/tree_for_force_utils.hpp:538-579; [sched lev n] is the order in which the n cells of a level are processed *)
  Definition calcMoment (sched : Z -> nat -> list nat) (tc : list cell) (part : list Z) (lev_max : Z) (eps : list site) (limit : Z)
    (moms : list moment) : outcome (list moment) :=
    ofold (fun moms i =>
             do head <- zread part i;
             do next <- zread part (i + 1);
             ofold (cellMoment tc eps limit) (map (fun k => head + Z.of_nat k)%Z (sched i (Z.to_nat (next - head)))) moms)
          (rev (zrange 0 (lev_max + 1))) moms.

  (** ** Groups *)

  (** IPGroup<TagIpgInAndOut> (FDPS/tree.hpp:300-313) *)
  Record group := Group { g_n : Z; g_adr : Z; g_in : ort N; g_out : ort N }.

  (** FDPS/tree_for_force_utils.hpp:782-802, called with cell 0 (FDPS/tree_for_force_impl.hpp:720) *)
  Fixpoint makeIPGroup (fuel : nat) (tc : list cell) (moms : list moment) (grpLimit : Z) (ipg : list group) (adr : Z) : outcome (list group) :=
    match fuel with
    | O => NoFuel
    | S f =>
        do c <- zread tc adr;
        if (n_ptcl c =? 0)%Z then Done ipg
        else if isLeaf grpLimit c then
          do m <- zread moms adr;
          Done (ipg ++ [Group (n_ptcl c) (toS32 (adr_ptcl c)) (v_in m) (v_out m)])
        else ofold (fun ipg i => makeIPGroup f tc moms grpLimit ipg (toS32 (adr_tc c) + i)%Z) (zrange 0 nChildren) ipg
    end.

  (** ** Interaction lists *)

  (** TargetBox<SEARCH_MODE_SYMMETRY>::isInEpList (FDPS/tree_walk.hpp:109-115) *)
  Definition isInEpList (tin tout : ort N) (e : site) : bool :=
    (distanceMinSQ tin (s_pos e) <=? s_rad e * s_rad e) || overlapsPos tout (s_pos e).

  (** bits i and i + N_CHILDREN of GetOpenBit for a child with moment m (FDPS/tree_walk.hpp:596-612) *)
  Definition openBit (tin tout : ort N) (m : moment) : bool := overlapsBox tin (v_out m) || overlapsBox tout (v_in m).

  (** CopyInfoClose for TagForceShort, TagChopLeafTrue (FDPS/tree_walk.hpp:368-387) *)
  Definition copyInfoClose (eps : list site) (tin tout : ort N) (adr n : Z) (acc : list Z) : outcome (list Z) :=
    ofold (fun acc a => do e <- zread eps a; if isInEpList tin tout e then Done (acc ++ [a]) else Done acc) (zrange adr (adr + n)) acc.

  (** FDPS/tree_walk.hpp:636-685, without the super particles of the long range modes *)
  Fixpoint makeList (fuel : nat) (tc : list cell) (moms : list moment) (eps : list site) (limit : Z) (tin tout : ort N)
    (acc : list Z) (adr : Z) : outcome (list Z) :=
    match fuel with
    | O => NoFuel
    | S f =>
        do c <- zread tc adr;
        if isLeaf limit c then copyInfoClose eps tin tout (toS32 (adr_ptcl c)) (n_ptcl c) acc
        else ofold (fun acc i =>
                      let a := (toS32 (adr_tc c) + i)%Z in
                      do d <- zread tc a;
                      do m <- zread moms a;
                      if (n_ptcl d >? 0)%Z then if openBit tin tout m then makeList f tc moms eps limit tin tout acc a else Done acc
                      else Done acc) (zrange 0 nChildren) acc
    end.

  (** MakeListUsingTreeRecursiveTop of the short modes from cell 0 (FDPS/tree_walk.hpp:721-742, FDPS/tree_for_force_impl_force.hpp:1374-1393) *)
  Definition interactionList (tc : list cell) (moms : list moment) (eps : list site) (limit : Z) (g : group) : outcome (list Z) :=
    makeList 22 tc moms eps limit (g_in g) (g_out g) [] 0.

  (** LinkCell and CalcMoment of one tree (linkCellLocalTreeOnly and calcMomentLocalTreeOnly, FDPS/tree_for_force_impl.hpp:338-364, 424-430;
      linkCellGlobalTreeOnly and calcMomentGlobalTreeOnly, 568-599, 660-666); jm is what the moments hold before *)
  Definition buildTree (junk : nat -> cell) (jm : nat -> moment) (sched sched' : Z -> nat -> list nat) (keys : list Z) (eps : list site) (limit : Z)
    (tc : list cell) (part : list Z) : outcome (list cell * list moment) :=
    do r <- linkCell junk sched keys limit tc part;
    let '(tc', part', lev_max) := r in
    do moms <- calcMoment sched' tc' part' lev_max eps limit (map jm (seq 0 (length tc')));
    Done (tc', moms).

  (** calcForceMakingTree from linkCellLocalTreeOnly to the lists (FDPS/tree_for_force.hpp:775-797), with the particles epi of this rank
      and the particles epj of the global tree, which the steps left out here provide, both sorted by their keys; bl and bg build the
      local and the global tree; the lists give positions in epj_sorted *)
  Definition searchLists (bl bg : list Z -> list site -> outcome (list cell * list moment)) (keysI : list Z) (epi : list site) (keysJ : list Z) (epj : list site)
    (limit grpLimit : Z) : outcome (list (group * list Z)) :=
    do loc <- bl keysI epi;
    do glb <- bg keysJ epj;
    do gs <- makeIPGroup 22 (fst loc) (snd loc) grpLimit [] 0;
    omap (fun g => do l <- interactionList (fst glb) (snd glb) epj limit g; Done (g, l)) gs.
End Boxes.
Arguments site : clear implicits. Arguments moment : clear implicits. Arguments group : clear implicits.
