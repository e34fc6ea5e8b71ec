(** Model of the exchange of the particles that other ranks need for the neighbour search:
    FDPS/tree_for_force_utils2.hpp (short range, FindScatterParticle, ExchangeParticle, ExchangeLet,
    FindExchangeParticleDoubleWalk), FDPS/tree_walk.hpp (the walks), FDPS/tree_for_force_utils.hpp:63-187
    (periodic images) and the symmetric search of FDPS/tree_for_force_impl.hpp:1481-1643.
    Numbers of particles and images are natural numbers (S32 in the code). *)
From Coq Require Import List Arith ZArith Bool.
From Verif Require Import Outcome ListUtil Arith ParticleModel VecModel DomainModel MPIModel TreeModel.
Import ListNotations.

(** the element-wise copy loops (FDPS/tree_for_force_utils2.hpp:408-412, 433-435, 986-998, 1023-1034; FDPS/tree_for_force_impl.hpp:1587-1589, 1598-1600) *)
Definition copyRange {A} (src : list A) (s n : nat) (dst : list A) (d : nat) : outcome (list A) :=
  ofold (fun dst k => do v <- mread src (s + k); mwrite dst (d + k) v) (seq 0 n) dst.

Section Let.
  Context {N : arith} {P : Type}.

  (** a particle and what else it carries; setPos changes the position only (Sylinder/SylinderNear.hpp:118-122) *)
  Record item := Item { i_site : site N; i_pay : P }.
  (** setPos(getPos() - shift) (FDPS/tree_for_force_utils2.hpp:593-594, 637-638) *)
  Definition moved (e : item) (shift : vec N) : item := Item (Site (vsub (s_pos (i_site e)) shift) (s_rad (i_site e))) (i_pay e).

  (** ** Periodic images *)

  (** FDPS/orthotope3.hpp:40-42 *)
  Definition shiftBox (o : ort N) (v : vec N) : ort N := Ort (vadd (olow o) v) (vadd (ohigh o) v).
  (** getFullLength (FDPS/orthotope3.hpp:121-123) *)
  Definition fullLength (o : ort N) : vec N := vsub (ohigh o) (olow o).
  (** FDPS/orthotope3.hpp:71-79 *)
  Definition containsPos (o : ort N) (p : vec N) : bool :=
    negb ((vx p <? vx (olow o)) || (vx (ohigh o) <=? vx p) || (vy p <? vy (olow o)) || (vy (ohigh o) <=? vy p)
          || (vz p <? vz (olow o)) || (vz (ohigh o) <=? vz p))%A.

  (** shift_tmp (FDPS/tree_for_force_utils.hpp:123-125, 178) *)
  Definition imageShift (size : vec N) (i : vec Z) : vec N := Vec (a_Z (vx i) * vx size)%A (a_Z (vy i) * vy size)%A (a_Z (vz i) * vz size)%A.
  (** the images of level lev in the order of the loops (FDPS/tree_for_force_utils.hpp:111-122, 166-177) *)
  Definition levelIds (pa : vec bool) (lev : Z) : list (vec Z) :=
    let top (b : bool) := if b then lev else 0%Z in
    let axis b := zrange (- top b) (top b + 1) in
    let inside (b : bool) i := negb (Z.abs i =? top b)%Z || negb b in
    flat_map (fun ix => flat_map (fun iy => flat_map (fun iz =>
      if inside (vx pa) ix && inside (vy pa) iy && inside (vz pa) iz then [] else [Vec ix iy iz])
      (axis (vz pa))) (axis (vy pa))) (axis (vx pa)).

  (** the loop over the levels (FDPS/tree_for_force_utils.hpp:109-135) *)
  Fixpoint imageLevels (fuel : nat) (pa : vec bool) (size : vec N) (my target : ort N) (lev : Z) (acc : list (vec N)) : outcome (list (vec N)) :=
    match fuel with
    | O => NoFuel
    | S f =>
        match filter (fun v => overlapsBox my (shiftBox target v)) (map (imageShift size) (levelIds pa lev)) with
        | [] => Done acc
        | l => imageLevels f pa size my target (lev + 1) (acc ++ l)
        end
    end.
  (** CalcNumberAndShiftOfImageDomain with clear = false (FDPS/tree_for_force_utils.hpp:63-137) in three dimensions *)
  Definition imageShifts (fuel : nat) (pa : vec bool) (size : vec N) (my target : ort N) (acc : list (vec N)) : outcome (list (vec N)) :=
    let zero := Vec (a_Z 0) (a_Z 0) (a_Z 0) in
    if negb (vx pa) && negb (vy pa) && negb (vz pa) then Done (acc ++ [zero])
    else imageLevels fuel pa size my target 1 (if overlapsBox my target then acc ++ [zero] else acc).

  (** the loop over the levels of CalcIDOfImageDomain (FDPS/tree_for_force_utils.hpp:165-185) *)
  Fixpoint imageIdLevels (fuel : nat) (pa : vec bool) (root : ort N) (p : vec N) (lev : Z) : outcome (vec Z) :=
    match fuel with
    | O => NoFuel
    | S f =>
        match find (fun i => containsPos root (vadd p (imageShift (fullLength root) i))) (levelIds pa lev) with
        | Some i => Done (Vec (- vx i) (- vy i) (- vz i))%Z
        | None => imageIdLevels f pa root p (lev + 1)
        end
    end.
  (** FDPS/tree_for_force_utils.hpp:140-187 *)
  Definition imageId (fuel : nat) (pa : vec bool) (root : ort N) (p : vec N) : outcome (vec Z) :=
    if containsPos root p then Done (Vec 0 0 0)%Z else imageIdLevels fuel pa root p 1.

  (** ** First step: particles whose search spheres reach another domain *)

  (** MakeListUsingTreeRecursive for SEARCH_MODE_SCATTER and TagChopLeafFalse (FDPS/tree_walk.hpp:635-685, 388-405, 574-593) *)
  Fixpoint scatterWalk (fuel : nat) (tc : list cell) (moms : list (moment N)) (limit : Z) (box : ort N) (acc : list Z) (adr : Z) : outcome (list Z) :=
    match fuel with
    | O => NoFuel
    | S f =>
        do c <- zread tc adr;
        if isLeaf limit c then Done (acc ++ zrange (toS32 (adr_ptcl c)) (toS32 (adr_ptcl c) + n_ptcl c))
        else ofold (fun acc i =>
                      let a := (toS32 (adr_tc c) + i)%Z in
                      do d <- zread tc a;
                      do m <- zread moms a;
                      if (n_ptcl d >? 0)%Z then if overlapsBox box (v_out m) then scatterWalk f tc moms limit box acc a else Done acc
                      else Done acc) (zrange 0 nChildren) acc
    end.
  (** MakeListUsingTreeRecursiveTop with r_crit_sq = 1 (FDPS/tree_walk.hpp:689-719, 221-231) *)
  Definition scatterTop (tc : list cell) (moms : list (moment N)) (limit : Z) (box : ort N) (acc : list Z) : outcome (list Z) :=
    do c <- zread tc 0;
    do m <- zread moms 0;
    if overlapsBox box (v_out m) && (n_ptcl c >? 0)%Z then scatterWalk 22 tc moms limit box acc 0 else Done acc.

  (** the buffers of a thread: the ranks done, the shifts of their images, the addresses to send and how many per image
      (FDPS/tree_for_force_utils2.hpp:317-320, 690-698) *)
  Record buffers := Buffers { b_rank : list nat; b_shift : list (vec N); b_adr : list Z; b_per : list nat }.

  (** the body of the loop over the images (FDPS/tree_for_force_utils2.hpp:366-385); prev is n_image_tmp_prev *)
  Definition scatterImage (tc : list cell) (moms : list (moment N)) (limit : Z) (my i prev : nat) (dom : ort N) (shifts : list (vec N))
    (st : list Z * list nat) (j : nat) : outcome (list Z * list nat) :=
    let (adr, per) := st in
    if (my =? i) && (j =? prev) then Done (adr, per ++ [0])
    else
      do shift <- mread shifts j;
      do adr' <- scatterTop tc moms limit (shiftBox dom shift) adr;
      Done (adr', per ++ [length adr' - length adr]).

  (** the body of the loop over the ranks (FDPS/tree_for_force_utils2.hpp:357-387); nImage and nSend are n_image_per_proc and n_ep_send *)
  Definition scatterRank (fuel : nat) (pa : vec bool) (root : ort N) (doms : list (ort N)) (my : nat) (tc : list cell) (moms : list (moment N)) (limit : Z)
    (st : buffers * (list nat * list nat)) (i : nat) : outcome (buffers * (list nat * list nat)) :=
    let '(b, (nImage, nSend)) := st in
    do dom <- mread doms i;
    do m <- zread moms 0;
    do shifts <- imageShifts fuel pa (fullLength root) (v_out m) dom (b_shift b);
    let prev := length (b_shift b) in
    let n := length shifts - prev in
    do nImage <- mwrite nImage i n;
    do r <- ofold (scatterImage tc moms limit my i prev dom shifts) (seq prev n) (b_adr b, b_per b);
    let (adr, per) := r in
    do nSend <- mwrite nSend i (length adr - length (b_adr b));
    Done (Buffers (b_rank b ++ [i]) shifts adr per, (nImage, nSend)).

  (** what is sent: particles per rank, images per rank, shifts and number of particles per image, addresses of the particles
      (FDPS/tree_for_force_utils2.hpp:304-314) *)
  Record table := Table { x_send : list nat; x_image : list nat; x_shift : list (vec N); x_per : list nat; x_adr : list Z }.

  (** one thread of the loops that put the buffers together, elements per image (FDPS/tree_for_force_utils2.hpp:402-414, 972-999);
      cnt is n_cnt *)
  Definition placeImages {A} (nImage : list nat) (ranks : list nat) (buf out : list A) : outcome (list A) :=
    do r <- ofold (fun (st : list A * nat) rank =>
                     let (out, cnt) := st in
                     do off <- mread (psum nImage) rank;
                     do n <- mread nImage rank;
                     do out' <- copyRange buf cnt n out off;
                     Done (out', cnt + n)) ranks (out, 0);
    Done (fst r).
  (** the same for the addresses (FDPS/tree_for_force_utils2.hpp:425-439, 1013-1037) *)
  Definition placeAdrs (nImage nPer : list nat) (ranks : list nat) (buf out : list Z) : outcome (list Z) :=
    do r <- ofold (fun (st : list Z * nat) rank =>
                     let (out, cnt) := st in
                     do head <- mread (psum nImage) rank;
                     do tail <- mread (psum nImage) (S rank);
                     ofold (fun (st : list Z * nat) k =>
                              let (out, cnt) := st in
                              do h <- mread (psum nPer) k;
                              do t <- mread (psum nPer) (S k);
                              do out' <- copyRange buf cnt (t - h) out h;
                              Done (out', cnt + (t - h))) (seq head (tail - head)) (out, cnt)) ranks (out, 0);
    Done (fst r).
  (** FDPS/tree_for_force_utils2.hpp:389-439, 943-1037; the arrays of the table hold anything before *)
  Definition assemble (jv : nat -> vec N) (jn : nat -> nat) (jz : nat -> Z) (bs : list buffers) (nImage nSend : list nat) : outcome table :=
    let total := sum_list nImage in
    do shift <- ofold (fun out b => placeImages nImage (b_rank b) (b_shift b) out) bs (map jv (seq 0 total));
    do per <- ofold (fun out b => placeImages nImage (b_rank b) (b_per b) out) bs (map jn (seq 0 total));
    do adr <- ofold (fun out b => placeAdrs nImage per (b_rank b) (b_adr b) out) bs (map jz (seq 0 (sum_list per)));
    Done (Table nSend nImage shift per adr).

  (** FindScatterParticle of the short range modes (FDPS/tree_for_force_utils2.hpp:304-440): deal gives the ranks each thread
      works on, in its order.  The threads share no data except different elements of two arrays and are taken one after the other *)
  Definition findScatter (jv : nat -> vec N) (jn : nat -> nat) (jz : nat -> Z) (deal : list (list nat)) (fuel : nat) (pa : vec bool) (root : ort N)
    (doms : list (ort N)) (my : nat) (t : list cell * list (moment N)) (limit : Z) : outcome table :=
    let n := length doms in
    do r <- ofold (fun (st : list buffers * (list nat * list nat)) ranks =>
                     let (bs, counts) := st in
                     do r <- ofold (scatterRank fuel pa root doms my (fst t) (snd t) limit) ranks (Buffers [] [] [] [], counts);
                     Done (bs ++ [fst r], snd r)) deal ([], (map jn (seq 0 n), map jn (seq 0 n)));
    let '(bs, (nImage, nSend)) := r in
    assemble jv jn jz bs nImage nSend.

  (** ** Sending *)

  (** the loop that fills ep_send, in any order of the images (FDPS/tree_for_force_utils2.hpp:577-596, 621-640) *)
  Definition fillSend (jp : nat -> item) (order : list nat) (x : table) (eps : list item) : outcome (list item) :=
    ofold (fun buf i =>
             do shift <- mread (x_shift x) i;
             do n <- mread (x_per x) i;
             do off <- mread (psum (x_per x)) i;
             ofold (fun buf j =>
                      do adr <- mread (x_adr x) (off + j);
                      do e <- zread eps adr;
                      mwrite buf (off + j) (moved e shift)) (seq 0 n) buf) order (map jp (seq 0 (sum_list (x_send x)))).

  (** ExchangeParticle on all ranks (FDPS/tree_for_force_utils2.hpp:604-644; ExchangeLet, 559-600, is the same but receives behind the
      particles of the rank): nRecv are the numbers of particles to receive *)
  Definition sendItems (jp : nat -> nat -> item) (order : nat -> nat -> list nat) (xs : list table) (nRecv : list (list nat)) (eps : list (list item)) : outcome (list (list item)) :=
    do send <- omap (fun r => do x <- mread xs r;
                              do e <- mread eps r;
                              do buf <- fillSend (jp r) (order r (length (x_per x))) x e;
                              Done (Build_vbuf buf (x_send x) (psum (x_send x)))) (seq 0 (length xs));
    do recv <- omap (fun r => do c <- mread nRecv r; Done (Build_vbuf (map (jp r) (seq 0 (sum_list c))) c (psum c))) (seq 0 (length xs));
    MPI_Alltoallv send recv.

  (** ** Second step: particles in the search spheres of the particles received *)

  (** IsOverlapped (FDPS/tree_walk.hpp:750-780) from the children at adr *)
  Fixpoint isOverlapped (fuel : nat) (tc : list cell) (moms : list (moment N)) (limit : Z) (box : ort N) (adr : Z) : outcome bool :=
    match fuel with
    | O => NoFuel
    | S f =>
        do bits <- omap (fun i => do m <- zread moms (adr + i); Done (overlapsBox (v_out m) box)) (zrange 0 nChildren);
        ofold (fun found i =>
                 if (found : bool) then Done true
                 else
                   do d <- zread tc (adr + i);
                   if (n_ptcl d =? 0)%Z then Done false
                   else
                     do b <- zread bits i;
                     if (b : bool) then if isLeaf limit d then Done true else isOverlapped f tc moms limit box (toS32 (adr_tc d)) else Done false)
              (zrange 0 nChildren) false
    end.
  (** FDPS/tree_walk.hpp:782-795 *)
  Definition isOverlappedTop (t : list cell * list (moment N)) (limit : Z) (box : ort N) : outcome bool :=
    do c <- zread (fst t) 0;
    if isLeaf limit c then do m <- zread (snd t) 0; Done (overlapsBox (v_out m) box)
    else isOverlapped 22 (fst t) (snd t) limit box nChildren.

  (** MakeListDoubleWalk (FDPS/tree_walk.hpp:812-872) and GetOpenBitDoubleWalk (797-810) from the children at adr; A is the tree of the
      particles received, its leaves have one particle (FDPS/tree_for_force_utils2.hpp:853) *)
  Fixpoint doubleWalk (fuel : nat) (A t : list cell * list (moment N)) (limit : Z) (dom : ort N) (acc : list Z) (adr : Z) : outcome (list Z) :=
    match fuel with
    | O => NoFuel
    | S f =>
        do bits <- omap (fun i => do m <- zread (snd t) (adr + i);
                                  do d <- zread (fst t) (adr + i);
                                  do b <- (if overlapsBox (v_out m) dom then Done true else isOverlappedTop A 1 (v_in m));
                                  Done (b, n_ptcl d >? 0)%Z) (zrange 0 nChildren);
        ofold (fun acc i =>
                 do b <- zread bits i;
                 if negb (snd b) then Done acc
                 else if fst b then
                   do d <- zread (fst t) (adr + i);
                   if isLeaf limit d then
                     do m <- zread (snd t) (adr + i);
                     if overlapsBox dom (v_out m) then Done acc
                     else Done (acc ++ zrange (toS32 (adr_ptcl d)) (toS32 (adr_ptcl d) + n_ptcl d))
                   else doubleWalk f A t limit dom acc (toS32 (adr_tc d))
                 else Done acc) (zrange 0 nChildren) acc
    end.
  (** MakeListDoubleWalkTop (FDPS/tree_walk.hpp:875-911) *)
  Definition doubleWalkTop (A t : list cell * list (moment N)) (limit : Z) (dom : ort N) (acc : list Z) : outcome (list Z) :=
    do c <- zread (fst t) 0;
    if isLeaf limit c then
      do m <- zread (snd t) 0;
      if overlapsBox (v_out m) dom then Done acc
      else Done (acc ++ zrange (toS32 (adr_ptcl c)) (toS32 (adr_ptcl c) + n_ptcl c))
    else doubleWalk 22 A t limit dom acc nChildren.

  (** the loop that cuts the particles of a rank into runs of the same image (FDPS/tree_for_force_utils2.hpp:761-778): the runs hold the first
      particle, the number of particles and the image *)
  Definition addToRuns (fuel : nat) (pa : vec bool) (root : ort N) (recv : list item) (st : list (nat * nat * vec Z) * vec Z) (ip : nat) : outcome (list (nat * nat * vec Z) * vec Z) :=
    let (runs, old) := st in
    do e <- mread recv ip;
    do new <- imageId fuel pa root (s_pos (i_site e));
    if (vx old =? vx new)%Z && (vy old =? vy new)%Z && (vz old =? vz new)%Z then
      match rev runs with
      | [] => UB
      | (a, n, id) :: r => Done (rev r ++ [(a, S n, id)], old)
      end
    else Done (runs ++ [(ip, 1, new)], new).

  (** the tree of a run (FDPS/tree_for_force_utils2.hpp:826-859): keys of the particles, sorted by std::sort, and mk, which is LinkCellST and
      CalcMomentST *)
  Definition runTree (key : vec N -> outcome Z) (sort : list (Z * nat) -> list (Z * nat)) (mk : list Z -> list (site N) -> outcome (list cell * list (moment N)))
    (recv : list item) (run : nat * nat * vec Z) : outcome (list cell * list (moment N)) :=
    let '(a, n, _) := run in
    do tp <- omap (fun ip => do e <- mread recv ip; do k <- key (s_pos (i_site e)); Done (k, ip)) (seq a n);
    let tp := sort tp in
    do eps <- omap (fun ka => do e <- mread recv (snd ka); Done (i_site e)) tp;
    mk (map fst tp) eps.

  (** the body of the loop over the ranks that sent something (FDPS/tree_for_force_utils2.hpp:747-921) *)
  Definition doubleRank (key : vec N -> outcome Z) (sort : list (Z * nat) -> list (Z * nat)) (mk : list Z -> list (site N) -> outcome (list cell * list (moment N)))
    (fuel : nat) (pa : vec bool) (root : ort N) (doms : list (ort N)) (t : list cell * list (moment N)) (limit : Z) (nSrc : list nat) (recv : list item)
    (st : buffers * (list nat * list nat)) (i : nat) : outcome (buffers * (list nat * list nat)) :=
    let '(b, (nImage, nSend)) := st in
    do head <- mread (psum nSrc) i;
    do tail <- mread (psum nSrc) (S i);
    do r <- ofold (addToRuns fuel pa root recv) (seq head (tail - head)) ([], Vec (-9999) (-9999) (-9999))%Z;
    do nImage <- mwrite nImage i (length (fst r));
    do dom <- mread doms i;
    do r' <- ofold (fun (st : list (vec N) * list Z * list nat) run =>
                     let '(shifts, adr, per) := st in
                     let shift := imageShift (fullLength root) (snd run) in
                     do A <- runTree key sort mk recv run;
                     do adr' <- doubleWalkTop A t limit (shiftBox dom shift) adr;
                     Done (shifts ++ [shift], adr', per ++ [length adr' - length adr])) (fst r) (b_shift b, b_adr b, b_per b);
    let '(shifts, adr, per) := r' in
    do nSend <- mwrite nSend i (length adr - length (b_adr b));
    Done (Buffers (b_rank b ++ [i]) shifts adr per, (nImage, nSend)).

  (** FindExchangeParticleDoubleWalk (FDPS/tree_for_force_utils2.hpp:647-1061): deal gives the ranks that sent something to each thread *)
  Definition findDouble (jv : nat -> vec N) (jn : nat -> nat) (jz : nat -> Z) (deal : list nat -> list (list nat))
    (key : vec N -> outcome Z) (sort : list (Z * nat) -> list (Z * nat)) (mk : list Z -> list (site N) -> outcome (list cell * list (moment N)))
    (fuel : nat) (pa : vec bool) (root : ort N) (doms : list (ort N)) (t : list cell * list (moment N)) (limit : Z) (nSrc : list nat) (recv : list item) : outcome table :=
    let n := length doms in
    let rankSrc := filter (fun i => 0 <? nth i nSrc 0) (seq 0 n) in
    do r <- ofold (fun (st : list buffers * (list nat * list nat)) ranks =>
                     let (bs, counts) := st in
                     do r <- ofold (doubleRank key sort mk fuel pa root doms t limit nSrc recv) ranks (Buffers [] [] [] [], counts);
                     Done (bs ++ [fst r], snd r)) (deal rankSrc) ([], (repeat 0 n, repeat 0 n));
    let '(bs, (nImage, nSend)) := r in
    assemble jv jn jz bs nImage nSend.

  (** ** Both steps *)

  (** one of the two loops over the images of a rank that fill the table (FDPS/tree_for_force_impl.hpp:1580-1590, 1591-1601):
      x is the table of the step, i the rank, the state holds the arrays and n_image_cnt, n_ep_cnt *)
  Definition copyStep (x : table) (imageHead epHead i : nat) (st : (list (vec N) * list nat * list Z) * (nat * nat)) : outcome ((list (vec N) * list nat * list Z) * (nat * nat)) :=
    do head <- mread (psum (x_image x)) i;
    do tail <- mread (psum (x_image x)) (S i);
    ofold (fun (st : (list (vec N) * list nat * list Z) * (nat * nat)) j =>
             let '((shift, per, adr), (nImg, nEp)) := st in
             do h <- mread (psum (x_per x)) j;
             do t <- mread (psum (x_per x)) (S j);
             do s <- mread (x_shift x) j;
             do shift <- mwrite shift (imageHead + nImg) s;
             do p <- mread (x_per x) j;
             do per <- mwrite per (imageHead + nImg) p;
             do adr <- copyRange (x_adr x) h (t - h) adr (epHead + nEp);
             Done ((shift, per, adr), (S nImg, nEp + (t - h)))) (seq head (tail - head)) st.

  (** the table of both steps (FDPS/tree_for_force_impl.hpp:1531-1620), the ranks in any order *)
  Definition mergeTables (jv : nat -> vec N) (jn : nat -> nat) (jz : nat -> Z) (order : list nat) (x1 x2 : table) : outcome table :=
    let add l1 l2 := map (fun p => fst p + snd p) (combine l1 l2) in
    let nSend := add (x_send x1) (x_send x2) in
    let nImage := add (x_image x1) (x_image x2) in
    let total := length (x_shift x1) + length (x_shift x2) in
    do r <- ofold (fun (st : list (vec N) * list nat * list Z) i =>
                     do ih <- mread (psum nImage) i;
                     do eh <- mread (psum nSend) i;
                     do r1 <- copyStep x1 ih eh i (st, (0, 0));
                     do r2 <- copyStep x2 ih eh i r1;
                     Done (fst r2)) order (map jv (seq 0 total), map jn (seq 0 total), map jz (seq 0 (sum_list nSend)));
    let '(shift, per, adr) := r in
    Done (Table nSend nImage shift per adr).

  (** what is left open on a rank: the values in memory that has not been written, how the loops over ranks, images and tables are
      shared out, std::sort, and the construction of the trees of the runs (FDPS/tree_for_force_utils2.hpp:354-356, 744-746, 834, 855-859) *)
  Record chance := Chance {
    c_vec : nat -> vec N; c_nat : nat -> nat; c_adr : nat -> Z; c_item : nat -> item;
    c_deal1 : list (list nat); c_deal2 : list nat -> list (list nat);
    c_images1 : nat -> list nat; c_images : nat -> list nat; c_merge : list nat;
    c_sort : list (Z * nat) -> list (Z * nat);
    c_tree : list Z -> list (site N) -> outcome (list cell * list (moment N)) }.

  (** exchangeLocalEssentialTreeReuseListImpl with flag_reuse = false on all ranks (FDPS/tree_for_force_impl.hpp:1481-1643): eps are epj_sorted_ and
      trees tc_loc_; the result are the particles each rank receives behind its own *)
  Definition exchangeLet (ch : nat -> chance) (key : vec N -> outcome Z) (fuel : nat) (pa : vec bool) (root : ort N) (doms : list (ort N))
    (eps : list (list item)) (trees : list (list cell * list (moment N))) (limit : Z) : outcome (list (list item)) :=
    let ranks := seq 0 (length doms) in
    do x1 <- omap (fun r => do t <- mread trees r;
                            findScatter (c_vec (ch r)) (c_nat (ch r)) (c_adr (ch r)) (c_deal1 (ch r)) fuel pa root doms r t limit) ranks;
    do n1 <- MPI_Alltoall (map x_send x1);
    do recv1 <- sendItems (fun r => c_item (ch r)) (fun r => c_images1 (ch r)) x1 n1 eps;
    do x2 <- omap (fun r => do t <- mread trees r;
                            do n <- mread n1 r;
                            do e <- mread recv1 r;
                            findDouble (c_vec (ch r)) (c_nat (ch r)) (c_adr (ch r)) (c_deal2 (ch r)) key (c_sort (ch r)) (c_tree (ch r)) fuel pa root doms t limit n e) ranks;
    do n2 <- MPI_Alltoall (map x_send x2);
    do x <- omap (fun r => do a <- mread x1 r;
                           do b <- mread x2 r;
                           mergeTables (c_vec (ch r)) (c_nat (ch r)) (c_adr (ch r)) (c_merge (ch r)) a b) ranks;
    do n <- omap (fun r => do a <- mread n1 r; do b <- mread n2 r; Done (map (fun p => fst p + snd p) (combine a b))) ranks;
    sendItems (fun r => c_item (ch r)) (fun r => c_images (ch r)) x n eps.
End Let.
Arguments item : clear implicits. Arguments table : clear implicits. Arguments buffers : clear implicits. Arguments chance : clear implicits.
Arguments Item {N P}.
