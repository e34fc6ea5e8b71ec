(** Model of the ascii snapshot: Sylinder::writeAscii (Sylinder/Sylinder.cpp:101-109), SylinderSystem::writeAscii
    (Sylinder/SylinderSystem.cpp:489-506) and SylinderSystem::setInitialFromFile (Sylinder/SylinderSystem.cpp:313-374) on bytes.
    The text of a double and its value are those of the C library (fprintf, strtod), which round correctly to nearest, ties to even. *)
From Coq Require Import List ZArith Bool.
From Flocq Require Import Core BinarySingleNaN Calc.Div.
From Verif Require Import Outcome ListUtil F64 Arith MPIModel ParticleModel IndexModel VecModel SylModel StepModel VtpModel InitModel.
Import ListNotations.
Local Open Scope Z_scope.

(** ** printf("%.8g") *)

(** base of the digits of %.8g and %lf (Sylinder/Sylinder.cpp:106, Sylinder/Sylinder.hpp:463) *)
Definition radix10 : radix := Build_radix 10 eq_refl.
(** a positive double m*2^e as a fraction (%.8g at Sylinder/Sylinder.cpp:106) *)
Definition ratio (m : positive) (e : Z) : Z * Z := if 0 <=? e then (Zpos m * 2 ^ e, 1) else (Zpos m, 2 ^ (- e)).
(** n/d to the nearest integer, ties to even (%.8g at Sylinder/Sylinder.cpp:106) *)
Definition nearestInt (n d : Z) : Z :=
  let q := n / d in let r := n mod d in
  if 2 * r <? d then q else if d <? 2 * r then q + 1 else if Z.even q then q else q + 1.
(** n/d * 10^s to the nearest integer (%.8g at Sylinder/Sylinder.cpp:106) *)
Definition scaledInt (n d s : Z) : Z := if 0 <=? s then nearestInt (n * 10 ^ s) d else nearestInt n (d * 10 ^ (- s)).
(** the X with 10^X <= n/d < 10^(X+1) (%.8g at Sylinder/Sylinder.cpp:106) *)
Definition decExp (n d : Z) : Z :=
  let k := Zdigits radix10 n - Zdigits radix10 d in
  if (if 0 <=? k then d * 10 ^ k <=? n else d <=? n * 10 ^ (- k)) then k else k - 1.
(** eight digits M and the exponent X of the first one (%.8g at Sylinder/Sylinder.cpp:106) *)
Definition dec8 (n d : Z) : Z * Z :=
  let X := decExp n d in
  let M := scaledInt n d (7 - X) in
  if M =? 10 ^ 8 then (10 ^ 7, X + 1) else (M, X).
(** the last n decimal digits (%.8g at Sylinder/Sylinder.cpp:106) *)
Fixpoint digitsN (n : nat) (z : Z) : list Z :=
  match n with O => [] | S n => digitsN n (z / 10) ++ [48 + z mod 10] end.
(** trailing zeros are removed (%.8g at Sylinder/Sylinder.cpp:106) *)
Fixpoint stripZeros (l : list Z) : list Z :=
  match l with
  | [] => []
  | c :: r => match stripZeros r with [] => if c =? 48 then [] else [c] | r' => c :: r' end
  end.
(** integer and fractional digits; no point without a fraction (%.8g at Sylinder/Sylinder.cpp:106) *)
Definition pointed (ip fp : list Z) : list Z := ip ++ match stripZeros fp with [] => [] | f => 46 :: f end.
(** fixed or exponential notation (%.8g at Sylinder/Sylinder.cpp:106) *)
Definition fmtDec (M X : Z) : list Z :=
  let ds := digitsN 8 M in
  if (-4 <=? X) && (X <? 8)
  then if X <? 0 then pointed [48] (repeat 48 (Z.to_nat (- X - 1)) ++ ds)
       else pointed (firstn (Z.to_nat (X + 1)) ds) (skipn (Z.to_nat (X + 1)) ds)
  else pointed (firstn 1 ds) (skipn 1 ds) ++
       101 :: (if X <? 0 then 45 else 43) :: digitsN (if Z.abs X <? 100 then 2 else 3) (Z.abs X).
(** the sign (%.8g at Sylinder/Sylinder.cpp:106) *)
Definition fmtSign (s : bool) : list Z := if s then [45] else [].
(** "%.8g" (Sylinder/Sylinder.cpp:106); the sign of a NaN is not modelled *)
Definition fmtG8 (v : f64) : list Z :=
  match v with
  | B754_zero s => fmtSign s ++ [48]
  | B754_infinity s => fmtSign s ++ [105; 110; 102]
  | B754_nan => [110; 97; 110]
  | B754_finite s m e _ => let (n, d) := ratio m e in let (M, X) := dec8 n d in fmtSign s ++ fmtDec M X
  end.
(** "%lf" of the header (Sylinder/Sylinder.hpp:463): six digits after the point *)
Definition fmtF6 (v : f64) : list Z :=
  match v with
  | B754_zero s => fmtSign s ++ [48; 46] ++ repeat 48 6
  | B754_infinity s => fmtSign s ++ [105; 110; 102]
  | B754_nan => [110; 97; 110]
  | B754_finite s m e _ =>
      let (n, d) := ratio m e in
      let z := scaledInt n d 6 in
      fmtSign s ++ fmtDigits 400 (z / 10 ^ 6) ++ 46 :: digitsN 6 z
  end.

(** ** stream >> double *)

(** a valid binary64 datum as a double (strtod, used by operator>> at Sylinder/SylinderSystem.cpp:325) *)
Definition ofSF (z : SpecFloat.spec_float) : f64 :=
  match bool_dec (SpecFloat.valid_binary prec64 emax64 z) true with left H => SF2B z H | right _ => B754_nan end.
(** strtod (operator>> at Sylinder/SylinderSystem.cpp:325): the double nearest to +-N*10^E *)
Definition strtod (neg : bool) (N E : Z) : f64 :=
  if N =? 0 then B754_zero neg
  else let '(n, d) := if 0 <=? E then (N * 10 ^ E, 1) else (N, 10 ^ (- E)) in
       let '(m, e, l) := Fdiv fexp64 (Float radix2 n 0) (Float radix2 d 0) in
       ofSF (binary_round_aux prec64 emax64 mode_NE neg m e l).
(** the largest double (num_get on overflow, operator>> at Sylinder/SylinderSystem.cpp:325) *)
Definition dblMax : f64 := f_lit (2 ^ 53 - 1) 971.
(** an optional sign (operator>> at Sylinder/SylinderSystem.cpp:325) *)
Definition takeSign (l : list Z) : bool * list Z :=
  match l with c :: r => if c =? 45 then (true, r) else if c =? 43 then (false, r) else (false, l) | [] => (false, []) end.
(** the exponent part after the digits, None when it is malformed (operator>> at Sylinder/SylinderSystem.cpp:325) *)
Definition takeExponent (l : list Z) : option Z * list Z :=
  match l with
  | c :: r =>
      if (c =? 101) || (c =? 69)
      then let (neg, r) := takeSign r in
           let (ds, r) := takeDigits r in
           (match ds with [] => None | _ => Some (if neg then - digitsValue ds else digitsValue ds) end, r)
      else (Some 0, l)
  | [] => (Some 0, [])
  end.
(** stream >> double on a good stream (C++11 num_get, operator>> at Sylinder/SylinderSystem.cpp:325): the new value, if it is
    assigned, whether the stream stays good, and the rest.  At the end of the text nothing is assigned; text that is no number
    gives 0; a number out of range gives the largest double. *)
Definition readDouble (l : list Z) : option f64 * bool * list Z :=
  match skipWs l with
  | [] => (None, false, [])
  | l =>
      let (neg, l) := takeSign l in
      let (ip, l) := takeDigits l in
      let (fp, l) := match l with c :: r => if c =? 46 then takeDigits r else ([], l) | [] => ([], []) end in
      match ip ++ fp with
      | [] => (Some f_zero, false, l)
      | ds =>
          let (ex, l) := takeExponent l in
          match ex with
          | None => (Some f_zero, false, l)
          | Some ex =>
              let v := strtod neg (digitsValue ds) (ex - Z.of_nat (length fp)) in
              if is_finite v then (Some v, true, l) else (Some (if neg then fopp dblMax else dblMax), false, l)
          end
      end
  end.
(** stream >> int as [readInt], but nothing is assigned at the end of the text (operator>> at Sylinder/SylinderSystem.cpp:325, 328) *)
Definition readInt' (l : list Z) : option Z * bool * list Z :=
  match skipWs l with [] => (None, false, []) | l => let '(v, ok, l) := readInt l in (Some v, ok, l) end.
(** one >> in a chain: a stream that failed assigns nothing (Sylinder/SylinderSystem.cpp:325) *)
Definition extract {A} (rd : list Z -> option A * bool * list Z) (st : bool * list Z) : option A * (bool * list Z) :=
  if fst st then let '(v, ok, l) := rd (snd st) in (v, (ok, l)) else (None, st).

(** ** the object of a line *)

(** what a line holds (Sylinder/SylinderSystem.cpp:319-328) *)
Record fields := Fields { f_type : Z; f_gid : Z; f_radius : f64; f_minus : vec f64; f_plus : vec f64; f_group : Z }.
(** reading a variable that was never assigned (Sylinder/SylinderSystem.cpp:319-323) *)
Definition assigned {A} (o : option A) : outcome A := match o with Some a => Done a | None => UB end.
(** Sylinder/SylinderSystem.cpp:317-328 *)
Definition parseFields (line : list Z) : outcome fields :=
  match skipWs line with
  | [] => UB
  | type :: l =>
      let st := (true, l) in
      let (gid, st) := extract readInt' st in
      let (radius, st) := extract readDouble st in
      let (mx, st) := extract readDouble st in
      let (my, st) := extract readDouble st in
      let (mz, st) := extract readDouble st in
      let (px, st) := extract readDouble st in
      let (py, st) := extract readDouble st in
      let (pz, st) := extract readDouble st in
      let (group, st) := extract readInt' st in
      do gid <- assigned gid; do radius <- assigned radius;
      do mx <- assigned mx; do my <- assigned my; do mz <- assigned mz;
      do px <- assigned px; do py <- assigned py; do pz <- assigned pz;
      Done (Fields type gid radius (Vec mx my mz) (Vec px py pz) (match group with Some g => g | None => -1 end))
  end.

Section Object.
  Context {N : arith}.
  Local Open Scope arith_scope.
  (** Sylinder/SylinderSystem.cpp:330-343: the object with the ends m and p; pow(x,2) is x*x *)
  Definition objectOf (eps : N) (perp : vec N -> vec N -> vec N) (u : unset N) (type gid : Z) (rad : N) (m p : vec N) (group : Z) : sylinder N :=
    let sq (x : N) := x * x in
    let len := a_sqrt (sq (vx p - vx m) + sq (vy p - vy m) + sq (vz p - vz m)) in
    let direction := vsub p m in
    let o := Vec (a_Z 0) (a_Z 0) (a_Z 0) in
    Syl gid (-1) (-1) group (Z.eqb type 83) rad rad len len (u_search u) (a_Z 0) (u_colBuf u)
      (Vec ((vx m + vx p) * a_lit 1 (-1)) ((vy m + vy p) * a_lit 1 (-1)) ((vz m + vz p) * a_lit 1 (-1)))
      (if len >? a_Z 1 / a_Z 10000000 then fromTwoVectorsAny eps perp ez direction else fromTwoVectorsAny eps perp ez ez)
      (Motion o o o o o o o o o o o o o o o o o o).
End Object.

(** Sylinder/SylinderSystem.cpp:317-344 *)
Definition parseSylinder (eps : f64) (perp : vec f64 -> vec f64 -> vec f64) (u : unset F_arith) (line : list Z) : outcome (sylinder F_arith) :=
  do f <- parseFields line;
  Done (objectOf (N := F_arith) eps perp u (f_type f) (f_gid f) (f_radius f) (f_minus f) (f_plus f) (f_group f)).

(** getline until the end of the file (Sylinder/SylinderSystem.cpp:351-355) *)
Fixpoint getlines (l : list Z) : list (list Z) :=
  match l with
  | [] => []
  | c :: r => if c =? 10 then [] :: getlines r else match getlines r with [] => [[c]] | a :: b => (c :: a) :: b end
  end.
(** Sylinder/SylinderSystem.cpp:356: lines of objects start with 'C' or 'S' *)
Definition isObject (line : list Z) : bool := (hd 0 line =? 67) || (hd 0 line =? 83).
(** Sylinder/SylinderSystem.cpp:313-374 on rank [rank]: [us i] what the constructor leaves unset in object i, [mem] the container before,
    [order] the schedule of the parallel loop *)
Definition setInitialFromFile (eps : f64) (perp : vec f64 -> vec f64 -> vec f64) (us : nat -> unset F_arith) (fresh : sylinder F_arith) (order : list nat)
  (rank : nat) (text : list Z) (mem : list (sylinder F_arith)) : outcome (list (sylinder F_arith)) :=
  if negb (rank =? 0)%nat then Done []
  else
    let ls := filter isObject (skipn 2 (getlines text)) in
    do sylinderReadFromFile <- omap (fun il => parseSylinder eps perp (us (fst il)) (snd il)) (combine (seq 0 (length ls)) ls);
    let nRead := length sylinderReadFromFile in
    forEach order (fun i _ => do sy <- mread sylinderReadFromFile i; Done (clearObject (N := F_arith) dblMax sy)) (resize nRead fresh mem).

(** ** writing *)

(** Sylinder/Sylinder.cpp:101-109 with the newline *)
Definition fmtObject (s : sylinder F_arith) : list Z :=
  let direction := axis s in
  let h := a_mul (a := F_arith) (a_lit 1 (-1)) (slength s) in
  let minus := vsub (spos s) (vscale h direction) in
  let plus := vadd (spos s) (vscale h direction) in
  (if immovable s then 83 else 67) :: 32 :: fmtInt (s_gid s) ++
  flat_map (fun v => 32 :: fmtG8 v) [radius s; vx minus; vy minus; vz minus; vx plus; vy plus; vz plus] ++
  32 :: fmtInt (s_group s) ++ [10].
(** Sylinder/Sylinder.hpp:463 *)
Definition fmtHeader (n : Z) (time : f64) : list Z := fmtInt n ++ [32; 10; 32] ++ fmtF6 time ++ [10].
(** writeParticleImpl with one file (FDPS/particle_system.hpp:348-383) and Sylinder/SylinderSystem.cpp:489-506 on all ranks: the file.
    [sss] the objects of the ranks, [junk] the receive buffer, [links] the map of rank 0 in the order of its iteration *)
Definition writeAsciiFile (junk : sylinder F_arith) (stepCount : Z) (dt : f64) (sss : list (list (sylinder F_arith))) (links : list (Z * Z)) : outcome (list Z) :=
  let n_ptcl := map (@length _) sss in
  let n_ptcl_displs := psum n_ptcl in
  let n_tot := last n_ptcl_displs 0%nat in
  do ptcl <- MPI_Gatherv_root sss (Build_vbuf (repeat junk n_tot) n_ptcl n_ptcl_displs);
  Done (fmtHeader (Z.of_nat (sum_list n_ptcl)) (fmul (f_ofZ stepCount) dt) ++ flat_map fmtObject ptcl ++
        flat_map (fun l => fmtLink l ++ [10]) links).
