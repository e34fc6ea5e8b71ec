(** Model of making the result folders: IOHelper::makeSubFolder (Util/IOHelper.hpp) and its two callers in Sylinder/SylinderSystem.cpp.
    mkdir of the operating system is modelled as far as it matters: it is atomic, sets errno only when it fails, and a name that is taken is reported first. *)
From Coq Require Import List ZArith Bool Ascii String.
From Verif Require Import Outcome RunModel.
Import ListNotations.

(** what a path names (mkdir at Util/IOHelper.hpp:65) *)
Inductive kind := Dir | Plain.
(** the file system, by paths without slashes at the end (mkdir at Util/IOHelper.hpp:65) *)
Definition fs := text -> option kind.
(** values of errno (Util/IOHelper.hpp:66) *)
Inductive errnoValue := EEXIST | ENOENT | ENOTDIR | EOther.
(** the path, reversed, without its slashes at the end (mkdir at Util/IOHelper.hpp:65) *)
Fixpoint dropSlash (r : text) : text := match r with c :: r' => if Ascii.eqb c "/" then dropSlash r' else r | [] => [] end.
(** the path, reversed, without its last name (mkdir at Util/IOHelper.hpp:65) *)
Fixpoint dropName (r : text) : text := match r with c :: r' => if Ascii.eqb c "/" then r else dropName r' | [] => [] end.
(** Util/IOHelper.hpp:65: a slash at the end does not matter *)
Definition canon (t : text) : text := rev (dropSlash (rev t)).
(** Util/IOHelper.hpp:65: "parent folder must exist" *)
Definition parent (t : text) : text := rev (dropSlash (dropName (dropSlash (rev t)))).
(** Util/IOHelper.hpp:65: mkdir; [denied]: no permission, no space and the like; the result None is success *)
Definition mkdir (denied : bool) (t : text) (f : fs) : fs * option errnoValue :=
  match f (canon t) with
  | Some _ => (f, Some EEXIST)
  | None => match f (parent t) with
            | None => (f, Some ENOENT)
            | Some Plain => (f, Some ENOTDIR)
            | Some Dir => if denied then (f, Some EOther)
                          else (fun p => if list_eq_dec ascii_dec p (canon t) then Some Dir else f p, None)
            end
  end.
(** how makeSubFolder ends: it returns or it leaves the program (Util/IOHelper.hpp:66-74) *)
Inductive ending := Returned | Exited.
(** Util/IOHelper.hpp:63-75; [errno]: its value before the call, from whatever failed earlier *)
Definition makeSubFolder (denied : bool) (t : text) (errno : errnoValue) (f : fs) : fs * ending :=
  let '(f, err) := mkdir denied t f in
  let errno := match err with Some e => e | None => errno end in
  match errno with
  | EEXIST => (f, Returned)
  | _ => match err with Some _ => (f, Exited) | None => (f, Returned) end
  end.
(** all ranks make the same folder (Sylinder/SylinderSystem.cpp:555), in the order in which their calls reach the file system; each has its own errno *)
Fixpoint makeAll (denied : bool) (t : text) (errnos : list errnoValue) (f : fs) : fs * list ending :=
  match errnos with
  | [] => (f, [])
  | e :: es => let '(f, r) := makeSubFolder denied t e f in let '(f, rs) := makeAll denied t es f in (f, r :: rs)
  end.
(** Sylinder/SylinderSystem.cpp:553-560 for the folder alone, one snapshot after the other on [size] ranks: each with its snapID, the errnos of the ranks
    in the order of their calls; the file system at the time when the files of each snapshot are opened, None when a rank has left *)
Fixpoint snapshots (size : Z) (l : list (Z * list errnoValue)) (f : fs) : outcome (list (option (text * fs))) :=
  match l with
  | [] => Done []
  | (snapID, errnos) :: l =>
      do t <- resultFolder size snapID ;
      let '(f, rs) := makeAll false t errnos f in
      if forallb (fun r => match r with Returned => true | Exited => false end) rs
      then do r <- snapshots size l f ; Done (Some (t, f) :: r) else Done [None]
  end.
