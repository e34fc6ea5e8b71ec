(** Quadratic programs over boxes, complementarity problems. *)
From Coq Require Import List Arith ZArith Reals Bool.
From Flocq Require Import Core.
From Verif Require Import Arith QPModel.
Import ListNotations.
Local Open Scope R_scope.

(** inner product *)
Fixpoint ip (x y : list R) : R :=
  match x, y with a :: x', b :: y' => a * b + ip x' y' | _, _ => 0 end.
(** x + t z *)
Fixpoint axpy (t : R) (z x : list R) : list R :=
  match x, z with a :: x', b :: z' => (a + t * b) :: axpy t z' x' | _, _ => [] end.
(** sum of absolute values *)
Fixpoint abs_sum (x : list R) : R := match x with [] => 0 | a :: x' => Rabs a + abs_sum x' end.

Definition in_box (lb ub x : list R) : Prop := Forall2 Rle lb x /\ Forall2 Rle x ub.

(** a linear, symmetric, positive semi-definite operator on vectors of length n *)
Record sym_psd (n : nat) (A : list R -> list R) : Prop := {
  sp_len : forall x, length x = n -> length (A x) = n;
  sp_lin : forall t x z, length x = n -> length z = n -> A (axpy t z x) = axpy t (A z) (A x);
  sp_sym : forall x z, length x = n -> length z = n -> ip x (A z) = ip z (A x);
  sp_pos : forall x, length x = n -> 0 <= ip x (A x)
}.

(** the objective 1/2 x.Ax + b.x and its gradient Ax + b *)
Definition objective (A : list R -> list R) (b x : list R) : R := ip x (A x) / 2 + ip b x.
Definition grad (A : list R -> list R) (b x : list R) : list R := axpy 1 (A x) b.

Definition minimizes (A : list R -> list R) (b lb ub x : list R) : Prop :=
  in_box lb ub x /\ forall z, in_box lb ub z -> objective A b x <= objective A b z.
Definition minimizes_nonneg (A : list R -> list R) (b x : list R) : Prop :=
  Forall (Rle 0) x /\ forall z, length z = length x -> Forall (Rle 0) z -> objective A b x <= objective A b z.

(** x >= 0, y >= 0, x.y = 0, coordinate by coordinate *)
Definition complementary (x y : list R) : Prop := Forall2 (fun a b => 0 <= a /\ 0 <= b /\ a * b = 0) x y.

(** the margin of the residual test *)
Definition margin : R := 100 * bpow radix2 (-52).
(** bounds at least a margin apart *)
Definition wide (lb ub : list R) : Prop := Forall2 (fun l u => l + margin <= u) lb ub.
(** no coordinate within the margin of a bound without being on it *)
Definition off_margin (lb ub x : list R) : Prop :=
  forall i l u a, nth_error lb i = Some l -> nth_error ub i = Some u -> nth_error x i = Some a ->
    (a = l \/ l + margin <= a) /\ (a = u \/ a <= u - margin).

(** residual norm of a vector, as reported *)
Definition residual (lb ub : list R) (x y : list R) (r : R) : Prop :=
  exists q, projResidual (N := R_arith) lb ub x y = Some q /\ r = norm2 (N := R_arith) q.

(** sparse D^T, its columns below m *)
Definition cols_below {T} (D : list (list (nat * T))) (m : nat) : Prop :=
  forall row e, In row D -> In e row -> (fst e < m)%nat.

Section Reports.
  Context {N : arith}.
  (** history records numbered 0, 1, 2, ... *)
  Definition numbered (hist : list (hrec N)) : Prop := map h_ite hist = seq 0 (length hist).

  Context (evaluated : list N -> N -> Prop)  (* x has residual r *)
          (tol : N) (iteMax : nat).

  (** what a projected-gradient run reports.  Converged, stagnated, or out of iterations; in the last case
      the vector is the one of the record before the last. *)
  Inductive bb_report : Z -> list N -> list (hrec N) -> list N -> Prop :=
  | BB_converged : forall x hist e, evaluated x (h_res e) -> a_lt (a_abs (h_res e)) tol = true ->
      Forall (fun e => a_lt (a_abs (h_res e)) tol = false) hist -> (length hist <= iteMax)%nat ->
      numbered (hist ++ [e]) -> bb_report 0 x (hist ++ [e]) x
  | BB_stagnated : forall x hist e, evaluated x (h_res e) -> (length (hist ++ [e]) <= S iteMax)%nat ->
      Forall (fun e => a_lt (a_abs (h_res e)) tol = false) (hist ++ [e]) ->
      numbered (hist ++ [e]) -> bb_report 1 x (hist ++ [e]) x
  | BB_exhausted : forall x hist l e, length hist = S iteMax -> numbered hist ->
      Forall (fun e => a_lt (a_abs (h_res e)) tol = false) hist ->
      nth_error hist (iteMax - 1) = Some e -> evaluated x (h_res e) -> bb_report 0 x hist l.

  (** what an accelerated run reports: [first] the record written before the iterations, [rest] one record
      per iteration *)
  Inductive ap_report (ones : list N) : Z -> list N -> list (hrec N) -> list N -> Prop :=
  | AP_intro : forall code x first rest l,
      numbered (first :: rest) -> (length rest <= iteMax)%nat ->
      (* the best evaluated residual, or nothing below DBL_MAX *)
      ((exists e, In e rest /\ evaluated x (h_res e) /\ forall e', In e' rest -> a_lt (h_res e') (h_res e) = false) \/
       (x = ones /\ forall e', In e' rest -> a_lt (h_res e') dblMax = false)) ->
      (* why it stopped *)
      ((code = 0%Z /\ exists e, last rest first = e /\ rest <> [] /\ a_lt (h_res e) tol = true /\ evaluated l (h_res e)) \/
       (code = 0%Z /\ length rest = iteMax /\ forall e', In e' rest -> a_lt (h_res e') tol = false) \/
       (code = 1%Z /\ (length rest < iteMax)%nat /\ forall e', In e' rest -> a_lt (h_res e') tol = false)) ->
      ap_report ones code x (first :: rest) l.
End Reports.

(** ** The constraint matrix *)

(** entry (i, c) of the sparse D^T *)
Definition entry (D : list (list (nat * R))) (i c : nat) : R :=
  fold_right Rplus 0 (map (fun e => if Nat.eqb (fst e) c then snd e else 0) (nth i D [])).
(** sum over i < n *)
Definition big (n : nat) (f : nat -> R) : R := fold_right Rplus 0 (map f (seq 0 n)).
Definition at_ (x : list R) (i : nat) : R := nth i x 0.

(** f = D x, v = D^T w, by entries *)
Definition is_force (D : list (list (nat * R))) (m : nat) (x f : list R) : Prop :=
  length f = m /\ forall c, (c < m)%nat -> at_ f c = big (length D) (fun i => entry D i c * at_ x i).
Definition is_gap (D : list (list (nat * R))) (m : nat) (w v : list R) : Prop :=
  length v = length D /\ forall i, (i < length D)%nat -> at_ v i = big m (fun c => entry D i c * at_ w c).
(** part of the magnitudes: those of kind k (0 unilateral, 1 bilateral) *)
Definition of_kind (k : R) (biFlag g : list R) : list R :=
  map (fun p => if Req_bool (snd p) k then fst p else 0) (combine g biFlag).
