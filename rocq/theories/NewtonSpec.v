(** What a minimum-map Newton run reports. *)
From Coq Require Import List Arith ZArith Reals Bool.
From Verif Require Import Arith QPModel QPSpec NewtonModel.
Import ListNotations.
Local Open Scope R_scope.

Section NewtonSpec.
  Context (A : list R -> list R) (b : list R) (tol : R).

  (** norm of min(x, Ax+b) *)
  Definition phi (x : list R) : R := norm2 (N := R_arith) (minXY (N := R_arith) x (grad A b x)).

  (** what is known when the run ends: [prev] is the iterate before the returned one *)
  Definition newton_report (iteMax : nat) (x0 : list R) (r : newtonRun R_arith) : Prop :=
    map h_ite (n_hist r) = seq 1 (length (n_hist r)) /\ (length (n_hist r) <= iteMax)%nat /\
    match n_stop r with
    | LocalMinimum => n_code r = 1%Z /\ n_x r = x0
    | Exhausted => n_code r = 0%Z /\ length (n_hist r) = iteMax
    | SmallChange => n_code r = 0%Z
    | Converged => n_code r = 0%Z /\ Forall (Rle 0) (n_x r) /\
        exists hist e prev, n_hist r = hist ++ [e] /\ h_res e = phi prev /\ h_res e < tol /\
          (phi (n_x r) <= h_res e \/ h_step e * h_step e < stepMin (N := R_arith))
    end.
End NewtonSpec.
