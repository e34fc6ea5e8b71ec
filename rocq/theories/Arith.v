(** The arithmetic a numeric function runs in.  Models of numeric code are written
    once for any arithmetic; theorems are about exact reals ([R_arith]) or about IEEE
    doubles ([F_arith]).  No code counterpart. *)
From Coq Require Import ZArith Reals Bool.
From Flocq Require Import Core BinarySingleNaN.
From Verif Require Import F64.

Record arith := Arith {
  num :> Type;
  a_add : num -> num -> num;
  a_sub : num -> num -> num;
  a_mul : num -> num -> num;
  a_div : num -> num -> num;
  a_neg : num -> num;
  a_abs : num -> num;
  a_sqrt : num -> num;
  a_lt : num -> num -> bool;
  a_le : num -> num -> bool;
  a_eq : num -> num -> bool;
  a_Z : Z -> num;             (* an integer *)
  a_lit : Z -> Z -> num       (* the dyadic literal m * 2^e *)
}.
Arguments a_add {_}. Arguments a_sub {_}. Arguments a_mul {_}. Arguments a_div {_}. Arguments a_neg {_}.
Arguments a_abs {_}. Arguments a_sqrt {_}. Arguments a_lt {_}. Arguments a_le {_}. Arguments a_eq {_}.
Arguments a_Z {_}. Arguments a_lit {_}.

Declare Scope arith_scope.
Delimit Scope arith_scope with A.
Infix "+" := a_add : arith_scope.
Infix "-" := a_sub : arith_scope.
Infix "*" := a_mul : arith_scope.
Infix "/" := a_div : arith_scope.
Notation "- x" := (a_neg x) : arith_scope.
Infix "<?" := a_lt : arith_scope.
Infix "<=?" := a_le : arith_scope.
Infix "=?" := a_eq : arith_scope.
Notation "x >? y" := (a_lt y x) (only parsing) : arith_scope.
Notation "x >=? y" := (a_le y x) (only parsing) : arith_scope.

(** exact reals *)
Definition R_arith : arith :=
  Arith R Rplus Rminus Rmult Rdiv Ropp Rabs R_sqrt.sqrt Rlt_bool Rle_bool Req_bool IZR
        (fun m e => (IZR m * bpow radix2 e)%R).

(** IEEE doubles *)
Definition F_arith : arith :=
  Arith f64 fadd fsub fmul fdiv fopp fabs fsqrt flt fle feq f_ofZ f_lit.

(** reduce a model instantiated with the reals to plain real expressions *)
Ltac rarith := cbn [num a_add a_sub a_mul a_div a_neg a_abs a_sqrt a_lt a_le a_eq a_Z a_lit R_arith] in *.

(** case analysis on real comparisons *)
Ltac rcase :=
  match goal with
  | |- context [Rlt_bool ?x ?y] => case (Rlt_bool_spec x y); intros
  | |- context [Rle_bool ?x ?y] => case (Rle_bool_spec x y); intros
  | |- context [Req_bool ?x ?y] => case (Req_bool_spec x y); intros
  end.

(** let unification find the arithmetic of a real or a double *)
Canonical Structure R_arith.
Canonical Structure F_arith.
