(** Python's [int(a / b)] for ints that fit a double: the quotient is computed
    in IEEE binary64 (round to nearest even) and then truncated towards zero.
    Used by tractInfo.py:221, 264, 265. *)
From Coq Require Import Reals Lra.
From Flocq Require Import Core BinarySingleNaN.
Require Import Verif.Py.
Open Scope Z_scope.

Definition Hprec53 : Prec_gt_0 53 := eq_refl.
Definition Hmax1024 : Prec_lt_emax 53 1024 := eq_refl.

(** The double nearest to an int ([PyLong_AsDouble]; exact below 2^53). *)
Definition float_of_int (a : Z) : binary_float 53 1024 :=
  @binary_normalize 53 1024 Hprec53 Hmax1024 mode_NE a 0 false.

(** [int(a / b)]; CPython raises ZeroDivisionError for [b = 0]. Simplification:
    for |a| or |b| >= 2^53 CPython rounds the exact quotient instead of the
    quotient of the rounded operands; pixel indices are 32 bit. *)
Definition py_int_truediv (a b : Z) : res Z :=
  if b =? 0 then Raise ZeroDivisionError
  else Ok (Btrunc (@Bdiv 53 1024 Hprec53 Hmax1024 mode_NE (float_of_int a) (float_of_int b))).
