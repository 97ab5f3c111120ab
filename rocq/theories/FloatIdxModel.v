(** MultiIndex.set_from_idx with IEEE binary64 arithmetic (Flocq), rounding to nearest even. *)
From Coq Require Import List ZArith.
From Flocq Require Import Core BinarySingleNaN.
From Verif Require Import PyBase PolyModel.
Import ListNotations.
Open Scope Z_scope.

#[global] Instance prec53 : Prec_gt_0 53 := eq_refl.
#[global] Instance emax1024 : Prec_lt_emax 53 1024 := eq_refl.
Definition double : Type := binary_float 53 1024.

(** Python's conversion of an int to a float: correctly rounded, OverflowError beyond the
    largest finite double. *)
Definition float_of_int (n : Z) : res double :=
  match binary_normalize 53 1024 _ _ mode_NE n 0 false with
  | B754_infinity _ => Err OverflowError
  | x => Ok x
  end.

(** math.sqrt: ValueError for negative arguments *)
Definition py_sqrt (x : double) : res double :=
  match x with
  | B754_finite true _ _ _ => Err ValueError
  | _ => Ok (Bsqrt mode_NE x)
  end.

(** math.floor of a float: the exact integer; inf and nan raise *)
Definition py_floor (x : double) : res Z :=
  match x with
  | B754_zero _ => Ok 0
  | B754_finite s m e _ =>
      let z := if s then Z.neg m else Z.pos m in
      Ok (if Z.leb 0 e then z * 2 ^ e else z / 2 ^ (- e))
  | B754_infinity _ => Err OverflowError
  | B754_nan => Err ValueError
  end.

(** Float constants 1 and 2 *)
Definition fone : double := binary_normalize 53 1024 _ _ mode_NE 1 0 false.
Definition ftwo : double := binary_normalize 53 1024 _ _ mode_NE 2 0 false.

(** multi_index.py:86-98: t = floor((sqrt(8 * idx + 1) - 1) / 2), the rest in exact integers *)
Definition set_from_idx_float (idx : Z) : res mindex :=
  do x <- float_of_int (8 * idx + 1);
  do s <- py_sqrt x;
  do t <- py_floor (Bdiv mode_NE (Bminus mode_NE s fone) ftwo);
  let n := t * (t + 1) / 2 in
  mi_set (Some [PInt (t - idx + n); PInt (idx - n)]).
