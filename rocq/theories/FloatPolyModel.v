(** Polynomials, sums and integrals over edges with IEEE doubles (Flocq), rounding to nearest even. The polynomial code is that of
    PolyModel.v over the scalars [DS]. *)
From Coq Require Import List ZArith Permutation.
From Flocq Require Import Core BinarySingleNaN.
From Verif Require Import PyBase PolyModel FloatIdxModel.
Import ListNotations.
Open Scope Z_scope.

Definition dadd (x y : double) : double := Bplus mode_NE x y.
Definition dmul (x y : double) : double := Bmult mode_NE x y.
Definition ddiv (x y : double) : double := Bdiv mode_NE x y.
(** An int as the other operand of a float. Beyond the largest double Python raises; the exponents and numbers of points here are
    far below. *)
Definition of_int (n : Z) : double := binary_normalize 53 1024 _ _ mode_NE n 0 false.
Definition DS : scal := {| car := double; szero := of_int 0; sone := of_int 1; sadd := dadd; smul := dmul; sdiv := ddiv; sabs := Babs; sltb := Bltb; sofZ := of_int |}.

Section Pow.
(** [x**n] for a float and an int n > 0: the power function of the C library or of numpy *)
Variable pow : double -> nat -> double.
(** monomial.py:127-156 *)
Definition dm_eval (m : mono DS) (x y : double) : double :=
  let v := dmul (mcoef m) (of_int 1) in
  let v := if Nat.ltb 0 (mx (malpha m)) then dmul v (pow x (mx (malpha m))) else v in
  if Nat.ltb 0 (my (malpha m)) then dmul v (pow y (my (malpha m))) else v.
(** poly.py:452-472 *)
Definition dp_eval (p : poly DS) (x y : double) : double := fold_left (fun v m => dadd v (dm_eval m x y)) p (of_int 0).
End Pow.

(** numpy.sum adds in an order that depends on the length and the processor. An order is a binary tree; zeros may be added as
    start values. *)
Inductive tree : Type := Leaf (x : double) | Node (a b : tree).
Fixpoint leaves (t : tree) : list double := match t with Leaf x => [x] | Node a b => leaves a ++ leaves b end.
Fixpoint tsum (t : tree) : double := match t with Leaf x => x | Node a b => dadd (tsum a) (tsum b) end.
Fixpoint depth (t : tree) : nat := match t with Leaf _ => O | Node a b => S (Nat.max (depth a) (depth b)) end.
Definition is_null (x : double) : bool := match x with B754_zero _ => true | _ => false end.
Definition orders (l : list double) (t : tree) : Prop := exists pad, Forall (fun x => is_null x = true) pad /\ Permutation (leaves t) (l ++ pad).
