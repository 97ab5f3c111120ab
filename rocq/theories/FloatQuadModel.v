(** Integrals over edges with IEEE doubles *)
From Coq Require Import List ZArith.
From Flocq Require Import Core BinarySingleNaN.
From Verif Require Import PyBase PolyModel FloatIdxModel FloatPolyModel.
Import ListNotations.
Open Scope Z_scope.

(** numpy.pi *)
Definition np_pi : double := binary_normalize 53 1024 _ _ mode_NE 884279719003555 (-48) false.
(** edge.py:783 *)
Definition d_h (num_pts : Z) : double := ddiv (dmul (of_int 2) np_pi) (of_int (num_pts - 1)).
Definition half : double := ddiv (of_int 1) (of_int 2).
Section Sum.
(** The order in which numpy.sum adds *)
Variable order : list double -> tree.
(** edge.py:788 and 793-795 *)
Definition d_left (num_pts : Z) (v : list double) : double := tsum (order (map (dmul (d_h num_pts)) (removelast v))).
Definition d_trapezoid (num_pts : Z) (v0 : double) (v' : list double) : double :=
  dadd (dmul (dmul half (d_h num_pts)) (dadd v0 (last (v0 :: v') v0))) (tsum (order (map (dmul (d_h num_pts)) (removelast v')))).
(** edge.py:762-796 *)
Definition d_preweighted (is_parameterized : bool) (num_pts : Z) (v : list double) (ignore_endpoint : bool) : res double :=
  if is_parameterized then
    if ignore_endpoint then
      if Z.eqb (Z.of_nat (length v)) (num_pts - 1) then Ok (d_left num_pts v) else Err SizeMismatchError
    else if Z.eqb (Z.of_nat (length v)) num_pts then match v with [] => Err IndexError | v0 :: v' => Ok (d_trapezoid num_pts v0 v') end else Err SizeMismatchError
  else Err NotParameterizedError.
(** edge.py:636-665 and 736-760; [w] is dx_norm, with num_pts entries *)
Definition d_weighted (v w : list double) : list double := map (fun p => dmul (fst p) (snd p)) (combine v w).
Definition d_over_edge (is_parameterized : bool) (num_pts : Z) (w v : list double) (ignore_endpoint : bool) : res double :=
  if is_parameterized then
    if Z.eqb (Z.of_nat (length v)) (if ignore_endpoint then num_pts - 1 else num_pts) then
      d_preweighted is_parameterized num_pts (d_weighted v (if ignore_endpoint then removelast w else w)) ignore_endpoint
    else Err SizeMismatchError
  else Err NotParameterizedError.
End Sum.

(** cell.py:754 *)
Definition d_hc (num_edges num_pts : Z) : double := ddiv (dmul (dmul (of_int 2) np_pi) (of_int num_edges)) (of_int num_pts).
