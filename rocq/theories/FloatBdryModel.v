(** Integrals over closed contours and over the boundaries of cells in double precision (C76) *)
From Coq Require Import List ZArith.
From Verif Require Import PyBase EdgeModel ContourModel CellModel FloatIdxModel FloatPolyModel FloatQuadModel.
Import ListNotations.

(** closed_contour.py:629-634, cell.py:751-757: consecutive blocks of values, each with its step and its size.
    Simplification: the blocks follow each other, so the indices where they start are not looked up. *)
Fixpoint d_blocks (steps : list (double * Z)) (v : list double) : list double :=
  match steps with
  | [] => []
  | (h, n) :: steps => map (dmul h) (firstn (Z.to_nat n) v) ++ d_blocks steps (skipn (Z.to_nat n) v)
  end.
(** closed_contour.py:631 *)
Definition d_contour_steps (H : heap) (k : contour) : res (list (double * Z)) :=
  map_res (fun i => do e <- deref H i; if Z.eqb (e_npts e - 1) 0 then Err ZeroDivisionError else Ok (d_h (e_npts e), (e_npts e - 1)%Z)) (k_edges k).
(** closed_contour.py:592-635 for one-dimensional arrays *)
Definition d_contour (order : list double -> tree) (v : list double) (H : heap) (k : contour) : res double :=
  do _ <- guard H k; do n <- attr (k_npts k);
  if Z.eqb (Z.of_nat (length v)) n then do s <- d_contour_steps H k; Ok (tsum (order (d_blocks s v))) else Err SizeMismatchError.
(** closed_contour.py:572-590: [w] has the weights at the points of the contour; they multiply the values one by one (535-569) *)
Definition d_contour_weighted (order : list double -> tree) (w v : list double) (H : heap) (k : contour) : res double :=
  do _ <- guard H k; do n <- attr (k_npts k);
  if Z.eqb (Z.of_nat (length v)) n then d_contour order (d_weighted v w) H k else Err SizeMismatchError.
(** cell.py:752-754 *)
Definition d_cell_steps (c : cell) : res (list (double * Z)) :=
  map_res (fun k => do m <- attr (k_npts k); if Z.eqb m 0 then Err ZeroDivisionError else Ok (d_hc (Z.of_nat (k_num k)) m, m)) (c_comps c).
(** cell.py:729-758 *)
Definition d_cell (order : list double -> tree) (v : list double) (H : heap) (c : cell) : res double :=
  do _ <- cell_guard H c; do n <- attr (c_npts c);
  if Z.eqb (Z.of_nat (length v)) n then do s <- d_cell_steps c; Ok (tsum (order (d_blocks s v))) else Err SizeMismatchError.
(** cell.py:710-727, with 682-707 *)
Definition d_cell_weighted (order : list double -> tree) (w v : list double) (H : heap) (c : cell) : res double :=
  do _ <- cell_guard H c; do n <- attr (c_npts c);
  if Z.eqb (Z.of_nat (length v)) n then d_cell order (d_weighted v w) H c else Err SizeMismatchError.
