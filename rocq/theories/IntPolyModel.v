(** Model of puncturedfem/locfun/poly/integrate_poly.py over real numbers. *)
From Coq Require Import List ZArith Reals.
From Verif Require Import PyBase PolyModel.
Import ListNotations.
Open Scope R_scope.

(** One boundary sample of a cell: the point, the unit normal there, and the factor with which
    integrate_over_boundary (cell.py:710-758) multiplies the value at that sample. *)
Record bsample : Type := BSample { bs_x : R; bs_y : R; bs_nx : R; bs_ny : R; bs_w : R }.

(** cell.py:743-758 / closed_contour.py:572-635: a weighted sum over the samples *)
Definition integrate_over_boundary (K : list bsample) (vals : bsample -> R) : R :=
  fold_left (fun s k => s + vals k * bs_w k) K 0.

(** integrate_poly.py:13-41; xn is x.n (cell.dot_with_normal) *)
Definition integrate_poly_over_mesh_cell (p : poly RS) (K : list bsample) : R :=
  fold_left (fun val m =>
    val + integrate_over_boundary K (fun k =>
      (bs_x k * bs_nx k + bs_y k * bs_ny k) * m_eval RS m (bs_x k) (bs_y k)
        / (2 + INR (morder (malpha m))))) p 0.
