(** Inner products of local functions and integrals of polynomials over cells in double precision (C78) *)
From Coq Require Import List ZArith.
From Flocq Require Import Core BinarySingleNaN.
From Verif Require Import PyBase PolyModel EdgeModel ContourModel CellModel FloatIdxModel FloatPolyModel FloatQuadModel FloatBdryModel.
Import ListNotations.

Definition dsub (x y : double) : double := Bminus mode_NE x y.
Section Inner.
Variable order : list double -> tree.
(** inner_prod.py:88-101: product of two arrays, then the integral. Simplification: arrays of different sizes are refused;
    numpy would stretch an array with one entry, which no boundary has. *)
Definition d_flux (w v : list double) (H : heap) (c : cell) : res double :=
  if Nat.eqb (length w) (length v) then d_cell order (d_weighted w v) H c else Err BroadcastError.
(** inner_prod.py:112-137: difference of two such integrals *)
Definition d_green (w1 v2 v1 w2 : list double) (H : heap) (c : cell) : res double :=
  do a <- d_flux w1 v2 H c; do b <- d_flux v1 w2 H c; Ok (dsub a b).
(** local_poisson.py:276-279 and 305-308: four blocks, added from left to right *)
Definition d_four (a b c d : double) : double := dadd (dadd (dadd a b) c) d.

(** A sample: position, unit normal and weight *)
Record dsample : Type := DSample { dx : double; dy : double; dnx : double; dny : double; dw : double }.
(** edge.py:730-732 at one point *)
Definition d_dot (s : dsample) : double := dadd (dmul (dx s) (dnx s)) (dmul (dy s) (dny s)).
Variable pow : double -> nat -> double.
(** integrate_poly.py:39 at one point *)
Definition d_integrand (m : mono DS) (s : dsample) : double :=
  ddiv (dmul (d_dot s) (dm_eval pow m (dx s) (dy s))) (of_int (2 + Z.of_nat (morder (malpha m)))).
(** integrate_poly.py:35-41; [pts] are the samples of the boundary of the cell *)
Definition d_int_poly (pts : list dsample) (p : poly DS) (H : heap) (c : cell) : res double :=
  do _ <- cell_guard H c;
  fold_res (fun val (m : mono DS) => do i <- d_cell_weighted order (map dw pts) (map (d_integrand m) pts) H c; Ok (dadd val i)) p (of_int 0).
End Inner.
