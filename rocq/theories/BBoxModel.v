(** Model of puncturedfem/mesh/bounding_box.py over real numbers. *)
From Coq Require Import List Reals.
From Verif Require Import PyBase.
Import ListNotations.
Open Scope R_scope.

Definition lmin (a : R) (l : list R) : R := fold_left Rmin l a.
Definition lmax (a : R) (l : list R) : R := fold_left Rmax l a.

(** bounding_box.py:12-52 with tolerance [tl]; numpy.min of an empty array is a ValueError *)
Definition bounding_box (tl : R) (xs ys : list R) : res (R * R * R * R) :=
  match xs, ys with
  | x :: xs', y :: ys' =>
      let xmin := lmin x xs' in let xmax := lmax x xs' in
      let ymin := lmin y ys' in let ymax := lmax y ys' in
      let dx := xmax - xmin in let dy := ymax - ymin in
      let d := Rmax dx dy in
      if Rlt_dec d tl then Ok (xmin - d / 2, xmax + d / 2, ymin - d / 2, ymax + d / 2)
      else
        let (x0, x1) := if Rlt_dec dx tl then (xmin - d / 2, xmin + d / 2) else (xmin, xmax) in
        let (y0, y1) := if Rlt_dec dy tl then (ymin - d / 2, ymin + d / 2) else (ymin, ymax) in
        Ok (x0, x1, y0, y1)
  | _, _ => Err ValueError
  end.
