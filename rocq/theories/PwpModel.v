(** Model of puncturedfem/locfun/poly/piecewise_poly.py and poly_eval.py. *)
From Coq Require Import List ZArith Reals Bool.
From Verif Require Import PyBase PolyModel BaryModel EdgeModel ContourModel CellModel TraceModel LocalModel.
Import List ListNotations.
Open Scope R_scope.

(** piecewise_poly.py:39-41 *)
Record pwp : Type := Pwp { w_polys : list (poly RS); w_num : Z; w_idx : Z }.
(** piecewise_poly.py:66-78 and 80-92: an int no smaller than [low] *)
Definition at_least (low : Z) (x : pyint) : res Z :=
  match x with PNotInt => Err TypeError | PInt z => if Z.ltb z low then Err ValueError else Ok z end.
(** piecewise_poly.py:61-63 and 94-106. The list of polynomials is not checked. *)
Definition mk_pwp (num : pyint) (polys : option (list (poly RS))) (idx : pyint) : res pwp :=
  do i <- at_least 0 idx; do m <- at_least 1 num;
  Ok (Pwp (match polys with Some l => l | None => repeat [] (Z.to_nat m) end) m i).

(** e.x[0, :] and e.x[1, :]. An edge that was never parameterized has no attribute x; after
    deparameterize the array is one-dimensional and the error is an IndexError. *)
Definition edge_x (e : edge) : res (list R * list R) :=
  if e_param e then Ok (map (fun s => fst (sx s)) (e_smp e), map (fun s => snd (sx s)) (e_smp e)) else Err AttributeError.

(** piecewise_poly.py:108-134. The variable idx stays 0. *)
Definition eval_on_edges (w : pwp) (es : list edge) : res (list R) :=
  if Z.eqb (Z.of_nat (List.length es)) (w_num w) then
    do vn <- fold_res (fun vn i =>
        do e <- geti es i; do p <- geti (w_polys w) i; do (x, y) <- edge_x e;
        Ok (fst vn ++ [on_points p x y], (snd vn + e_npts e)%Z)) (seq 0 (List.length es)) ([], 0%Z);
    fold_res (fun v i => do e <- geti es i; do a <- geti (fst vn) i; set_slice v 0 (0 + e_npts e) a)
      (seq 0 (List.length es)) (repeat 0 (Z.to_nat (snd vn)))
  else Err PolynomialError.
(** piecewise_poly.py:136-146 *)
Definition eval_on_mesh_boundary (w : pwp) (H : heap) (c : cell) : res (list R) :=
  do es <- kedges H c; eval_on_edges w es.

(** poly_eval.py:47-55 *)
Definition get_poly_vals (x y : list R) (polys : list (poly RS)) : res (list (list R)) :=
  if Nat.eqb (List.length y) (List.length x) then Ok (map (fun p => on_points p x y) polys) else Err SizeMismatchError.
(** poly_eval.py:18-29 *)
Definition get_poly_traces_edge (e : edge) (polys : list (poly RS)) : res (list (list R)) :=
  do (x, y) <- edge_x e; get_poly_vals x y polys.
