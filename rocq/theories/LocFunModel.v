(** Model of puncturedfem/locfun/locfun.py (deprecated). The solver is the record [nyst] of
    LocalModel; keys are not modelled. *)
From Coq Require Import List ZArith Reals Bool.
From Verif Require Import PyBase PolyModel BaryModel VertModel EdgeModel ContourModel CellModel TraceModel LocalModel.
Import List ListNotations.
Open Scope R_scope.

(** locfun.py:89-99. [f_bi] is None while the attribute biharmonic_trace does not exist. *)
Record lfun : Type := LFun { f_poly : poly RS; f_anti : poly RS; f_ptrace : trace; f_htrace : trace; f_conj : trace; f_log : list R; f_bi : option trace }.

(** locfun.py:252-262. The trace has the polynomial as function on each edge. *)
Definition poly_trace (p : poly RS) (H : heap) (c : cell) : res trace :=
  do es <- kedges H c;
  do t <- mk_trace (Some es) false (Some (FOne (FPoly p))) None;
  do w <- poly_deriv dot_with_normal p H c;
  set_wnd t (One (VArr w)).
(** locfun.py:279-287. An absent derivative of a logarithm is None in a product. *)
Definition fun_wnd (N : nyst) (c : cell) (w lc : list R) : res (list R) :=
  do d <- ny_wtd N w;
  fold_res (fun d j => do a <- geti lc j; do t <- geti (ny_lam N) j; do u <- arith (tr_wnd t); np_iadd d (map (Rmult a) u)) (holes c) d.
(** locfun.py:289-293 *)
Definition fun_conjugable (N : nyst) (c : cell) (v lc : list R) : res (list R) :=
  do n <- attr (c_npts c);
  do lam <- fold_res (fun l j => do a <- geti lc j; do t <- geti (ny_lam N) j; do u <- attr (tr_vals t); np_iadd l (map (Rmult a) u)) (holes c) (repeat 0 (Z.to_nat n));
  np_sub v lam.
(** locfun.py:322-324. MeshCell has no attribute is_inside: cell.py:506 is a local variable. *)
Definition compute_interior (f : lfun) : res lfun := Err AttributeError.
(** locfun.py:134-145, 249-250, 264-277 and 295-307 *)
Definition mk_lfun (N : nyst) (H : heap) (c : cell) (f : poly RS) (g : targ) (for_l2 interior gradient : bool) : res lfun :=
  let p := panti_laplacian RS f in let q := panti_laplacian RS p in
  do pt <- poly_trace p H c;
  do t <- match g with TTrace t => Ok t | TVal v => cell_trace H c v end;
  do a <- attr (tr_vals t); do b <- attr (tr_vals pt); do d <- np_sub a b;
  do ht <- cell_trace H c (VArr d);
  do v <- attr (tr_vals ht);
  do (w, lc) <- ny_conj N v; do ct <- cell_trace H c (VArr w);
  do w <- attr (tr_vals ct);
  do d <- fun_wnd N c w lc; do ht <- set_wnd ht (One (VArr d));
  do bi <- (if for_l2 then
      do psi <- fun_conjugable N c v lc; do (b, bw) <- ny_anti N psi w lc;
      do t <- cell_trace H c (VArr b); do t <- set_wnd t (One (VArr bw)); Ok (Some t)
    else Ok None);
  let r := LFun p q pt ht ct lc bi in
  if orb interior gradient then compute_interior r else Ok r.

(** The second argument of a method: a LocalFunction or anything else *)
Inductive fother : Type := FLoc (f : lfun) | FElse.
(** K.integrate_over_boundary_preweighted of a product of two arrays *)
Definition bdy_prod (u v : res (list R)) (H : heap) (c : cell) : res R := do u <- u; do v <- v; do f <- np_mul u v; cell_integrate_preweighted f H c.
(** locfun.py:156-180 *)
Definition fun_h1 (f : lfun) (o : fother) (H : heap) (c : cell) : res R :=
  match o with
  | FElse => Err TypeError
  | FLoc g =>
      let (px, py) := pgrad RS (f_poly f) in let (qx, qy) := pgrad RS (f_poly g) in
      do a <- int_poly (padd RS (pmul RS px qx) (pmul RS py qy)) H c;
      do b <- bdy_prod (arith (tr_wnd (f_htrace f))) (attr (tr_vals (f_ptrace g))) H c;
      do d <- bdy_prod (attr (tr_vals (f_ptrace f))) (arith (tr_wnd (f_htrace g))) H c;
      do e <- bdy_prod (arith (tr_wnd (f_htrace f))) (attr (tr_vals (f_htrace g))) H c;
      Ok (a + b + d + e)
  end.
(** locfun.py:204-212 and 215-223: harmonic [h] against the anti-Laplacian of [p] *)
Definition fun_mixed (h : trace) (p : poly RS) (H : heap) (c : cell) : res (R * R) :=
  do (x1, x2) <- boundary_points H c;
  let r := panti_laplacian RS p in
  do w <- poly_deriv dot_with_normal r H c;
  do a <- bdy_prod (attr (tr_vals h)) (Ok w) H c;
  do b <- bdy_prod (arith (tr_wnd h)) (Ok (on_points r x1 x2)) H c;
  Ok (a, b).
(** locfun.py:191-233. Reading biharmonic_trace fails where it was never set. *)
Definition fun_l2 (f : lfun) (o : fother) (H : heap) (c : cell) : res R :=
  match o with
  | FElse => Err TypeError
  | FLoc g =>
      do s <- attr (f_bi f); do _ <- attr (f_bi g);
      do a <- int_poly (pmul RS (f_poly f) (f_poly g)) H c;
      do (b, b') <- fun_mixed (f_htrace f) (f_poly g) H c;
      do (d, d') <- fun_mixed (f_htrace g) (f_poly f) H c;
      do e <- bdy_prod (arith (tr_wnd s)) (attr (tr_vals (f_htrace g))) H c;
      do e' <- bdy_prod (attr (tr_vals s)) (arith (tr_wnd (f_htrace g))) H c;
      Ok (a + b - b' + d - d' + e - e')
  end.
