(** Model of puncturedfem/locfun/{local_polynomial,local_harmonic,local_poisson,inner_prod}.py,
    poly/integrate_poly.py on a cell and two methods of poly/poly.py. A cell is a heap of edges and
    a cell record (CellModel). Objects are complete: a LocalHarmonic or LocalPolynomial built by
    hand without a solver or cell has unset attributes and is not modelled. A function's mesh_cell
    is the heap and cell handed to each operation; keys are not modelled. *)
From Coq Require Import List ZArith Reals Bool.
From Verif Require Import PyBase PolyModel BaryModel VertModel EdgeModel ContourModel CellModel TraceModel.
Import List ListNotations.
Open Scope R_scope.

(** numpy: u - v and u += v on one-dimensional arrays *)
Definition np_sub (u v : list R) : res (list R) := np_add u (map Ropp v).
Definition np_iadd (u v : list R) : res (list R) :=
  if Nat.eqb (List.length u) (List.length v) then Ok (map (fun p => fst p + snd p) (combine u v))
  else match v with [c] => Ok (map (fun x => x + c) u) | _ => Err BroadcastError end.
(** An array attribute that may be None, used in arithmetic *)
Definition arith (o : option (list R)) : res (list R) := match o with Some a => Ok a | None => Err TypeError end.

(** cell.py:157-170, the edge objects *)
Definition kedges (H : heap) (c : cell) : res (list edge) := map_res (deref H) (cell_edges c).
(** DirichletTrace(edges=K.get_edges(), values=v) *)
Definition cell_trace (H : heap) (c : cell) (v : tval) : res trace := do es <- kedges H c; mk_trace (Some es) false None (Some (One v)).
(** A polynomial at the points of two coordinate arrays of equal length *)
Definition on_points (p : poly RS) (x1 x2 : list R) : list R := map (fun z => peval RS p (fst z) (snd z)) (combine x1 x2).

(** poly.py:396-401 and 417-422; [d] is dot_with_normal or dot_with_tangent *)
Definition poly_deriv (d : list R -> list R -> bool -> edge -> res (list R)) (p : poly RS) (H : heap) (c : cell) : res (list R) :=
  do (x1, x2) <- boundary_points H c;
  let (gx, gy) := pgrad RS p in
  do nd <- cell_dot d (on_points gx x1 x2) (on_points gy x1 x2) H c;
  cell_dx_norm nd H c.
(** integrate_poly.py:35-41 *)
Definition int_poly (p : poly RS) (H : heap) (c : cell) : res R :=
  do (x1, x2) <- boundary_points H c;
  do xn <- cell_dot dot_with_normal x1 x2 H c;
  fold_res (fun val (m : mono RS) =>
      do f <- np_mul xn (map (fun z => m_eval RS m (fst z) (snd z)) (combine x1 x2));
      do i <- cell_integrate (map (fun x => x / (2 + INR (morder (malpha m)))) f) H c;
      Ok (val + i)) p 0.

(** ** local_polynomial.py *)

(** local_polynomial.py:46-51 *)
Record lpoly : Type := LPoly { lp_form : poly RS; lp_trace : trace; lp_g1 : poly RS; lp_g2 : poly RS; lp_anti : poly RS; lp_atrace : trace }.
(** local_polynomial.py:66-87 *)
Definition mk_lpoly (p : poly RS) (H : heap) (c : cell) : res lpoly :=
  do (x1, x2) <- boundary_points H c;
  do t <- cell_trace H c (VArr (on_points p x1 x2));
  let (g1, g2) := pgrad RS p in
  do w <- poly_deriv dot_with_normal p H c; do t <- set_wnd t (One (VArr w));
  do w <- poly_deriv dot_with_tangent p H c; do t <- set_wtd t (One (VArr w));
  let q := panti_laplacian RS p in
  do s <- cell_trace H c (VArr (on_points q x1 x2));
  do w <- poly_deriv dot_with_normal q H c; do s <- set_wnd s (One (VArr w));
  Ok (LPoly p t g1 g2 q s).
(** local_polynomial.py:103-113 *)
Definition lp_add (a b : lpoly) : res lpoly :=
  do t <- tr_add (lp_trace a) (lp_trace b); do s <- tr_add (lp_atrace a) (lp_atrace b);
  Ok (LPoly (padd RS (lp_form a) (lp_form b)) t (padd RS (lp_g1 a) (lp_g1 b)) (padd RS (lp_g2 a) (lp_g2 b)) (padd RS (lp_anti a) (lp_anti b)) s).
(** local_polynomial.py:129-139 *)
Definition lp_mul (a : lpoly) (x : snum) : res lpoly :=
  match x with
  | SBad => Err TypeError
  | SNum k =>
      do t <- tr_mul (lp_trace a) x; do s <- tr_mul (lp_atrace a) x;
      Ok (LPoly (pscale RS (lp_form a) k) t (pscale RS (lp_g1 a) k) (pscale RS (lp_g2 a) k) (pscale RS (lp_anti a) k) s)
  end.
(** local_polynomial.py:171-183 *)
Definition lp_div (a : lpoly) (x : snum) : res lpoly :=
  match x with
  | SBad => Err TypeError
  | SNum k =>
      if Req_EM_T k 0 then Err ValueError else
      do f <- pdiv_scal RS (lp_form a) k false; do t <- tr_div (lp_trace a) x;
      do g1 <- pdiv_scal RS (lp_g1 a) k false; do g2 <- pdiv_scal RS (lp_g2 a) k false;
      do q <- pdiv_scal RS (lp_anti a) k false; do s <- tr_div (lp_atrace a) x;
      Ok (LPoly f t g1 g2 q s)
  end.
(** local_polynomial.py:199-209 *)
Definition lp_sub (a b : lpoly) : res lpoly :=
  do t <- tr_sub (lp_trace a) (lp_trace b); do s <- tr_sub (lp_atrace a) (lp_atrace b);
  Ok (LPoly (psub RS (lp_form a) (lp_form b)) t (psub RS (lp_g1 a) (lp_g1 b)) (psub RS (lp_g2 a) (lp_g2 b)) (psub RS (lp_anti a) (lp_anti b)) s).

(** ** local_harmonic.py *)

(** What local_harmonic.py asks of the solver and of the spectral code: the harmonic conjugate and
    logarithmic coefficients (nystrom.py), the traces of the logarithms, the weighted tangential
    derivative of an array (fft_deriv.py) and the anti-Laplacian with its weighted normal
    derivative (antilap.py). All four are arbitrary here. *)
Record nyst : Type := Nyst {
  ny_conj : list R -> res (list R * list R); ny_lam : list trace;
  ny_wtd : list R -> res (list R); ny_anti : list R -> list R -> list R -> res (list R * list R) }.

(** local_harmonic.py:56-60 *)
Record lharm : Type := LHarm { lh_trace : trace; lh_psi : trace; lh_conj : trace; lh_log : list R; lh_bi : trace }.
Definition holes (c : cell) : list nat := seq 0 (Z.to_nat (c_holes c)).
(** local_harmonic.py:202-208 *)
Definition harm_conj (N : nyst) (H : heap) (c : cell) (v : list R) : res (trace * list R) :=
  do (w, lc) <- ny_conj N v; do t <- cell_trace H c (VArr w); Ok (t, lc).
(** local_harmonic.py:232-237 *)
Definition conjugable (N : nyst) (H : heap) (c : cell) (v lc : list R) : res trace :=
  do n <- attr (c_npts c);
  do lam <- fold_res (fun l j => do a <- geti lc j; do t <- geti (ny_lam N) j; do u <- attr (tr_vals t); np_iadd l (map (Rmult a) u)) (holes c) (repeat 0 (Z.to_nat n));
  do w <- np_sub v lam; cell_trace H c (VArr w).
(** local_harmonic.py:213-229 *)
Definition harm_wnd (N : nyst) (c : cell) (w lc : list R) : res (list R) :=
  do d <- ny_wtd N w;
  fold_res (fun d j => do t <- geti (ny_lam N) j; match tr_wnd t with None => Err ValueError | Some u => do a <- geti lc j; np_iadd d (map (Rmult a) u) end) (holes c) d.
(** local_harmonic.py:240-251 *)
Definition biharm (N : nyst) (H : heap) (c : cell) (v w lc : list R) : res trace :=
  do (b, bw) <- ny_anti N v w lc; do t <- cell_trace H c (VArr b); set_wnd t (One (VArr bw)).
(** local_harmonic.py:75-84. The code stores the derivatives in the caller's trace; here the
    record has the updated trace. *)
Definition mk_lharm (N : nyst) (H : heap) (c : cell) (t : trace) : res lharm :=
  do v <- attr (tr_vals t);
  do d <- ny_wtd N v; do t <- set_wtd t (One (VArr d));
  do (ct, lc) <- harm_conj N H c v;
  do psi <- conjugable N H c v lc;
  do w <- attr (tr_vals ct);
  do d <- harm_wnd N c w lc; do t <- set_wnd t (One (VArr d));
  do p <- attr (tr_vals psi);
  do b <- biharm N H c p w lc;
  Ok (LHarm t psi ct lc b).
(** local_harmonic.py:100-111 *)
Definition lh_add (a b : lharm) : res lharm :=
  do t <- tr_add (lh_trace a) (lh_trace b); do p <- tr_add (lh_psi a) (lh_psi b); do q <- tr_add (lh_conj a) (lh_conj b);
  do s <- tr_add (lh_bi a) (lh_bi b);
  Ok (LHarm t p q (map (fun z => fst z + snd z) (combine (lh_log a) (lh_log b))) s).
(** local_harmonic.py:127-133. For something that is no number the first product raises. *)
Definition lh_mul (a : lharm) (x : snum) : res lharm :=
  do t <- tr_mul (lh_trace a) x; do p <- tr_mul (lh_psi a) x; do q <- tr_mul (lh_conj a) x;
  do s <- tr_mul (lh_bi a) x;
  match x with SBad => Err ValueError | SNum k => Ok (LHarm t p q (map (fun y => y * k) (lh_log a)) s) end.
(** local_harmonic.py:181-191 *)
Definition lh_div (a : lharm) (x : snum) : res lharm :=
  match x with
  | SBad => Err TypeError
  | SNum k =>
      if Req_EM_T k 0 then Err ValueError else
      do t <- tr_div (lh_trace a) x; do p <- tr_div (lh_psi a) x; do q <- tr_div (lh_conj a) x;
      do s <- tr_div (lh_bi a) x;
      Ok (LHarm t p q (map (fun y => y / k) (lh_log a)) s)
  end.
(** local_harmonic.py:165 *)
Definition lh_sub (a b : lharm) : res lharm := do m <- lh_mul b (SNum (-1)); lh_add a m.

(** ** Interior values *)

(** One boundary sample: point, unit tangent, quadrature weight, and the values of the conjugable
    part and of its conjugate *)
Record csample : Type := CSample { cs_x : pt; cs_t : pt; cs_w : R; cs_u : R; cs_v : R }.
Definition norm_sq (z : pt) : R := fst z ^ 2 + snd z ^ 2.
Definition psub_pt (x y : pt) : pt := (fst x - fst y, snd x - snd y).
(** local_poisson.py:391-400 *)
Definition eta (s : csample) (y : pt) : R := let z := psub_pt (cs_x s) y in (fst z * cs_u s + snd z * cs_v s) / norm_sq z.
Definition eta_hat (s : csample) (y : pt) : R := let z := psub_pt (cs_x s) y in (fst z * cs_v s - snd z * cs_u s) / norm_sq z.
(** local_poisson.py:401 *)
Definition int_f (s : csample) (y : pt) : R := fst (cs_t s) * eta_hat s y + snd (cs_t s) * eta s y.
(** local_poisson.py:405-408 *)
Definition omega (s : csample) (y : pt) : R := let z := psub_pt (cs_x s) y in (fst z * eta s y + snd z * eta_hat s y) / norm_sq z.
Definition omega_hat (s : csample) (y : pt) : R := let z := psub_pt (cs_x s) y in (fst z * eta_hat s y - snd z * eta s y) / norm_sq z.
Definition int_g1 (s : csample) (y : pt) : R := fst (cs_t s) * omega_hat s y + snd (cs_t s) * omega s y.
Definition int_g2 (s : csample) (y : pt) : R := fst (cs_t s) * omega s y - snd (cs_t s) * omega_hat s y.
(** local_poisson.py:417-420 for one point *)
Definition cauchy (f : csample -> pt -> R) (l : list csample) (y : pt) : R := np_sum (map (fun s => cs_w s * f s y) l) * (1 / 2) / PI.
(** local_poisson.py:372-380: the centres of the logarithms with their coefficients *)
Definition log_terms (c : cell) (lc : list R) : res (list (pt * R)) :=
  map_res (fun k => do comp <- geti (c_comps c) (S k); do xi <- attr (k_int comp); do a <- geti lc k; Ok (coord xi, a)) (holes c).
(** local_poisson.py:383-413. The arrays have one entry per boundary point. *)
Definition csamples (h : lharm) (H : heap) (c : cell) : res (list csample) :=
  do u <- attr (tr_vals (lh_psi h)); do v <- attr (tr_vals (lh_conj h));
  do (x1, x2) <- boundary_points H c;
  do n <- attr (c_npts c);
  do (t1, t2) <- cell_vectors dot_with_tangent H c;
  if andb (Z.eqb (Z.of_nat (List.length u)) n) (Z.eqb (Z.of_nat (List.length v)) n) then
    do w <- cell_weights H c;
    if Z.eqb n 0 then Err ZeroDivisionError else
    Ok (map (fun z => let '(x, t, (w, (u, v))) := z in CSample x t (w * (2 * PI * INR (c_nedges c) / IZR n)) u v)
      (combine (combine (combine x1 x2) (combine t1 t2)) (combine w (combine u v))))
  else Err BroadcastError.
(** local_poisson.py:346-420 for one point: polynomial, logarithms, Cauchy sum *)
Definition at_pt (logs : list (pt * R)) (l : list csample) (q : poly RS) (g : pt -> pt -> R -> R) (f : csample -> pt -> R) (y : pt) : R :=
  fold_left (fun s z => s + g y (fst z) (snd z)) logs (peval RS q (fst y) (snd y)) + cauchy f l y.
(** local_poisson.py:374-377, 379 and 380 *)
Definition log_val (y xi : pt) (a : R) : R := 1 / 2 * a * ln (norm_sq (psub_pt y xi)).
Definition log_g1 (y xi : pt) (a : R) : R := a * fst (psub_pt y xi) / norm_sq (psub_pt y xi).
Definition log_g2 (y xi : pt) (a : R) : R := a * snd (psub_pt y xi) / norm_sq (psub_pt y xi).
(** local_poisson.py:340-420. A point on the boundary or at a centre is divided by zero in the
    code; the model has no counterpart of inf and nan. *)
Definition interior_values (p : lpoly) (h : lharm) (H : heap) (c : cell) (with_grad : bool) : res (list R * list R * list R) :=
  do ys <- attr (c_int c);
  do logs <- log_terms c (lh_log h);
  do l <- csamples h H c;
  Ok (map (at_pt logs l (lp_form p) log_val int_f) ys,
      (if with_grad then map (at_pt logs l (lp_g1 p) log_g1 int_g1) ys else map (fun _ => 0) ys),
      (if with_grad then map (at_pt logs l (lp_g2 p) log_g2 int_g2) ys else map (fun _ => 0) ys)).

(** ** local_poisson.py *)

(** local_poisson.py:80-86 *)
Record lpois : Type := LPois { u_harm : lharm; u_poly : lpoly; u_vals : option (list R); u_g1 : option (list R); u_g2 : option (list R) }.
(** The trace argument: a DirichletTrace, or a number or array *)
Inductive targ : Type := TTrace (t : trace) | TVal (v : tval).
(** local_poisson.py:118-135 *)
Definition mk_lpois (N : nyst) (H : heap) (c : cell) (f : poly RS) (g : targ) (interior gradient : bool) : res lpois :=
  do p <- mk_lpoly (panti_laplacian RS f) H c;
  do t <- match g with TTrace t => Ok t | TVal v => cell_trace H c v end;
  do a <- attr (tr_vals t); do b <- attr (tr_vals (lp_trace p)); do d <- np_sub a b;
  do t <- cell_trace H c (VArr d);
  do h <- mk_lharm N H c t;
  if orb interior gradient then
    do (vals, g1, g2) <- interior_values p h H c gradient; Ok (LPois h p (Some vals) (Some g1) (Some g2))
  else Ok (LPois h p None None None).
(** An optional array: None stays None *)
Definition opt_add (a b : option (list R)) : res (option (list R)) :=
  match a, b with Some a, Some b => do x <- np_add a b; Ok (Some x) | _, _ => Ok None end.
(** local_poisson.py:151-163 *)
Definition u_add (a b : lpois) : res lpois :=
  do p <- lp_add (u_poly a) (u_poly b); do h <- lh_add (u_harm a) (u_harm b);
  do v <- opt_add (u_vals a) (u_vals b); do g1 <- opt_add (u_g1 a) (u_g1 b); do g2 <- opt_add (u_g2 a) (u_g2 b);
  Ok (LPois h p v g1 g2).
(** local_poisson.py:179-191 *)
Definition u_mul (a : lpois) (x : snum) : res lpois :=
  match x with
  | SBad => Err TypeError
  | SNum k =>
      do p <- lp_mul (u_poly a) x; do h <- lh_mul (u_harm a) x;
      let f := option_map (map (fun y => y * k)) in
      Ok (LPois h p (f (u_vals a)) (f (u_g1 a)) (f (u_g2 a)))
  end.
(** local_poisson.py:223 and 239-243 *)
Definition u_sub (a b : lpois) : res lpois := do m <- u_mul b (SNum (-1)); u_add a m.
Definition u_div (a : lpois) (x : snum) : res lpois :=
  match x with SBad => Err TypeError | SNum k => if Req_EM_T k 0 then Err ValueError else u_mul a (SNum (1 / k)) end.
(** local_poisson.py:255 *)
Definition get_trace_values (a : lpois) : res (list R) :=
  do x <- attr (tr_vals (lh_trace (u_harm a))); do y <- attr (tr_vals (lp_trace (u_poly a))); np_add x y.

(** ** inner_prod.py *)

Inductive lgen : Type := GHarm (h : lharm) | GPoly (p : lpoly).
(** inner_prod.py:91-93 and 99-101: [t] is the other trace *)
Definition h1_flux (h : lharm) (t : trace) (H : heap) (c : cell) : res R :=
  do w <- arith (tr_wnd (lh_trace h)); do v <- attr (tr_vals t); do f <- np_mul w v; cell_integrate_preweighted f H c.
(** inner_prod.py:107-109 *)
Definition h1_pp (p q : lpoly) (H : heap) (c : cell) : res R :=
  int_poly (padd RS (pmul RS (lp_g1 p) (lp_g1 q)) (pmul RS (lp_g2 p) (lp_g2 q))) H c.
(** inner_prod.py:115-123 *)
Definition l2_hh (h k : lharm) (H : heap) (c : cell) : res R :=
  do w <- arith (tr_wnd (lh_bi h)); do v <- attr (tr_vals (lh_trace k)); do f <- np_mul w v; do a <- cell_integrate_preweighted f H c;
  do v <- attr (tr_vals (lh_bi h)); do w <- arith (tr_wnd (lh_trace k)); do f <- np_mul v w; do b <- cell_integrate_preweighted f H c;
  Ok (a - b).
(** inner_prod.py:129-137 *)
Definition l2_hp (h : lharm) (p : lpoly) (H : heap) (c : cell) : res R :=
  match tr_wnd (lp_atrace p) with
  | None => Err ValueError
  | Some w =>
      do v <- attr (tr_vals (lh_trace h)); do f <- np_mul v w; do a <- cell_integrate_preweighted f H c;
      do w <- arith (tr_wnd (lh_trace h)); do v <- attr (tr_vals (lp_atrace p)); do f <- np_mul w v; do b <- cell_integrate_preweighted f H c;
      Ok (a - b)
  end.
(** inner_prod.py:143-144 *)
Definition l2_pp (p q : lpoly) (H : heap) (c : cell) : res R := int_poly (pmul RS (lp_form p) (lp_form q)) H c.
(** inner_prod.py:40-52 *)
Definition h1_gen (v w : lgen) (H : heap) (c : cell) : res R :=
  match v, w with
  | GHarm h, GHarm k => h1_flux h (lh_trace k) H c
  | GHarm h, GPoly p => h1_flux h (lp_trace p) H c
  | GPoly p, GHarm h => h1_flux h (lp_trace p) H c
  | GPoly p, GPoly q => h1_pp p q H c
  end.
(** inner_prod.py:73-85 *)
Definition l2_gen (v w : lgen) (H : heap) (c : cell) : res R :=
  match v, w with
  | GHarm h, GHarm k => l2_hh h k H c
  | GHarm h, GPoly p => l2_hp h p H c
  | GPoly p, GHarm h => l2_hp h p H c
  | GPoly p, GPoly q => l2_pp p q H c
  end.
(** The second argument of the methods: a LocalPoissonFunction, one of its two parts, or
    anything else *)
Inductive uother : Type := UPois (u : lpois) | UGen (g : lgen) | UBad.
(** local_poisson.py:268-284 *)
Definition h1_inner (u : lpois) (o : uother) (H : heap) (c : cell) : res R :=
  let h := GHarm (u_harm u) in let p := GPoly (u_poly u) in
  match o with
  | UBad => Err TypeError
  | UPois v =>
      do a <- h1_gen h (GHarm (u_harm v)) H c; do b <- h1_gen p (GPoly (u_poly v)) H c;
      do d <- h1_gen h (GPoly (u_poly v)) H c; do e <- h1_gen p (GHarm (u_harm v)) H c; Ok (a + b + d + e)
  | UGen g => do a <- h1_gen h g H c; do b <- h1_gen p g H c; Ok (a + b)
  end.
(** local_poisson.py:297-313 *)
Definition l2_inner (u : lpois) (o : uother) (H : heap) (c : cell) : res R :=
  let h := GHarm (u_harm u) in let p := GPoly (u_poly u) in
  match o with
  | UBad => Err TypeError
  | UPois v =>
      do a <- l2_gen h (GHarm (u_harm v)) H c; do b <- l2_gen h (GPoly (u_poly v)) H c;
      do d <- l2_gen p (GHarm (u_harm v)) H c; do e <- l2_gen p (GPoly (u_poly v)) H c; Ok (a + b + d + e)
  | UGen g => do a <- l2_gen h g H c; do b <- l2_gen p g H c; Ok (a + b)
  end.
