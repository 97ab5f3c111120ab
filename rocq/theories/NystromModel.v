(** Model of puncturedfem/locfun/nystrom.py. Matrices are lists of rows. *)
From Coq Require Import List ZArith Reals Bool String.
From Verif Require Import PyBase PolyModel BaryModel QuadModel VertModel EdgeModel ContourModel CellModel TraceModel LocalModel FftModel AntilapModel.
Import List ListNotations.
Open Scope R_scope.

Definition mat : Type := list (list R).
(** numpy.zeros((n, m)) *)
Definition zero_mat (n m : Z) : mat := repeat (repeat 0 (Z.to_nat m)) (Z.to_nat n).
(** M[a:b, c:d] = B; only a block of that shape is accepted here, numpy would also stretch a block
    with a single row or column *)
Definition set_block (M : mat) (a b c d : Z) (B : mat) : res mat :=
  if Nat.eqb (List.length B) (List.length (slice M a b)) then
    do rows <- map_res (fun rb => set_slice (fst rb) c d (snd rb)) (combine (slice M a b) B);
    set_slice M a b rows
  else Err ValueError.
(** M @ u *)
Definition np_dot (r u : list R) : R := np_sum (map (fun p => fst p * snd p) (combine r u)).
Definition mat_vec (M : mat) (u : list R) : res (list R) :=
  map_res (fun r => if Nat.eqb (List.length r) (List.length u) then Ok (np_dot r u) else Err ValueError) M.
(** numpy.sum(M, 1) *)
Definition row_sums (M : mat) : list R := map np_sum M.
(** u[idx] for an array of indices, none of them negative *)
Definition pick (u : list R) (idx : list Z) : res (list R) := map_res (fun i => geti u (Z.to_nat i)) idx.
(** A scipy LinearOperator of shape (n, n) checks the sizes of what it gets and of what it gives *)
Definition lin_call (n : Z) (f : list R -> res (list R)) (u : list R) : res (list R) :=
  if Z.eqb (Z.of_nat (List.length u)) n then
    do y <- f u; if Z.eqb (Z.of_nat (List.length y)) n then Ok y else Err ValueError
  else Err ValueError.

(** ** Kernels

    numba does not check indices; here an index outside an array is an IndexError. A value that is
    not finite is [None]. *)
Definition sq_dist (x y : pt) : R := (fst x - fst y) * (fst x - fst y) + (snd x - snd y) * (snd x - snd y).
Definition pt_dot (x y : pt) : R := fst x * fst y + snd x * snd y.
Definition log_fin (x : R) : option R := if Rlt_dec 0 x then Some (ln x) else None.
(** f.quad_type[0:5] == "kress" (nystrom.py:597-600 and 712-715) *)
Definition j_start (f : edge) : nat := if String.eqb (substring 0 5 (e_qtype f)) "kress" then 1%nat else 0%nat.
(** range(num_pts - 1) *)
Definition pts_range (e : edge) : list nat := seq 0 (Z.to_nat (e_npts e - 1)).
(** -0.5 / (num_pts - 1) and 1 / (num_pts - 1) *)
Definition step_of (k : R) (f : edge) : res R := if Z.eqb (e_npts f - 1) 0 then Err ZeroDivisionError else Ok (k / IZR (e_npts f - 1)).
(** A block filled entry by entry, columns before [j_start] staying zero *)
Definition edge_block (e f : edge) (entry : sample -> sample -> res R) : res mat :=
  map_res (fun i => map_res (fun j =>
      if Nat.ltb j (j_start f) then Ok 0
      else do s <- geti (e_smp e) i; do t <- geti (e_smp f) j; entry s t) (pts_range f)) (pts_range e).
(** nystrom.py:806-827 *)
Definition double_same (h : R) (s t : sample) : res R :=
  let d := sq_dist (sx s) (sx t) in
  let b := if Rlt_dec d TOL then 5 / 10 * sk t else pt_dot (psub_pt (sx s) (sx t)) (sN t) / d in
  Ok (b * (sw t * h)).
(** nystrom.py:830-848; numba raises ZeroDivisionError, as does line 742 for other values that are not finite *)
Definition double_distinct (h : R) (s t : sample) : res R :=
  let d := sq_dist (sx s) (sx t) in
  if Req_EM_T d 0 then Err ZeroDivisionError else Ok (sw t * h * pt_dot (psub_pt (sx s) (sx t)) (sN t) / d).
(** nystrom.py:692-744; edges are compared by identity *)
Definition double_edge_block (same : bool) (e f : edge) : res mat :=
  do h <- step_of 1 f; edge_block e f (if same then double_same h else double_distinct h).

(** nystrom.py:788-803 with the test of lines 619-620 *)
Definition single_distinct (h : R) (s t : sample) : res R :=
  match log_fin (sq_dist (sx s) (sx t)) with Some l => Ok (l * h) | None => Err ZeroDivisionError end.
(** nystrom.py:772-784: one row. Line 778 writes to column i, which is j unless the Martensen node
    of |i - j| is tiny. *)
Definition TINY : R := 1 / 100000000000000.
Definition single_same_row (h : R) (x : list sample) (wgt node : list R) (n j0 i : nat) : res (list (option R)) :=
  fold_res (fun row j =>
      let ij := (Nat.max i j - Nat.min i j)%nat in
      do m <- geti node ij; do si <- geti x i; do sj <- geti x j;
      let row :=
        if Rlt_dec m TINY then
          if Rlt_dec (sw si) TINY then hset row i (Some 0) else hset row i (option_map (Rmult 2) (log_fin (sw sj)))
        else hset row j (log_fin (sq_dist (sx si) (sx sj) / m)) in
      do b <- geti row j; do w <- geti wgt ij;
      Ok (hset row j (option_map (fun b => b * h + w) b)))
    (filter (fun j => Nat.leb j0 j) (seq 0 n)) (repeat (Some 0) n).
(** nystrom.py:619-620 *)
Definition finite (l : list (option R)) : res (list R) := map_res (fun o => match o with Some x => Ok x | None => Err ZeroDivisionError end) l.
(** nystrom.py:574-622 *)
Definition single_edge_block (same : bool) (e f : edge) (qm : quad) : res mat :=
  do h <- step_of (- (5 / 10)) f;
  if same then
    do rows <- map_res (fun i => single_same_row h (e_smp e) (q_wgt qm) (q_t qm) (Z.to_nat (e_npts e - 1)) (j_start f) i) (pts_range e);
    map_res finite rows
  else edge_block e f (single_distinct h).

(** ** Matrices *)

(** The loops of nystrom.py:535-572 and 661-690 *)
Definition component_block (H : heap) (ki kj : contour) (block : nat -> nat -> edge -> edge -> res mat) : res mat :=
  do n <- attr (k_npts ki); do m <- attr (k_npts kj);
  fold_res (fun B k =>
      do a <- geti (k_vidx ki) k; do b <- geti (k_vidx ki) (S k); do p <- geti (k_edges ki) k; do e <- deref H p;
      fold_res (fun B l =>
          do u <- geti (k_vidx kj) l; do v <- geti (k_vidx kj) (S l); do q <- geti (k_edges kj) l; do f <- deref H q;
          do E <- block p q e f; set_block B a b u v E) (seq 0 (k_num kj)) B)
    (seq 0 (k_num ki)) (zero_mat n m).
(** nystrom.py:564, evaluated before the blocks of a row of blocks *)
Definition single_block (p q : nat) (e f : edge) : res mat :=
  do qm <- mk_quad "mart" (PInt ((e_npts e - 1) / 2)) 7; single_edge_block (Nat.eqb p q) e f qm.
Definition double_block (p q : nat) (e f : edge) : res mat := double_edge_block (Nat.eqb p q) e f.
(** nystrom.py:522-533 and 646-659 *)
Definition layer_mat (H : heap) (c : cell) (block : nat -> nat -> edge -> edge -> res mat) : res mat :=
  do n <- attr (c_npts c);
  fold_res (fun M i =>
      do s <- attr (c_start c); do a <- geti s i; do b <- geti s (S i); do ki <- geti (c_comps c) i;
      fold_res (fun M j =>
          do u <- geti s j; do v <- geti s (S j); do kj <- geti (c_comps c) j;
          do B <- component_block H ki kj block; set_block M a b u v B) (comp_range c) M)
    (comp_range c) (zero_mat n n).

(** ** Operators *)

(** The attributes that the constructor has set before it builds operators *)
Record layers : Type := Layers { ly_single : mat; ly_double : mat; ly_sum : list R }.
(** nystrom.py:117-119, 285-297 *)
Definition build_layers (H : heap) (c : cell) : res layers :=
  do A <- layer_mat H c single_block; do D <- layer_mat H c double_block; Ok (Layers A D (row_sums D)).
(** nystrom.py:506-520 *)
Definition single_layer (c : cell) (L : layers) (u : list R) : res (list R) :=
  do n <- attr (c_npts c); lin_call n (mat_vec (ly_single L)) u.
(** nystrom.py:626-644 *)
Definition double_layer (c : cell) (L : layers) (u : list R) : res (list R) :=
  do n <- attr (c_npts c);
  lin_call n (fun u =>
      do idx <- attr (c_closest c); do corner <- pick u idx;
      do d <- np_sub u corner;
      let y := map (Rmult (5 / 10)) d in
      do m <- mat_vec (ly_double L) u; do y <- np_iadd y m;
      do t <- np_mul corner (ly_sum L); np_iadd y (map Ropp t)) u.
(** nystrom.py:299-311 *)
Definition neumann_op (H : heap) (c : cell) (L : layers) (u : list R) : res (list R) :=
  do n <- attr (c_npts c);
  lin_call n (fun u => do y <- double_layer c L u; do k <- cell_integrate u H c; Ok (map (fun x => x + k) y)) u.

(** nystrom.py:69-71 *)
Record logterms : Type := LogTerms { lt_trace : list trace; lt_T1 : mat; lt_Sn : mat }.
(** nystrom.py:432-451 and 453-472 *)
Definition moments (d : trace -> option (list R)) (H : heap) (c : cell) (lam : list trace) (v : list R) : res (list R) :=
  map_res (fun j => do t <- geti lam j; do w <- arith (d t); do x <- np_mul v w; cell_integrate_preweighted x H c) (holes c).
Definition Sn := moments tr_wnd.
Definition St := moments tr_wtd.
(** nystrom.py:396-420; a sample at the centre would make numpy produce nan *)
Definition log_trace (H : heap) (c : cell) (x1 x2 : list R) (j : nat) : res trace :=
  do k <- geti (c_comps c) (S j); do xi <- attr (k_int k);
  let d := map (fun x => psub_pt x (coord xi)) (combine x1 x2) in
  do t <- cell_trace H c (VArr (map (fun z => 5 / 10 * ln (norm_sq z)) d));
  let g1 := map (fun z => fst z / norm_sq z) d in let g2 := map (fun z => snd z / norm_sq z) d in
  do w <- norm H c g1 g2; do t <- set_wnd t (One (VArr w));
  do w <- tang H c g1 g2; set_wtd t (One (VArr w)).
(** The matrix with the given columns, of [n] rows *)
Definition from_columns (n : nat) (cs : list (list R)) : mat := map (fun i => map (fun col => nth i col 0) cs) (seq 0 n).
(** nystrom.py:386-430; columns have the right lengths, as the operators check *)
Definition compute_log_terms (H : heap) (c : cell) (L : layers) : res logterms :=
  do (x1, x2) <- boundary_points H c; do n <- attr (c_npts c);
  do lam <- map_res (log_trace H c x1 x2) (holes c);
  do T1 <- map_res (fun j => do t <- geti lam j; do w <- attr (tr_wtd t); single_layer c L w) (holes c);
  do sn <- map_res (fun j => do t <- geti lam j; do v <- attr (tr_vals t); Sn H c lam v) (holes c);
  Ok (LogTerms lam (from_columns (Z.to_nat n) T1) (from_columns (Z.to_nat (c_holes c)) sn)).
(** nystrom.py:313-332 *)
Definition conjugate_op (H : heap) (c : cell) (L : layers) (T : logterms) (x : list R) : res (list R) :=
  do n <- attr (c_npts c);
  lin_call (n + c_holes c) (fun x =>
      let psi := firstn (Z.to_nat n) x in let a := skipn (Z.to_nat n) x in
      do y <- double_layer c L psi; do k <- cell_integrate psi H c;
      let y := map (fun v => v + k) y in
      do t <- mat_vec (lt_T1 T) a; do y <- np_iadd y (map Ropp t);
      do s <- St H c (lt_trace T) psi; do b <- mat_vec (lt_Sn T) a; do z <- np_add (map Ropp s) b;
      Ok (y ++ z)) x.

(** ** Preconditioners *)

(** nystrom.py:367-383; [T] is absent on a cell without holes *)
Definition layer_diagonal (H : heap) (c : cell) (A : mat) : res (list R) :=
  do n <- attr (c_npts c);
  do D <- fold_res (fun D j =>
      do k <- geti (c_comps c) j; do s <- attr (c_start c); do a <- geti s j;
      do (D, _) <- fold_res (fun Da p =>
          do e <- deref H p; do h <- step_of 1 e;
          let stop := (snd Da + (e_npts e - 1))%Z in
          do D <- set_slice (fst Da) (snd Da) stop (map (fun s => 5 / 10 + 5 / 10 * sk s * sw s * h) (removelast (e_smp e)));
          Ok (D, stop)) (k_edges k) (D, a);
      Ok D) (seq 0 (List.length (c_comps c))) (repeat 0 (Z.to_nat n));
  do d <- map_res (fun i => do r <- geti A i; geti r i) (holes c);
  Ok (D ++ d).
(** nystrom.py:336-365; numpy divides by zero without an exception, here the quotient is an unspecified real *)
Definition np_quot (x d : list R) : res (list R) := np_mul x (map Rinv d).

(** ** The solver *)

Section Gmres.
(** scipy.sparse.linalg.gmres with the tolerances of nystrom.py:273, for an operator, a right-hand
    side and a preconditioner; the flag only decides about a message *)
Variable gmres : (list R -> res (list R)) -> list R -> (list R -> res (list R)) -> res (list R).

(** nystrom.py:194-212 *)
Definition solve_neumann (H : heap) (c : cell) (L : layers) (D : list R) (w : list R) : res (list R) :=
  do b <- single_layer c L w; do n <- attr (c_npts c);
  gmres (neumann_op H c L) b (lin_call n (fun x => np_quot x (firstn (Z.to_nat n) D))).
(** nystrom.py:251-268 *)
Definition conjugate_holes (H : heap) (c : cell) (L : layers) (T : logterms) (D : list R) (phi w : list R) : res (list R * list R) :=
  do n <- attr (c_npts c);
  do b <- single_layer c L (map Ropp w); do s <- Sn H c (lt_trace T) phi;
  do x <- gmres (conjugate_op H c L T) (b ++ s) (lin_call (n + c_holes c) (fun x => np_quot x D));
  Ok (firstn (Z.to_nat n) x, skipn (Z.to_nat n) x).
(** nystrom.py:474-502 *)
Definition indicator (H : heap) (c : cell) (first : nat) (k : contour) : res trace :=
  do c0 <- geti (c_comps c) 0; do n0 <- attr (k_npts c0);
  do outer <- contour_integrate (repeat 1 (Z.to_nat n0)) H c0;
  do t <- cell_trace H c (VScal 0);
  do n <- attr (k_npts k); do inner <- contour_integrate (repeat 1 (Z.to_nat n)) H k;
  do t <- fold_res (fun t i => set_trace_values_on_edge t (Z.of_nat i) (VScal (- inner / outer))) (seq 0 (k_num c0)) t;
  fold_res (fun t i => set_trace_values_on_edge t (Z.of_nat (first + i)) (VScal 1)) (seq 0 (k_num k)) t.
Definition normal_indicators (H : heap) (c : cell) (L : layers) (D : list R) : res (list trace) :=
  do c0 <- geti (c_comps c) 0;
  do (l, _) <- fold_res (fun la k =>
      do chi <- indicator H c (snd la) k; do v <- attr (tr_vals chi);
      do w <- cell_dx_norm v H c; do y <- solve_neumann H c L D w; do t <- cell_trace H c (VArr y);
      Ok (fst la ++ [t], (snd la + k_num k)%nat)) (tl (c_comps c)) ([], k_num c0);
  Ok l.

(** nystrom.py:79-160 *)
Record solver : Type := Solver { sv_layers : layers; sv_terms : logterms; sv_diag : list R; sv_strategy : strategy; sv_eta : option (list trace) }.
Definition mk_solver (H : heap) (c : cell) (strategy_name precond : string) : res solver :=
  do L <- build_layers H c;
  do T <- (if Z.ltb 0 (c_holes c) then compute_log_terms H c L else Ok (LogTerms [] [] []));
  if String.eqb precond "jacobi" then
    do D <- layer_diagonal H c (lt_Sn T);
    do s <- set_strategy strategy_name;
    do eta <- (if Z.ltb 0 (c_holes c) then match s with ByFft => do l <- normal_indicators H c L D; Ok (Some l) | Direct => Ok None end else Ok None);
    Ok (Solver L T D s eta)
  else Err ValueError.
(** nystrom.py:214-249 *)
Definition harmonic_conjugate (H : heap) (c : cell) (V : solver) (phi : list R) : res (list R * list R) :=
  do w <- wtd_from_trace c phi;
  if Z.eqb (c_holes c) 0 then do v <- solve_neumann H c (sv_layers V) (sv_diag V) (map Ropp w); Ok (v, [])
  else if Z.ltb 0 (c_holes c) then conjugate_holes H c (sv_layers V) (sv_terms V) (sv_diag V) phi w
  else Err ValueError.
(** What antilap.py and the local functions use of the solver *)
Definition as_solver (H : heap) (c : cell) (V : solver) : asolver := ASolver (solve_neumann H c (sv_layers V) (sv_diag V)) (sv_strategy V) (sv_eta V).
Definition to_nyst (H : heap) (c : cell) (V : solver) : nyst :=
  Nyst (harmonic_conjugate H c V) (lt_trace (sv_terms V)) (wtd_from_trace c) (anti_laplacian (as_solver H c V) H c).
End Gmres.
