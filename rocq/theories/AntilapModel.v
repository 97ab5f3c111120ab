(** Model of puncturedfem/locfun/antilap.py. The Neumann solver (nystrom.py) is an oracle; a cell is
    a heap of edges and a cell record. A hole centre on a boundary sample and a component of length
    zero are divided by zero in the code; the model has no counterpart of inf and nan. *)
From Coq Require Import List ZArith Reals Bool String.
From Verif Require Import PyBase PolyModel BaryModel VertModel EdgeModel ContourModel CellModel TraceModel LocalModel FftModel.
Import List ListNotations.
Open Scope R_scope.

(** nystrom.py:171-177 *)
Inductive strategy : Type := Direct | ByFft.
Definition set_strategy (s : string) : res strategy :=
  if String.eqb s "direct" then Ok Direct else if String.eqb s "fft" then Ok ByFft else Err ValueError.
(** What antilap.py asks of the solver: solve_neumann_zero_average, the strategy, and the traces eta *)
Record asolver : Type := ASolver { as_neumann : list R -> res (list R); as_strategy : strategy; as_eta : option (list trace) }.

(** antilap.py:73-95 *)
Definition from_components (H : heap) (c : cell) (rho rho_hat phi phi_hat : list R) : res (list R * list R) :=
  do (x1, x2) <- boundary_points H c;
  do a <- np_mul x1 rho; do b <- np_mul x2 rho_hat; do s <- np_add a b;
  let PHI := map (Rmult (25 / 100)) s in
  do a <- np_mul x1 phi; do s <- np_add rho a; do b <- np_mul x2 phi_hat; do s <- np_add s b;
  let PHI_x1 := map (Rmult (25 / 100)) s in
  do a <- np_mul x2 phi; do s <- np_add rho_hat a; do b <- np_mul x1 phi_hat; do s <- np_sub s b;
  let PHI_x2 := map (Rmult (25 / 100)) s in
  do nd <- cell_dot dot_with_normal PHI_x1 PHI_x2 H c;
  do wnd <- cell_dx_norm nd H c;
  Ok (PHI, wnd).

(** K.multiply_by_dx_norm(K.dot_with_tangent(u, v)) *)
Definition tang (H : heap) (c : cell) (u v : list R) : res (list R) := do d <- cell_dot dot_with_tangent u v H c; cell_dx_norm d H c.
(** K.multiply_by_dx_norm(K.dot_with_normal(u, v)) *)
Definition norm (H : heap) (c : cell) (u v : list R) : res (list R) := do d <- cell_dot dot_with_normal u v H c; cell_dx_norm d H c.

(** antilap.py:54-70 *)
Definition simply_connected (H : heap) (c : cell) (phi phi_hat : list R) : res (list R * list R) :=
  let L := 2 * PI * INR (c_nedges c) in
  do w <- tang H c phi (map Ropp phi_hat); do rho <- fft_antiderivative w L;
  do w <- tang H c phi_hat phi; do rho_hat <- fft_antiderivative w L;
  from_components H c rho rho_hat phi phi_hat.

(** antilap.py:200-205 and 208-213 *)
Definition wnd_from_gradient (t : trace) (g1 g2 : list R) (H : heap) (c : cell) : res trace := do w <- norm H c g1 g2; set_wnd t (One (VArr w)).
Definition wtd_from_gradient (t : trace) (g1 g2 : list R) (H : heap) (c : cell) : res trace := do w <- tang H c g1 g2; set_wtd t (One (VArr w)).
(** antilap.py:216-231 *)
Definition direct_solve (N : asolver) (rho rho_hat : trace) : res (trace * trace) :=
  match tr_wnd rho, tr_wnd rho_hat with
  | Some w, Some w_hat =>
      do v <- as_neumann N w; do rho <- set_trace_values rho (One (VArr v));
      do v <- as_neumann N w_hat; do rho_hat <- set_trace_values rho_hat (One (VArr v));
      Ok (rho, rho_hat)
  | _, _ => Err ValueError
  end.
(** antilap.py:267-306 *)
Definition recover (N : asolver) (H : heap) (c : cell) (rho : trace) : res trace :=
  match as_eta N, tr_wnd rho, tr_wtd rho with
  | Some eta, Some wnd, Some wtd =>
      do v <- antiderivative_components c wtd;
      do rho <- set_trace_values rho (One (VArr v));
      do v0 <- attr (tr_vals rho);
      do v <- fold_res (fun v jk =>
          let (j, k) := jk : nat * contour in
          do n <- attr (k_npts k);
          do arc <- contour_integrate (repeat 1 (Z.to_nat n)) H k;
          do s <- attr (c_start c); do a <- geti s j;
          do i <- contour_integrate (slice v a (a + n)) H k;
          do v <- set_slice v a (a + n) (map (fun x => x - i / arc) (slice v a (a + n)));
          match j with
          | O => Ok v
          | S m =>
              do t <- geti eta m; do e <- attr (tr_vals t); do f <- np_mul e wnd;
              do d <- cell_integrate_preweighted f H c;
              set_slice v a (a + n) (map (fun x => x + d / arc) (slice v a (a + n)))
          end)
        (combine (seq 0 (List.length (c_comps c))) (c_comps c)) v0;
      Ok (with_vals rho v)
  | _, _, _ => Err ValueError
  end.
(** antilap.py:234-264 *)
Definition fft_solve (N : asolver) (H : heap) (c : cell) (rho rho_hat : trace) : res (trace * trace) :=
  match tr_wnd rho, tr_wtd rho, tr_wnd rho_hat, tr_wtd rho_hat with
  | Some _, Some _, Some _, Some _ => do rho <- recover N H c rho; do rho_hat <- recover N H c rho_hat; Ok (rho, rho_hat)
  | _, _, _, _ => Err ValueError
  end.

(** antilap.py:110-122: the coefficients b and c of one hole *)
Definition residues (H : heap) (c : cell) (ft fht : list R) : res (list (R * R)) :=
  map_res (fun j =>
      do s <- attr (c_start c); do a <- geti s (S j); do b <- geti s (S (S j));
      do k <- geti (c_comps c) (S j);
      do bj <- contour_integrate (slice fht a b) H k; do cj <- contour_integrate (slice ft a b) H k;
      Ok (bj / (-2 * PI), cj / (2 * PI)))
    (holes c).
(** The centres of the holes: components[j + 1].interior_point *)
Definition centres (c : cell) : res (list pt) := map_res (fun j => do k <- geti (c_comps c) (S j); do xi <- attr (k_int k); Ok (coord xi)) (holes c).
(** antilap.py:127-136 at one point *)
Definition mu (xi x : pt) : R := fst (psub_pt x xi) / norm_sq (psub_pt x xi).
Definition mu_hat (xi x : pt) : R := - snd (psub_pt x xi) / norm_sq (psub_pt x xi).
(** (mu @ b - mu_hat @ c) and (mu @ c + mu_hat @ b) at one point; a hole is its centre with b, c *)
Definition rat (hs : list (pt * (R * R))) (x : pt) : R :=
  np_sum (map (fun h : pt * (R * R) => mu (fst h) x * fst (snd h)) hs) - np_sum (map (fun h : pt * (R * R) => mu_hat (fst h) x * snd (snd h)) hs).
Definition rat_hat (hs : list (pt * (R * R))) (x : pt) : R :=
  np_sum (map (fun h : pt * (R * R) => mu (fst h) x * snd (snd h)) hs) + np_sum (map (fun h : pt * (R * R) => mu_hat (fst h) x * fst (snd h)) hs).
(** antilap.py:167-195 at one point *)
Definition log_y (xi x : pt) : R := 5 / 10 * ln (norm_sq (psub_pt x xi)).
Definition m_val (xi x : pt) (b c : R) : R := 5 / 10 * (b * fst (psub_pt x xi) + c * snd (psub_pt x xi)) * log_y xi x.
Definition m_x1 (xi x : pt) (b c : R) : R := 5 / 10 * (b * mu xi x - c * mu_hat xi x) * fst (psub_pt x xi) + 5 / 10 * b * log_y xi x.
Definition m_x2 (xi x : pt) (b c : R) : R := 5 / 10 * (b * mu xi x - c * mu_hat xi x) * snd (psub_pt x xi) + 5 / 10 * c * log_y xi x.
Definition lam_val (xi x : pt) : R := norm_sq (psub_pt x xi) * (log_y xi x - 1) / 4.
Definition lam_x1 (xi x : pt) : R := fst (psub_pt x xi) * (2 * log_y xi x - 1) / 4.
Definition lam_x2 (xi x : pt) : R := snd (psub_pt x xi) * (2 * log_y xi x - 1) / 4.
(** antilap.py:165-195 *)
Definition add_holes (H : heap) (c : cell) (xs : list pt) (hs : list (pt * (R * R))) (lc : list R) (PHI wnd : list R) : res (list R * list R) :=
  fold_res (fun Pw j =>
      let (PHI, wnd) := Pw : list R * list R in
      do h <- geti hs j;
      let '(xi, (bj, cj)) := h in
      do PHI <- np_iadd PHI (map (fun x => m_val xi x bj cj) xs);
      do w <- norm H c (map (fun x => m_x1 xi x bj cj) xs) (map (fun x => m_x2 xi x bj cj) xs);
      do wnd <- np_iadd wnd w;
      do nd <- cell_dot dot_with_normal (map (lam_x1 xi) xs) (map (lam_x2 xi) xs) H c;
      do a <- geti lc j;
      do PHI <- np_iadd PHI (map (fun x => a * lam_val xi x) xs);
      do w <- cell_dx_norm nd H c;
      do wnd <- np_iadd wnd (map (Rmult a) w);
      Ok (PHI, wnd)) (holes c) (PHI, wnd).
(** antilap.py:98-197 *)
Definition multiply_connected (N : asolver) (H : heap) (c : cell) (psi psi_hat lc : list R) : res (list R * list R) :=
  do ft <- cell_dot dot_with_tangent psi (map Ropp psi_hat) H c;
  do fht <- cell_dot dot_with_tangent psi_hat psi H c;
  do bc <- residues H c ft fht;
  do (x1, x2) <- boundary_points H c;
  do xis <- centres c;
  let xs := combine x1 x2 in let hs := combine xis bc in
  do psi0 <- np_sub psi (map (rat hs) xs);
  do psi_hat0 <- np_sub psi_hat (map (rat_hat hs) xs);
  do rho <- cell_trace H c (VScal 0); do rho_hat <- cell_trace H c (VScal 0);
  do rho <- wnd_from_gradient rho psi0 (map Ropp psi_hat0) H c;
  do rho_hat <- wnd_from_gradient rho_hat psi_hat0 psi0 H c;
  do (rho, rho_hat) <-
    match as_strategy N with
    | Direct => direct_solve N rho rho_hat
    | ByFft =>
        do rho <- wtd_from_gradient rho psi0 (map Ropp psi_hat0) H c;
        do rho_hat <- wtd_from_gradient rho_hat psi_hat0 psi0 H c;
        fft_solve N H c rho rho_hat
    end;
  do r <- attr (tr_vals rho); do r_hat <- attr (tr_vals rho_hat);
  do (PHI, wnd) <- from_components H c r r_hat psi0 psi_hat0;
  add_holes H c xs hs lc PHI wnd.
(** antilap.py:20-51 *)
Definition anti_laplacian (N : asolver) (H : heap) (c : cell) (psi psi_hat lc : list R) : res (list R * list R) :=
  if Z.eqb (c_holes c) 0 then simply_connected H c psi psi_hat else multiply_connected N H c psi psi_hat lc.
