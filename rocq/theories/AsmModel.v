(** Model of puncturedfem/solver/bilinear_form.py, and of solver.py and globfunsp.py run on the local
    spaces of LocSpaceModel: SolverModel takes the basis and the inner products as given, here they
    are computed. Printing, progress bars and type tests on arguments are not modelled. *)
From Coq Require Import List ZArith Reals Bool String.
From Verif Require Import PyBase PolyModel BaryModel QuadModel VertModel EdgeModel ContourModel CellModel MeshModel TraceModel LocalModel NystromModel EdgeSpaceModel GlobModel SolverModel LocSpaceModel.
Import List ListNotations.
Open Scope R_scope.

(** ** bilinear_form.py *)

(** bilinear_form.py:36-60 and the setters 70-101, which store what they get *)
Record bform : Type := BForm { bf_diffusion : R; bf_reaction : R; bf_rhs : poly RS }.
(** bilinear_form.py:119 and 135. The cell is that of the first function. *)
Definition eval_h1 (u v : lpois) (H : heap) (c : cell) : res R := h1_inner u (UPois v) H c.
Definition eval_l2 (u v : lpois) (H : heap) (c : cell) : res R := l2_inner u (UPois v) H c.
(** bilinear_form.py:150-163 *)
Definition eval_form (B : bform) (u v : lpois) (H : heap) (c : cell) : res R :=
  do h <- eval_h1 u v H c; do l <- eval_l2 u v H c; Ok (eval_with_h1_and_l2 (bf_diffusion B) (bf_reaction B) h l).
(** bilinear_form.py:165-176 *)
Definition eval_rhs (B : bform) (v : lpois) (H : heap) (c : cell) : res R :=
  do f <- mk_lpoly (bf_rhs B) H c; l2_inner v (UGen (GPoly f)) H c.

(** ** The run *)

Section Run.
Variable contains : R -> list pt -> pt -> bool.
Variable low_rank : nat -> matrix -> matrix.
Variable gmres : (list R -> res (list R)) -> list R -> (list R -> res (list R)) -> res (list R).
Variable set_iter : list Z -> list Z.
Variable qd : quad * quad.
Variable B : bform.

(** globfunsp.py:137-157. Each edge is sampled, used and cleared. *)
Definition build_edge_spaces (H : heap) (is : list nat) (deg : pyint) : res (heap * list espace) :=
  fold_res (fun Hl i =>
      do e <- deref (fst Hl) i; do e <- parameterize qd e; do b <- mk_espace low_rank e deg;
      Ok (hset (fst Hl) i (deparameterize e), snd Hl ++ [b])) is (H, []).
(** globfunsp.py:79-87, 206-231 *)
Definition mk_gfs (H : heap) (m : mesh) (deg : pyint) : res (heap * gspace * list espace) :=
  do d <- set_deg deg;
  do (H, all) <- build_edge_spaces H (m_edges m) (PInt d);
  do p <- mk_space m (PInt d) (map (fun b => Z.of_nat (List.length (sp_edge b))) all);
  Ok (H, p, all).

(** globfunsp.py:176-196: the sampled cell and its space *)
Definition build_local (H : heap) (p : gspace) (all : list espace) (z : Z) (interior gradient : bool) : res (heap * cell * lspace) :=
  do c <- get_cell H (p_mesh p) z;
  do (H, c) <- param_cell contains qd (orb interior gradient) H c;
  do es <- kedges H c; do spaces <- cell_spaces all es;
  do L <- mk_lspace low_rank gmres set_iter H c (Some spaces) (PInt (p_deg p)) interior gradient;
  Ok (H, c, L).

(** solver.py:272-299 for functions with their keys *)
Definition form_values (H : heap) (c : cell) (v w : kfun) (apply_symmetry : bool) : res (list entry) :=
  do h <- eval_h1 (snd v) (snd w) H c; do l <- eval_l2 (snd v) (snd w) H c;
  let a := eval_with_h1_and_l2 (bf_diffusion B) (bf_reaction B) h l in
  do gi <- glob (fst v); do gj <- glob (fst w);
  Ok (Entry gi gj a h l :: if apply_symmetry then [Entry gj gi a h l] else []).
(** solver.py:230-235 and 267-270: one pass of the outer loop; [l] is the basis with the keys as
    numbered by the global space *)
Definition form_row (H : heap) (c : cell) (l : list kfun) (i : nat) : res ((Z * R) * list entry) :=
  do v <- geti l i; do f <- eval_rhs B (snd v) H c; do gi <- glob (fst v);
  do es <- map_res (fun j => do w <- geti l j; form_values H c v w (Nat.ltb i j)) (seq i (List.length l - i));
  Ok ((gi, f), concat es).

(** solver.py:205-235 with globfunsp.py:175 and 197-202. The edges stay sampled after the cell. *)
Definition run_step (all : list espace) (interior gradient : bool) (st : heap * @work lpois) (k : nat) : res (heap * @work lpois) :=
  let (H, w) := st in
  let m := p_mesh (w_space w) in
  do z <- geti (m_cells m) k;
  do abs <- get_abs_cell_idx m z;
  do (Hc, L) <- build_local H (w_space w) all z interior gradient;
  let (H, c) := Hc in
  do r <- register H (w_space w) (Z.to_nat abs) (map key_of (get_basis L));
  let l := combine (snd r) (map snd (get_basis L)) in
  do rows <- map_res (form_row H c l) (seq 0 (let '(_, _, _, n) := l_nums L in n));
  Ok (H, Work (fst r) (w_entries w ++ concat (map snd rows)) (w_rhs w ++ map fst rows)
    (if interior then hset (w_local w) k (Some (map snd (get_basis L))) else w_local w)).

(** solver.py:93-97, 158-184, 202-238, 240-250, 322-329 *)
Definition run_solver (H : heap) (p : gspace) (all : list espace) (interior gradient : bool) : res (heap * @solver lpois) :=
  let n := Z.to_nat (m_ncells (p_mesh p)) in
  do (H, w) <- fold_res (run_step all interior gradient) (seq 0 n) (H, Work p [] [] (repeat None n));
  do sys <- impose_bc (w_space w) (w_entries w, w_rhs w);
  let num := p_num (w_space w) in
  do _ <- check_indices num (map fst (snd sys));
  do _ <- check_indices num (map t_row (fst sys));
  do _ <- check_indices num (map t_col (fst sys));
  Ok (H, Solv (w_space w) (fst sys) (snd sys) num (w_local w) None).

(** A script: mesh, global space, solver *)
Definition script (H : heap) (is : list nat) (deg : pyint) (interior gradient : bool) : res (heap * @solver lpois) :=
  do (H, m) <- mk_mesh H is; do (Hp, all) <- mk_gfs H m deg; let (H, p) := Hp in run_solver H p all interior gradient.
End Run.
