(** Model of puncturedfem/solver/solver.py and puncturedfem/solver/bilinear_form.py:137-148.

    External: the local function spaces. [basis c] gives the keys and functions of the cell at
    position [c] or an exception; [h1 c i j], [l2 c i j] and [load c i] are the values of the inner
    products between basis functions [i] and [j] of that cell, in this order of arguments. The heap
    of edges is used for the boundary tests only; parameterizing changes none of the fields they
    read. A sparse matrix is the function of its entries; scipy adds up repeated positions. *)
From Coq Require Import List ZArith Reals Bool String.
From Verif Require Import PyBase PolyModel EdgeModel ContourModel CellModel MeshModel GlobModel.
Import List ListNotations.
Open Scope R_scope.

(** solver.py:60-66. The five lists that always grow together are one list here. *)
Record entry : Type := Entry { t_row : Z; t_col : Z; t_mat : R; t_stiff : R; t_mass : R }.

Section Solver.
Context {Fn : Type}.
Variables (fzero : nat -> Fn) (fadd : Fn -> Fn -> Fn) (fscale : Fn -> R -> Fn).
Variable H : heap.
Variable basis : nat -> res (list (gkey * Fn)).
Variables (h1 l2 : nat -> nat -> nat -> R) (load : nat -> nat -> R).
(** bilinear_form.py:58-60 *)
Variables (diffusion reaction : R).

(** bilinear_form.py:148 *)
Definition eval_with_h1_and_l2 (h l : R) : R := diffusion * h + reaction * l.

Definition glob (k : gkey) : res Z := match g_glob k with Some g => Ok g | None => Err AttributeError end.
Definition on_boundary (k : gkey) : res bool := match g_bdry k with Some b => Ok b | None => Err AttributeError end.

(** solver.py:272-299 *)
Definition matrix_values (c i j : nat) (v w : gkey) (apply_symmetry : bool) : res (list entry) :=
  let h := h1 c i j in let l := l2 c i j in let a := eval_with_h1_and_l2 h l in
  do gi <- glob v; do gj <- glob w;
  Ok (Entry gi gj a h l :: if apply_symmetry then [Entry gj gi a h l] else []).
(** solver.py:230-235 and 267-270: one pass of the outer loop *)
Definition row_values (c : nat) (ks : list gkey) (i : nat) : res ((Z * R) * list entry) :=
  do v <- geti ks i; do gi <- glob v;
  do es <- map_res (fun j => do w <- geti ks j; matrix_values c i j v w (Nat.ltb i j)) (seq i (List.length ks - i));
  Ok ((gi, load c i), concat es).

Record work : Type := Work { w_space : gspace; w_entries : list entry; w_rhs : list (Z * R); w_local : list (option (list Fn)) }.

(** solver.py:205-235: the body of the loop over cells; [interior] is compute_interior_values *)
Definition cell_step (interior : bool) (w : work) (c : nat) : res work :=
  let m := p_mesh (w_space w) in
  do z <- geti (m_cells m) c;
  do abs <- get_abs_cell_idx m z;
  do kf <- basis (Z.to_nat abs);
  do r <- register H (w_space w) (Z.to_nat abs) (map fst kf);
  do rows <- map_res (row_values c (snd r)) (seq 0 (List.length kf));
  Ok (Work (fst r) (w_entries w ++ concat (map snd rows)) (w_rhs w ++ map fst rows)
    (if interior then hset (w_local w) c (Some (map snd kf)) else w_local w)).

(** solver.py:308-311 *)
Definition set_rhs_from_key (g : Z) (val : R) (rhs : list (Z * R)) : list (Z * R) :=
  map (fun t : Z * R => if Z.eqb (fst t) g then (fst t, val) else t) rhs.
(** solver.py:313-320 *)
Definition zero_mat_row (g : Z) (es : list entry) : list entry :=
  map (fun t => if Z.eqb (t_row t) g then Entry (t_row t) (t_col t) (if Z.eqb (t_col t) g then 1 else 0) (t_stiff t) (t_mass t) else t) es.
(** solver.py:303-306 for one key *)
Definition impose_key (sys : list entry * list (Z * R)) (k : gkey) : res (list entry * list (Z * R)) :=
  do b <- on_boundary k;
  if b then do g <- glob k; Ok (zero_mat_row g (fst sys), set_rhs_from_key g 0 (snd sys)) else Ok sys.
(** solver.py:301-306 *)
Definition impose_bc (p : gspace) (sys : list entry * list (Z * R)) : res (list entry * list (Z * R)) :=
  do ls <- map_res (geti (p_dofs p)) (seq 0 (Z.to_nat (m_ncells (p_mesh p))));
  fold_res impose_key (concat ls) sys.

(** max of an empty list raises. solver.py:331-338 *)
Definition check_indices (num : Z) (l : list Z) : res unit :=
  match l with
  | [] => Err ValueError
  | x :: l => if Z.leb num (fold_left Z.max l x) then Err ValueError else Ok tt
  end.

(** [v_soln] is [None] while the attribute is not assigned: the annotation in the class body
    creates none. *)
Record solver : Type := Solv { v_space : gspace; v_entries : list entry; v_rhs : list (Z * R); v_num : Z; v_local : list (option (list Fn)); v_soln : option (list R) }.

(** solver.py:93-97, 158-184, 202-238, 240-250, 322-329 *)
Definition mk_solver (p : gspace) (interior : bool) : res solver :=
  let n := Z.to_nat (m_ncells (p_mesh p)) in
  do w <- fold_res (cell_step interior) (seq 0 n) (Work p [] [] (repeat None n));
  do sys <- impose_bc (w_space w) (w_entries w, w_rhs w);
  let num := p_num (w_space w) in
  do _ <- check_indices num (map fst (snd sys));
  do _ <- check_indices num (map t_row (fst sys));
  do _ <- check_indices num (map t_col (fst sys));
  Ok (Solv (w_space w) (fst sys) (snd sys) num (w_local w) None).

(** csr_matrix((vals, (rows, cols))): entries at the same position are added.
    solver.py:340-370 *)
Definition csr (val : entry -> R) (es : list entry) (i j : Z) : R :=
  fold_right Rplus 0 (map val (filter (fun t => andb (Z.eqb (t_row t) i) (Z.eqb (t_col t) j)) es)).
Definition glob_mat (v : solver) : Z -> Z -> R := csr t_mat (v_entries v).
Definition stiff_mat (v : solver) : Z -> Z -> R := csr t_stiff (v_entries v).
Definition mass_mat (v : solver) : Z -> Z -> R := csr t_mass (v_entries v).
Definition glob_rhs (v : solver) (i : Z) : R := fold_right Rplus 0 (map snd (filter (fun t : Z * R => Z.eqb (fst t) i) (v_rhs v))).

(** solver.py:139-141; the vector is what spsolve returns *)
Definition with_soln (v : solver) (x : list R) : solver := Solv (v_space v) (v_entries v) (v_rhs v) (v_num v) (v_local v) (Some x).
Definition solve (spsolve : solver -> res (list R)) (v : solver) : res solver := do x <- spsolve v; Ok (with_soln v x).
(** solver.py:143-154. An unset attribute raises before it is compared with None. *)
Definition get_solution (v : solver) : res (list R) := match v_soln v with None => Err AttributeError | Some x => Ok x end.

(** solver.py:399-417 *)
Definition get_coef (p : gspace) (z : Z) (coef : list R) : res (list R) :=
  do abs <- get_abs_cell_idx (p_mesh p) z;
  do ks <- pyget (p_dofs p) abs;
  map_res (fun k => do g <- glob k; pyget coef g) ks.
(** solver.py:374-397; 1e-4 is the cutoff *)
Definition CUT : R := 1 / 10000.
Definition linear_combo (v : solver) (z : Z) (coef : list R) : res Fn :=
  do abs <- get_abs_cell_idx (p_mesh (v_space v)) z;
  do l <- pyget (v_local v) abs;
  match l with
  | None => Err ValueError
  | Some fs =>
      do lc <- get_coef (v_space v) z coef;
      fold_res (fun w ib => do c <- geti lc (fst ib); Ok (if Rltb (Rabs c) CUT then w else fadd w (fscale (snd ib) c)))
        (combine (seq 0 (List.length fs)) fs) (fzero (Z.to_nat abs))
  end.
End Solver.
