(** Model of the texts that describe objects: the __str__ and __repr__ methods other than those of polynomials, and
    the coloured progress line of the solver. *)
From Coq Require Import List String Ascii ZArith Reals.
From Verif Require Import PyBase PolyModel CurveModel VertModel EdgeModel QuadModel MeshModel GlobModel AsmModel PrintModel.
Import ListNotations.
Open Scope string_scope.

Definition nl : string := String "010" "".
Definition tab : string := String "009" "".
Definition esc : string := String "027" "".
(** f"{n}" of an int *)
Definition decz (z : Z) : string := if Z.ltb z 0 then "-" ++ dec (Z.to_nat (- z)) else dec (Z.to_nat z).
(** f"{n:6}" of an int: blanks on the left up to six characters *)
Fixpoint blanks (n : nat) : string := match n with O => "" | S n => " " ++ blanks n end.
Definition dec6 (z : Z) : string := blanks (6 - String.length (decz z)) ++ decz z.

Section Summary.
(** f"{x}" of a float: Python's text, an argument of the model *)
Variable show : R -> string.
(** vert.py:113-119 *)
Definition vert_str (v : vert) : string := "[vert" ++ decz (vidx v) ++ "](" ++ show (vx v) ++ ", " ++ show (vy v) ++ ")".
(** edge.py:149-157; [name] is the attribute curve_type *)
Definition edge_str (name : string) (e : edge) : string :=
  (match e_idx e with Some i => "idx:         " ++ decz i ++ nl | None => "" end) ++
  "curve_type: " ++ name ++ nl ++ "quad_type:  " ++ e_qtype e ++ nl ++ "num_pts:    " ++ decz (e_npts e) ++ nl.
(** quad.py:124-127 *)
Definition quad_repr (q : quad) : string := "Quad object " ++ nl ++ tab ++ "type" ++ tab ++ q_type q ++ " " ++ nl ++ tab ++ "n" ++ tab ++ dec (q_n q).
(** planar_mesh.py:105-111 *)
Definition mesh_str (m : mesh) : string :=
  "PlanarMesh:" ++ nl ++ tab ++ "num_verts: " ++ decz (m_nverts m) ++ nl ++ tab ++ "num_edges: " ++ decz (m_num m) ++ nl ++ tab ++ "num_cells: " ++ decz (m_ncells m).
(** globfunsp.py:89-98 *)
Definition space_str (p : gspace) : string :=
  "GlobalFunctionSpace:" ++ nl ++ tab ++ "mesh: " ++ mesh_str (p_mesh p) ++ nl ++ tab ++ "deg: " ++ decz (p_deg p) ++ nl ++ tab ++ "num_funs: " ++ decz (p_num p) ++
  nl ++ tab ++ "num_bubb_funs: " ++ decz (p_nbubb p) ++ nl ++ tab ++ "num_vert_funs: " ++ decz (p_nvert p) ++ nl ++ tab ++ "num_edge_funs: " ++ decz (p_nedge p).
(** bilinear_form.py:62-68; printing the polynomial sorts it, so the form is returned with the text *)
Definition form_str (B : bform) : bform * string :=
  let (f, t) := poly_str RS show (bf_rhs B) in
  (BForm (bf_diffusion B) (bf_reaction B) f, "BilinearForm:" ++ nl ++ tab ++ "D: " ++ show (bf_diffusion B) ++ nl ++ tab ++ "R: " ++ show (bf_reaction B) ++ nl ++ tab ++ "f: " ++ t).
(** solver.py:99-105; the three attributes are arguments *)
Definition solver_str (p : gspace) (B : bform) (num : Z) : bform * string :=
  let (B', t) := form_str B in
  (B', "Solver:" ++ nl ++ tab ++ "glob_fun_sp: " ++ space_str p ++ nl ++ tab ++ "a: " ++ t ++ nl ++ tab ++ "num_funs: " ++ decz num ++ nl).
End Summary.
(** print_color.py:53-64 with GREEN, without the line end of print; solver.py:252-258 *)
Definition in_green (s : string) : string := esc ++ "[32m" ++ s ++ esc ++ "[0m".
Definition cell_progress (abs_cell_idx num_cells : Z) : string := in_green ("Cell " ++ dec6 (abs_cell_idx + 1) ++ " / " ++ dec6 num_cells).
