(** Model of puncturedfem/mesh/meshlib: __builder__.py, square_circular_hole.py, pacman.py and
    pacman_subdiv.py. The pegboard is in MeshModel. *)
From Coq Require Import List ZArith Reals Bool String.
From Verif Require Import PyBase PolyModel BaryModel QuadModel CurveModel VertModel EdgeModel ContourModel CellModel MeshModel.
Import List ListNotations.
Open Scope R_scope.

(** __builder__.py:55-66 for a builder without keyword arguments. All edges are new objects. The
    vertices are shared by the edges in the code and copied into them here; nothing writes to a
    vertex after it was numbered. *)
Definition mesh_builder (vs : list vert) (get_edges : list vert -> res (list edge)) : res (heap * mesh) :=
  do es <- get_edges (number_verts vs);
  mk_mesh es (seq 0 (List.length es)).

(** One call of Edge with vertices taken from the list; the defaults are those of edge.py:105-116. *)
Record call : Type := Call { l_from : Z; l_to : Z; l_pos : Z; l_neg : Z; l_curve : curve; l_quad : string; l_opts : opts }.
Definition edge_call (vs : list vert) (k : call) : res edge :=
  do va <- pyget vs (l_from k); do vb <- pyget vs (l_to k); mk_edge va vb (l_pos k) (l_neg k) (l_curve k) (l_quad k) None (0, 2 * PI) (l_opts k).
Definition line_call (a b p n : Z) : call := Call a b p n Line "kress" [].
Definition circle_call (a p n : Z) (r : R) : call := Call a a p n Circle "trap" [("radius"%string, r)].
Definition edge_calls (ks : list call) (vs : list vert) : res (list edge) := map_res (edge_call vs) ks.

(** square_circular_hole.py:43-50 *)
Definition square_verts : list vert := [mkvert 0 0; mkvert 1 0; mkvert 1 1; mkvert 0 1; mkvert (5 / 10) (5 / 10)].
(** square_circular_hole.py:53-70 *)
Definition square_calls : list call :=
  [line_call 0 1 0 (-1); line_call 1 2 0 (-1); line_call 2 3 0 (-1); line_call 3 0 0 (-1); circle_call 4 1 0 (25 / 100)].
(** square_circular_hole.py:40 *)
Definition square_circular_hole : res (heap * mesh) := mesh_builder square_verts (edge_calls square_calls).

(** pacman.py:18-24 *)
Definition ROOT3OVER2 : R := sqrt 3 / 2.
Definition PACMAN_SCALE : R := 4 / 10.
Definition PACMAN_XSHIFT : R := 5 / 10.
Definition PACMAN_YSHIFT : R := 5 / 10.
Definition GHOST_SCALE : R := 6 / 10.
Definition GHOST_X_SHIFT : R := 35 / 10.
Definition GHOST_Y_SHIFT : R := 5 / 10.
Definition pac_vert (x y : R) : vert := mkvert (PACMAN_XSHIFT + PACMAN_SCALE * x) (PACMAN_YSHIFT + PACMAN_SCALE * y).
Definition ghost_vert (x y : R) : vert := mkvert (GHOST_X_SHIFT + GHOST_SCALE * x) (GHOST_Y_SHIFT + GHOST_SCALE * y).
(** pacman.py:48-126; [PACMAN_YSHIFT - PACMAN_SCALE * 0.5] of line 73 is written with a sum *)
Definition pacman_verts : list vert :=
  [mkvert 0 0; mkvert 1 0; mkvert 3 0; mkvert 4 0; mkvert 4 1; mkvert 3 1; mkvert 1 1; mkvert 0 1;
   mkvert (5 / 10) (5 / 10); pac_vert ROOT3OVER2 (5 / 10); pac_vert ROOT3OVER2 (- (5 / 10)); pac_vert (- (1 / 10)) (5 / 10);
   mkvert (15 / 10) (5 / 10); mkvert 2 (5 / 10); mkvert (25 / 10) (5 / 10);
   ghost_vert (- (5 / 10)) (- (6 / 10)); ghost_vert (5 / 10) (- (6 / 10)); ghost_vert (5 / 10) (2 / 10); ghost_vert (- (5 / 10)) (2 / 10);
   ghost_vert (- (25 / 100)) (1 / 10); ghost_vert (25 / 100) (1 / 10)].
Definition eye_call (a p : Z) : call := Call a a p 8 Ellipse "trap" [("a"%string, 15 / 100 * GHOST_SCALE); ("b"%string, 2 / 10 * GHOST_SCALE)].
(** pacman.py:148-255: Pac-Man, the dots and the ghost *)
Definition figures : list call :=
  [line_call 8 9 1 0; Call 9 10 1 0 CircularArcDeg "kress" [("theta0"%string, 300)]; line_call 10 8 1 0; circle_call 11 2 1 (25 / 100 * PACMAN_SCALE);
   circle_call 12 4 3 (1 / 10); circle_call 13 5 3 (1 / 10); circle_call 14 6 3 (1 / 10);
   Call 15 16 8 7 SineWave "kress" [("amp"%string, 1 / 10); ("freq"%string, 6)]; line_call 16 17 8 7; Call 17 18 8 7 CircularArcDeg "kress" [("theta0"%string, 180)]; line_call 18 15 8 7;
   eye_call 19 9; eye_call 20 10].
(** pacman.py:136-146, 257 *)
Definition lib_frame : list call :=
  [line_call 0 1 0 (-1); line_call 1 2 3 (-1); line_call 2 3 7 (-1); line_call 3 4 7 (-1); line_call 4 5 7 (-1); line_call 5 6 3 (-1); line_call 6 7 0 (-1); line_call 7 0 0 (-1)].
Definition pacman_calls : list call := lib_frame ++ [line_call 1 6 0 3; line_call 2 5 3 7] ++ figures.
(** pacman.py:45 *)
Definition pacman : res (heap * mesh) := mesh_builder pacman_verts (edge_calls pacman_calls).

(** pacman_subdiv.py:48-130: the vertices of pacman.py and two more *)
Definition subdiv_verts : list vert := pacman_verts ++ [mkvert 1 (5 / 10); mkvert 3 (5 / 10)].
(** pacman_subdiv.py:136-263 *)
Definition subdiv_calls : list call := lib_frame ++ [line_call 1 21 0 3; line_call 21 6 0 3; line_call 2 22 3 7; line_call 22 5 3 7] ++ figures.
(** pacman_subdiv.py:45 *)
Definition pacman_subdiv : res (heap * mesh) := mesh_builder subdiv_verts (edge_calls subdiv_calls).
