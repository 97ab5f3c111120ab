(** Model of puncturedfem/mesh/planar_mesh.py, meshlib/__builder__.py and meshlib/pegboard.py.
    Edges are references into a heap as in ContourModel: [e in self.edges] compares identities,
    because Edge defines no __eq__. *)
From Coq Require Import List ZArith Reals Bool String.
From Verif Require Import PyBase PolyModel BaryModel QuadModel CurveModel VertModel EdgeModel ContourModel CellModel.
Import List ListNotations.
Open Scope R_scope.

(** planar_mesh.py:75-80. [num_edges] is counted separately by the code. *)
Record mesh : Type := Mesh { m_edges : list nat; m_num : Z; m_cells : list Z; m_ncells : Z; m_verts : list Z; m_nverts : Z }.

Definition memb (i : nat) (l : list nat) : bool := existsb (Nat.eqb i) l.
Definition zmemb (z : Z) (l : list Z) : bool := existsb (Z.eqb z) l.

(** planar_mesh.py:122-132. A reference without an edge stands for an object that is not an Edge. *)
Definition mesh_add_edge (H : heap) (m : mesh) (i : nat) : res mesh :=
  match nth_error H i with
  | None => Err TypeError
  | Some e =>
      if andb (Z.ltb (e_neg e) 0) (Z.ltb (e_pos e) 0) then Err ValueError
      else if memb i (m_edges m) then Ok m
      else Ok (Mesh (m_edges m ++ [i]) (m_num m + 1) (m_cells m) (m_ncells m) (m_verts m) (m_nverts m))
  end.
(** planar_mesh.py:143-144 *)
Definition mesh_add_edges (H : heap) (m : mesh) (is : list nat) : res mesh := fold_res (mesh_add_edge H) is m.

Definition with_idx (e : edge) (i : option Z) : edge :=
  Edge (e_anchor e) (e_endpnt e) (e_pos e) (e_neg e) (e_curve e) (e_opts e) (e_qtype e) i
    (e_bdry e) (e_loop e) (e_param e) (e_npts e) (e_smp e) (e_tb e) (e_diary e).
(** planar_mesh.py:146-148 *)
Definition number_edges (H : heap) (is : list nat) : res heap :=
  fold_res (fun H ki => do e <- deref H (snd ki); do i <- check_idx (Some (PInt (Z.of_nat (fst ki)))); Ok (hset H (snd ki) (with_idx e i)))
    (combine (seq 0 (List.length is)) is) H.

(** list.sort of integers *)
Fixpoint zinsert (z : Z) (l : list Z) : list Z :=
  match l with
  | [] => [z]
  | x :: l' => if Z.leb z x then z :: l else x :: zinsert z l'
  end.
Definition zsort (l : list Z) : list Z := fold_right zinsert [] l.

(** One pass of the loops of planar_mesh.py:155-157 and 165-167 *)
Definition collect (l : list Z) (z : Z) : list Z := if andb (Z.leb 0 z) (negb (zmemb z l)) then l ++ [z] else l.
(** planar_mesh.py:150-159 *)
Definition vert_list (es : list edge) : list Z :=
  zsort (fold_left (fun l e => if e_loop e then l else fold_left collect [vidx (e_anchor e); vidx (e_endpnt e)] l) es []).
(** planar_mesh.py:161-169 *)
Definition cell_list (es : list edge) : list Z :=
  zsort (fold_left (fun l e => fold_left collect [e_pos e; e_neg e] l) es []).

(** planar_mesh.py:82-103 *)
Definition mk_mesh (H : heap) (is : list nat) : res (heap * mesh) :=
  do m <- mesh_add_edges H (Mesh [] 0 [] 0 [] 0) is;
  do H <- number_edges H (m_edges m);
  do es <- map_res (deref H) (m_edges m);
  let cs := cell_list es in let vs := vert_list es in
  Ok (H, Mesh (m_edges m) (m_num m) cs (Z.of_nat (List.length cs)) vs (Z.of_nat (List.length vs))).

(** planar_mesh.py:185-191; the defaults of MeshCell are those of cell.py:76-78 *)
Definition get_cell (H : heap) (m : mesh) (z : Z) : res cell :=
  if zmemb z (m_cells m) then
    do es <- map_res (fun i => do e <- deref H i; Ok (i, e)) (m_edges m);
    let es := filter (fun ie : nat * edge => orb (Z.eqb z (e_pos (snd ie))) (Z.eqb z (e_neg (snd ie)))) es in
    mk_cell H z (map fst es) (33, 33)%Z (5 / 100) (5 / 100)
  else Err IndexError.

(** list.index *)
Fixpoint index_of (z : Z) (l : list Z) (k : Z) : res Z :=
  match l with
  | [] => Err ValueError
  | x :: l' => if Z.eqb z x then Ok k else index_of z l' (k + 1)
  end.
(** planar_mesh.py:207 *)
Definition get_abs_cell_idx (m : mesh) (z : Z) : res Z := index_of z (m_cells m) 0.

(** planar_mesh.py:223-227 *)
Definition vert_is_on_boundary (H : heap) (m : mesh) (v : Z) : res bool :=
  do es <- map_res (deref H) (m_edges m);
  Ok (existsb (fun e => andb (orb (Z.eqb v (vidx (e_anchor e))) (Z.eqb v (vidx (e_endpnt e)))) (orb (Z.ltb (e_pos e) 0) (Z.ltb (e_neg e) 0))) es).
(** list[i] with Python's negative indices *)
Definition pyget {A} (l : list A) (i : Z) : res A :=
  let n := Z.of_nat (List.length l) in
  let j := if Z.ltb i 0 then (i + n)%Z else i in
  if Z.ltb j 0 then Err IndexError else geti l (Z.to_nat j).
(** planar_mesh.py:243-244 *)
Definition edge_is_on_boundary (H : heap) (m : mesh) (i : Z) : res bool :=
  do r <- pyget (m_edges m) i; do e <- deref H r; Ok (orb (Z.ltb (e_pos e) 0) (Z.ltb (e_neg e) 0)).

(** ** pegboard *)

(** range(n) *)
Definition zrange (n : Z) : list Z := map Z.of_nat (seq 0 (Z.to_nat n)).

(** pegboard.py:45-64; true division by zero when both sizes are zero *)
Definition peg_h (m n : Z) : res R := if Z.eqb (Z.max (m - 1) (n - 1)) 0 then Err ZeroDivisionError else Ok (1 / IZR (Z.max (m - 1) (n - 1))).
Definition peg_verts (size : Z * Z) (radius : R) : res (list vert) :=
  let m := (fst size + 1)%Z in let n := (snd size + 1)%Z in
  do h <- peg_h m n;
  let grid := concat (map (fun i => map (fun j => mkvert (h * IZR j) (h * IZR i)) (zrange n)) (zrange m)) in
  if Rle_dec radius 0 then Ok grid
  else Ok (grid ++ concat (map (fun i => map (fun j => mkvert (h * (IZR j + 1 / 2)) (h * (IZR i + 1 / 2))) (zrange (n - 1))) (zrange (m - 1)))).

(** __builder__.py:58-60 and vert.py:50-67 *)
Definition number_verts (l : list vert) : list vert := map (fun kv => Vert (vx (snd kv)) (vy (snd kv)) (Z.of_nat (fst kv))) (combine (seq 0 (List.length l)) l).

(** The defaults of Edge: edge.py:105-116. The positive cell is evaluated after the vertices. The keyword dictionary of a line is empty. *)
Definition peg_line (vs : list vert) (a b : Z) (p : res Z) (n : Z) : res edge :=
  do va <- pyget vs a; do vb <- pyget vs b; do p <- p; mk_edge va vb p n Line "kress" None (0, 2 * PI) [].
Definition peg_circle (vs : list vert) (a p n : Z) (rad : R) : res edge :=
  do va <- pyget vs a; do vb <- pyget vs a; mk_edge va vb p n Circle "trap" None (0, 2 * PI) [("radius"%string, rad)].

(** pegboard.py:72-148. [cell_idx] keeps its last value after the inner loop, and has none when the
    inner loop did not run. *)
Definition peg_edges (vs : list vert) (size : Z * Z) (radius : R) : res (list edge) :=
  let m := (fst size + 1)%Z in let n := (snd size + 1)%Z in
  do h <- peg_h m n;
  do rows <- map_res (fun i =>
      do pairs <- map_res (fun j =>
          let cell := (i * (n - 1) + j)%Z in
          let left := if Z.eqb j 0 then (-1)%Z else (cell - 1)%Z in
          let bottom := if Z.eqb i 0 then (-1)%Z else (cell - (n - 1))%Z in
          do a <- peg_line vs (i * n + j) (i * n + j + 1) (Ok cell) bottom;
          do b <- peg_line vs (i * n + j) ((i + 1) * n + j) (Ok left) cell;
          Ok [a; b]) (zrange (n - 1));
      let last := if Z.ltb 0 (n - 1) then Ok (i * (n - 1) + (n - 2))%Z else Err UnboundLocalError in
      do c <- peg_line vs (i * n + n - 1) ((i + 1) * n + n - 1) last (-1);
      Ok (concat pairs ++ [c])) (zrange (m - 1));
  do tops <- map_res (fun j => peg_line vs ((m - 1) * n + j) ((m - 1) * n + j + 1) (Ok (-1)%Z) ((m - 2) * (n - 1) + j)) (zrange (n - 1));
  if Rle_dec radius 0 then Ok (concat rows ++ tops)
  else
    do circles <- map_res (fun i => map_res (fun j =>
        let neg := (i * (n - 1) + j)%Z in
        peg_circle vs (m * n + i * (n - 1) + j) ((m - 1) * (n - 1) + neg) neg (radius * h)) (zrange (n - 1))) (zrange (m - 1));
    Ok (concat rows ++ tops ++ concat circles).
(** pegboard.py:37-39, __builder__.py:55-66. All edges are new objects. *)
Definition pegboard (size : Z * Z) (radius : R) : res (heap * mesh) :=
  do vs <- peg_verts size radius;
  do es <- peg_edges (number_verts vs) size radius;
  mk_mesh es (seq 0 (List.length es)).
