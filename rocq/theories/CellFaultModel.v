(** Model of what is left of the edges, contours and the cell when MeshCell.parameterize raises
    (puncturedfem/mesh/cell.py, closed_contour.py, edge.py). CellModel drops them; here every step
    returns them as the exception leaves them. *)
From Coq Require Import String List ZArith Reals.
From Verif Require Import PyBase PolyModel BaryModel BBoxModel QuadModel CurveModel VertModel EdgeModel ContourModel CellModel FaultModel.
Import ListNotations.
Open Scope R_scope.

(** edge.py:261-328 for an edge whose curve is in edgelib; FaultModel.st_parameterize has the search for it. The number
    of points is set before the curve is evaluated, the samples before the diary is run. *)
Definition st_param (qd : quad * quad) (e : edge) : halt :=
  match (if String.eqb (e_qtype e) "trap" then Some (fst qd)
         else if String.eqb (e_qtype e) "kress" then Some (snd qd) else None) with
  | None => (e, Some ValueError)
  | Some q =>
      let n := (2 * Z.of_nat (q_n q) + 1)%Z in
      let '(a, b) := e_tb e in
      let dt := 1 / 2 * (b - a) / PI in
      match cX (e_curve e) (e_opts e), cDX (e_curve e) (e_opts e), cDDX (e_curve e) (e_opts e) with
      | Err x, _, _ | _, Err x, _ | _, _, Err x => (with_npts e n, Some x)
      | Ok X, Ok DX, Ok DDX =>
          let smp := map (fun tw : R * R =>
            let t := dt * fst tw + a in
            raw_sample (X t) (dt * fst (DX t), dt * snd (DX t)) (dt ^ 2 * fst (DDX t), dt ^ 2 * snd (DDX t)) (snd tw))
            (combine (q_t q) (q_wgt q)) in
          let '(e2, x) := st_run (e_diary e) (with_param e true n smp) in
          match x with Some x => (e2, Some x) | None => (with_qtype e2 (q_type q), None) end
      end
  end.

(** closed_contour.py:189-192: the edges are sampled in place, one after the other. *)
Definition st_edge (qd : quad * quad) (r : heap * option exc) (io : nat * Z) : heap * option exc :=
  match snd r with
  | Some _ => r
  | None =>
      match deref (fst r) (fst io) with
      | Err x => (fst r, Some x)
      | Ok e =>
          let '(e', x) := st_param qd e in
          (hset (fst r) (fst io) (match x with None => if Z.eqb (snd io) (-1) then reverse_orientation e' else e' | Some _ => e' end), x)
      end
  end.
Definition st_edges (qd : quad * quad) (H : heap) (k : contour) : heap * option exc :=
  fold_left (st_edge qd) (combine (k_edges k) (k_orients k)) (H, None).

(** A step that assigns its result last *)
Definition stage {A} (f : A -> res A) (r : A * option exc) : A * option exc :=
  match snd r with Some _ => r | None => match f (fst r) with Ok a => (a, None) | Err x => (fst r, Some x) end end.

Section Inside.
Variable contains : R -> list pt -> pt -> bool.

(** closed_contour.py:383-415: the best point of every grid is stored, except that of the last one. *)
Fixpoint st_loop (fuel : nat) (H : heap) (c : contour) (box : R * R * R * R) (tol : R) (M : Z) (d : R) (cur : option vert) : option vert * option exc :=
  if Rlt_dec d tol then
    match fuel with
    | O => (cur, Some OutOfFuel)
    | S fuel =>
        let '(xmin, xmax, ymin, ymax) := box in
        match (do xs <- np_linspace xmin xmax M;
               do ys <- np_linspace ymin ymax M;
               let g := meshgrid xs ys in
               do ins <- inside2 contains H c g;
               do dist <- map_res (fun rb => map_res (fun pb : pt * bool =>
                   if snd pb then do d <- contour_distance H c (fst pb); match d with Some d => Ok d | None => Err OverflowError end
                   else Ok 0) (combine (fst rb) (snd rb))) (combine g ins);
               do k <- argmax (concat dist);
               let ii := (k / Z.to_nat M)%nat in let jj := (k mod Z.to_nat M)%nat in
               do row <- geti dist ii; do d <- geti row jj;
               do rowp <- geti g ii; do p <- geti rowp jj; Ok (d, p)) with
        | Err x => (cur, Some x)
        | Ok (d, p) =>
            let M := (4 * (M / 2) + 1)%Z in
            if Z.ltb 1000000 (M * M) then (cur, Some InteriorPointError)
            else st_loop fuel H c box tol M d (Some (mkvert (fst p) (snd p)))
        end
    end
  else (cur, None).
Definition with_point (c : contour) (p : option vert) : contour := Contour (k_cell c) (k_edges c) (k_orients c) (k_npts c) (k_vidx c) (k_closest c) p.
(** closed_contour.py:353-415 *)
Definition st_interior (H : heap) (c : contour) : contour * option exc :=
  match (do _ <- guard H c; do (x, y) <- contour_points H c; bounding_box (1 / 1000000000000) x y) with
  | Err x => (c, Some x)
  | Ok (xmin, xmax, ymin, ymax) =>
      let '(p, x) := st_loop 8 H c (xmin, xmax, ymin, ymax) (1 / 100 * Rmin (xmax - xmin) (ymax - ymin)) 9 0 (k_int c) in (with_point c p, x)
  end.

(** closed_contour.py:180-196. Simplification: find_num_pts, find_local_vert_idx and find_closest_local_vertex_index
    assign before their loops; C83_left shows that they do not raise here. *)
Definition st_contour (qd : quad * quad) (H : heap) (k : contour) : heap * contour * option exc :=
  let '(H, x) := st_edges qd H k in
  match x with
  | Some x => (H, k, Some x)
  | None =>
      let '(k, x) := stage (find_closest_local H) (stage (find_local_vert_idx H) (stage (find_num_pts H) (k, None))) in
      match x with
      | Some x => (H, k, Some x)
      | None => let '(k, x) := st_interior H k in (H, k, x)
      end
  end.

(** cell.py:314-315: the contours that are left keep their state. *)
Fixpoint st_comps (qd : quad * quad) (H : heap) (ks : list contour) : heap * list contour * option exc :=
  match ks with
  | [] => (H, [], None)
  | k :: ks =>
      let '(H, k, x) := st_contour qd H k in
      match x with
      | Some x => (H, k :: ks, Some x)
      | None => let '(H, ks, x) := st_comps qd H ks in (H, k :: ks, x)
      end
  end.

(** cell.py:485-524: the arrays of the grid are stored before its points are selected. Simplification: they are
    stored as one list. *)
Definition st_points (H : heap) (c : cell) : cell * option exc :=
  match interior_points contains H c with
  | Ok c' => (c', None)
  | Err x =>
      let (rows, cols) := c_mesh c in
      match (do (xmin, xmax, ymin, ymax) <- cell_box H c;
             do xs <- np_linspace xmin xmax rows; do ys <- np_linspace ymin ymax cols; Ok (concat (meshgrid xs ys))) with
      | Ok l => (with_int c (Some l), Some x)
      | Err _ => (c, Some x)
      end
  end.

(** cell.py:299-322. Simplification: the four searches for tables assign before their loops;
    C83_left shows that they do not raise on a constructed cell with edges. *)
Definition st_cell (qd : quad * quad) (with_ints : bool) (H : heap) (c : cell) : heap * cell * option exc :=
  let '(H, ks, x) := st_comps qd H (c_comps c) in
  let c := with_comps c ks in
  match x with
  | Some x => (H, c, Some x)
  | None =>
      let '(c, x) := stage (cell_closest H) (stage (cell_start_idx H) (stage (find_outer contains H) (stage (cell_num_pts H) (c, None)))) in
      match x with
      | Some x => (H, c, Some x)
      | None => if with_ints then let '(c, x) := st_points H c in (H, c, x) else (H, c, None)
      end
  end.
End Inside.
