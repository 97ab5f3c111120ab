(** Model of puncturedfem/mesh/cell.py over real numbers. Edges are references into a heap as in
    ContourModel; the components belong to the cell. *)
From Coq Require Import List ZArith Reals Bool.
From Verif Require Import PyBase PolyModel BaryModel BBoxModel QuadModel VertModel EdgeModel ContourModel.
Import ListNotations.
Open Scope R_scope.

Definition CTOL : R := 1 / 1000000.

(** ** Construction *)

(** cell.py:106-119 for an int *)
Definition cell_idx (z : Z) : res Z := if Z.ltb z 0 then Err ValueError else Ok z.
(** cell.py:121-144 *)
Definition edge_orient (idx : Z) (e : edge) : res Z :=
  if Z.eqb idx (e_pos e) then Ok 1%Z else if Z.eqb idx (e_neg e) then Ok (-1)%Z else Err EmbeddingError.
Definition orientations (idx : Z) (es : list edge) : res (list Z) := map_res (edge_orient idx) es.

(** cell.py:185-190 and 192-197 *)
Definition src (o : Z) (e : edge) : res vert :=
  if Z.eqb o 1 then Ok (e_anchor e) else if Z.eqb o (-1) then Ok (e_endpnt e) else Err EmbeddingError.
Definition dst (o : Z) (e : edge) : res vert :=
  if Z.eqb o 1 then Ok (e_endpnt e) else if Z.eqb o (-1) then Ok (e_anchor e) else Err EmbeddingError.
(** cell.py:181-206: entry (i, j) marks that edge j ends where edge i starts *)
Definition incidence_row (a : vert) (bs : list vert) : list Z :=
  map (fun b => if Rlt_dec (sqrt ((vx a - vx b) ^ 2 + (vy a - vy b) ^ 2)) CTOL then 1%Z else 0%Z) bs.
Definition incidence_mat (es : list edge) (os : list Z) : res (list (list Z)) :=
  do a <- map_res (fun eo => src (snd eo) (fst eo)) (combine es os);
  do b <- map_res (fun eo => dst (snd eo) (fst eo)) (combine es os);
  Ok (map (fun a => incidence_row a b) a).
Definition zsum (l : list Z) : Z := fold_right Z.add 0%Z l.
(** numpy.linalg.norm(l - 1) < TOL *)
Definition all_one (l : list Z) : bool := if Rlt_dec (sqrt (IZR (zsum (map (fun x => (x - 1) * (x - 1))%Z l)))) CTOL then true else false.
Definition col (m : list (list Z)) (j : nat) : list Z := map (fun r => nth j r 0%Z) m.
(** cell.py:224-226; running off the row is an IndexError *)
Fixpoint first_nonzero (r : list Z) (j : nat) : res nat :=
  match r with
  | [] => Err IndexError
  | x :: r' => if Z.eqb x 0 then first_nonzero r' (S j) else Ok j
  end.
(** cell.py:172-229 *)
Definition incidence (es : list edge) (os : list Z) : res (list nat) :=
  let n := length es in
  do m <- incidence_mat es os;
  if andb (all_one (map (fun j => zsum (col m j)) (seq 0 n))) (all_one (map zsum m)) then
    fold_res (fun inc ri => do j <- first_nonzero (fst ri) 0; Ok (hset inc j (snd ri))) (combine m (seq 0 n)) (repeat O n)
  else Err EmbeddingError.

(** cell.py:258-261 *)
Fixpoint first_unmarked (m : list bool) (k : nat) : res nat :=
  match m with
  | [] => Err IndexError
  | true :: m' => first_unmarked m' (S k)
  | false :: _ => Ok k
  end.
(** cell.py:267-270 *)
Fixpoint walk (fuel : nat) (inc : list nat) (start next : nat) (marked : list bool) (acc : list nat) : res (list nat * list bool) :=
  if Nat.eqb next start then Ok (acc, marked)
  else match fuel with
  | O => Err OutOfFuel
  | S fuel => do nx <- geti inc next; walk fuel inc start nx (hset marked next true) (acc ++ [next])
  end.
(** cell.py:256-274 *)
Fixpoint contour_loop (fuel : nat) (inc : list nat) (n num : nat) (marked : list bool) (acc : list (list nat)) : res (list (list nat)) :=
  if Nat.ltb num n then
    match fuel with
    | O => Err OutOfFuel
    | S fuel =>
        do s <- first_unmarked marked 0;
        do nx <- geti inc s;
        do (c, marked) <- walk n inc s nx (hset marked s true) [s];
        contour_loop fuel inc n (num + length c)%nat marked (acc ++ [c])
    end
  else Ok acc.

(** cell.py:56-70 *)
Record cell : Type := Cell {
  c_idx : Z; c_comps : list contour; c_holes : Z; c_nedges : nat; c_orients : list Z;
  c_mesh : Z * Z; c_rtol : R; c_atol : R;
  c_npts : option Z; c_start : option (list Z); c_closest : option (list Z); c_int : option (list pt)
}.

(** cell.py:231-285. The guard of lines 246-247 holds because there are no components yet. *)
Definition boundary_components (idx : Z) (ids : list nat) (es : list edge) (os : list Z) : res (list contour) :=
  let n := length es in
  do inc <- incidence es os;
  do cs <- contour_loop n inc n 0 (repeat false n) [];
  map_res (fun c => do is <- map_res (geti ids) c; do ks <- map_res (geti os) c; mk_contour idx is ks) cs.

(** cell.py:72-102, 460-483. [ids] are the edges handed over. *)
Definition mk_cell (H : heap) (z : Z) (ids : list nat) (mesh : Z * Z) (rtol atol : R) : res cell :=
  do idx <- cell_idx z;
  do es <- map_res (deref H) ids;
  do os <- orientations idx es;
  do cs <- boundary_components idx ids es os;
  if Rle_dec atol 0 then Err TypeError
  else if Rle_dec rtol 0 then Err TypeError
  else Ok (Cell idx cs (-1 + Z.of_nat (length cs)) (fold_right plus O (map k_num cs)) os mesh rtol atol None None None None).

(** cell.py:157-170 *)
Definition cell_edges (c : cell) : list nat := concat (map k_edges (c_comps c)).

(** ** Parameterization *)

Definition with_comps (c : cell) (l : list contour) : cell :=
  Cell (c_idx c) l (c_holes c) (c_nedges c) (c_orients c) (c_mesh c) (c_rtol c) (c_atol c) (c_npts c) (c_start c) (c_closest c) (c_int c).
Definition with_tables (c : cell) (n : option Z) (s cl : option (list Z)) : cell :=
  Cell (c_idx c) (c_comps c) (c_holes c) (c_nedges c) (c_orients c) (c_mesh c) (c_rtol c) (c_atol c) n s cl (c_int c).
Definition with_int (c : cell) (p : option (list pt)) : cell :=
  Cell (c_idx c) (c_comps c) (c_holes c) (c_nedges c) (c_orients c) (c_mesh c) (c_rtol c) (c_atol c) (c_npts c) (c_start c) (c_closest c) p.

(** cell.py:288-297 *)
Definition cell_guard (H : heap) (c : cell) : res unit := if forallb (all_param H) (c_comps c) then Ok tt else Err NotParameterizedError.
(** range(self.num_holes + 1) *)
Definition comp_range (c : cell) : list nat := seq 0 (Z.to_nat (c_holes c + 1)).

(** cell.py:331-334 *)
Definition cell_num_pts (H : heap) (c : cell) : res cell :=
  do _ <- cell_guard H c;
  do n <- fold_res (fun n k => do m <- attr (k_npts k); Ok (n + m)%Z) (c_comps c) 0%Z;
  Ok (with_tables c (Some n) (c_start c) (c_closest c)).
(** cell.py:336-344 *)
Definition cell_start_idx (H : heap) (c : cell) : res cell :=
  do _ <- cell_guard H c;
  do (l, i) <- fold_res (fun li k => do m <- attr (k_npts k); Ok (fst li ++ [snd li], (snd li + m)%Z)) (c_comps c) ([], 0%Z);
  Ok (with_tables c (c_npts c) (Some (l ++ [i])) (c_closest c)).
(** cell.py:363-370 *)
Definition cell_closest (H : heap) (c : cell) : res cell :=
  do _ <- cell_guard H c;
  do n <- attr (c_npts c);
  do l <- fold_res (fun l i =>
      do s <- attr (c_start c); do a <- geti s i; do b <- geti s (S i);
      do k <- geti (c_comps c) i; do v <- attr (k_closest k); set_slice l a b v)
    (comp_range c) (repeat 0%Z (Z.to_nat n));
  Ok (with_tables c (c_npts c) (c_start c) (Some l)).

(** The common shape of cell.py:546-551, 566-572, 640-647, 673-680, 700-707 and 751-758 *)
Definition cell_fill (c : cell) (f : contour -> Z -> Z -> res (list R)) : res (list R) :=
  do n <- attr (c_npts c);
  fold_res (fun y i =>
      do s <- attr (c_start c); do a <- geti s i; do b <- geti s (S i);
      do k <- geti (c_comps c) i; do v <- f k a b; set_slice y a b v)
    (comp_range c) (repeat 0 (Z.to_nat n)).
(** cell.py:530-551 *)
Definition eval_on_boundary (g : R -> R -> R) (H : heap) (c : cell) : res (list R) :=
  do _ <- cell_guard H c; cell_fill c (fun k _ _ => eval_on_contour g H k).
(** cell.py:553-572; both coordinates of a component come from one call *)
Definition boundary_points (H : heap) (c : cell) : res (list R * list R) :=
  do _ <- cell_guard H c;
  do x1 <- cell_fill c (fun k _ _ => do (x1, _) <- contour_points H k; Ok x1);
  do x2 <- cell_fill c (fun k _ _ => do (_, x2) <- contour_points H k; Ok x2);
  Ok (x1, x2).
(** cell.py:616-647 and 649-680 *)
Definition cell_dot (d : list R -> list R -> bool -> edge -> res (list R)) (c1 c2 : list R) (H : heap) (c : cell) : res (list R) :=
  do _ <- cell_guard H c; do n <- attr (c_npts c);
  if andb (Z.eqb (Z.of_nat (length c1)) n) (Z.eqb (Z.of_nat (length c2)) n) then
    cell_fill c (fun k a b => contour_dot d (slice c1 a b) (slice c2 a b) H k)
  else Err SizeMismatchError.
(** cell.py:682-707 *)
Definition cell_dx_norm (v : list R) (H : heap) (c : cell) : res (list R) :=
  do _ <- cell_guard H c; do n <- attr (c_npts c);
  if Z.eqb (Z.of_nat (length v)) n then cell_fill c (fun k a b => contour_dx_norm (slice v a b) H k)
  else Err SizeMismatchError.
(** cell.py:729-758; division by zero points would be a ZeroDivisionError *)
Definition cell_integrate_preweighted (v : list R) (H : heap) (c : cell) : res R :=
  do _ <- cell_guard H c; do n <- attr (c_npts c);
  if Z.eqb (Z.of_nat (length v)) n then
    do y <- cell_fill c (fun k a b =>
      do m <- attr (k_npts k);
      if Z.eqb m 0 then Err ZeroDivisionError
      else Ok (map (fun x => 2 * PI * INR (k_num k) / IZR m * x) (slice v a b)));
    Ok (np_sum y)
  else Err SizeMismatchError.
(** cell.py:710-727 *)
Definition cell_integrate (v : list R) (H : heap) (c : cell) : res R :=
  do _ <- cell_guard H c; do vw <- cell_dx_norm v H c; cell_integrate_preweighted vw H c.
(** cell.py:574-587, 589-602, 604-614 *)
Definition cell_vectors (d : list R -> list R -> bool -> edge -> res (list R)) (H : heap) (c : cell) : res (list R * list R) :=
  do n <- attr (c_npts c);
  let zeros := repeat 0 (Z.to_nat n) in let ones := repeat 1 (Z.to_nat n) in
  do t1 <- cell_dot d ones zeros H c; do t2 <- cell_dot d zeros ones H c; Ok (t1, t2).
Definition cell_weights (H : heap) (c : cell) : res (list R) :=
  do n <- attr (c_npts c); cell_dx_norm (repeat 1 (Z.to_nat n)) H c.

(** cell.py:424-445 *)
Definition cell_distance (H : heap) (c : cell) (p : pt) : res (option R) :=
  do _ <- cell_guard H c;
  fold_res (fun d i => do k <- geti (c_comps c) i; do d' <- contour_distance H k p; Ok (omin d d')) (comp_range c) None.

(** min and max of Python on a list *)
Definition pymin (l : list R) : res R := match l with [] => Err ValueError | x :: l' => Ok (lmin x l') end.
Definition pymax (l : list R) : res R := match l with [] => Err ValueError | x :: l' => Ok (lmax x l') end.
(** cell.py:373-395 *)
Definition cell_box (H : heap) (c : cell) : res (R * R * R * R) :=
  do _ <- cell_guard H c;
  do (x1, x2) <- boundary_points H c;
  do a <- pymin x1; do b <- pymax x1; do u <- pymin x2; do v <- pymax x2; Ok (a, b, u, v).

Section Inside.
Variable contains : R -> list pt -> pt -> bool.

(** cell.py:346-361 *)
Definition find_outer (H : heap) (c : cell) : res cell :=
  do _ <- cell_guard H c;
  let r := comp_range c in
  do o <- fold_res (fun o i => fold_res (fun o j =>
      do kj <- geti (c_comps c) j; do (x1, x2) <- contour_points H kj;
      do ki <- geti (c_comps c) i; do ins <- inside1 contains H ki x1 x2;
      Ok (if forallb (fun b => b) ins then i else o))
      (filter (Nat.ltb i) r) o) r O;
  do k0 <- geti (c_comps c) 0; do ko <- geti (c_comps c) o;
  Ok (with_comps c (hset (hset (c_comps c) 0 ko) o k0)).

(** cell.py:397-422 for the two arrays of a meshgrid *)
Definition cell_inside (H : heap) (c : cell) (g : list (list pt)) : res (list (list bool)) :=
  do _ <- cell_guard H c;
  do k0 <- geti (c_comps c) 0;
  do ins <- inside2 contains H k0 g;
  fold_res (fun ins i =>
      do k <- geti (c_comps c) i; do h <- inside2 contains H k g;
      Ok (map (fun r => map (fun b => andb (fst b) (negb (snd b))) (combine (fst r) (snd r))) (combine ins h)))
    (tl (comp_range c)) ins.

(** cell.py:485-524 without the triangulation. meshgrid gives [cols] rows and [rows] columns. *)
Definition interior_points (H : heap) (c : cell) : res cell :=
  let (rows, cols) := c_mesh c in
  do (xmin, xmax, ymin, ymax) <- cell_box H c;
  do xs <- np_linspace xmin xmax rows;
  do ys <- np_linspace ymin ymax cols;
  let g := meshgrid xs ys in
  do ins <- cell_inside H c g;
  let h := Rmin (xmax - xmin) (ymax - ymin) in
  let mind := Rmax (c_atol c) (c_rtol c * h) in
  do ins <- fold_res (fun ins i => fold_res (fun ins j =>
      do row <- geti ins i; do b <- geti row j;
      if b : bool then
        do prow <- geti g i; do p <- geti prow j;
        do d <- cell_distance H c p;
        if olt d mind then Ok (hset ins i (hset row j false)) else Ok ins
      else Ok ins) (seq 0 (Z.to_nat cols)) ins) (seq 0 (Z.to_nat rows)) ins;
  Ok (with_int c (Some (map fst (filter snd (combine (concat g) (concat ins)))))).

(** cell.py:314-315 *)
Definition param_comps (qd : quad * quad) (H : heap) (ks : list contour) : res (heap * list contour) :=
  fold_res (fun Hl k => do (H, k) <- param_contour contains qd (fst Hl) k; Ok (H, snd Hl ++ [k])) ks (H, []).
(** cell.py:299-322; [with_ints] is compute_interior_points *)
Definition param_cell (qd : quad * quad) (with_ints : bool) (H : heap) (c : cell) : res (heap * cell) :=
  do (H, ks) <- param_comps qd H (c_comps c);
  do c <- cell_num_pts H (with_comps c ks);
  do c <- find_outer H c;
  do c <- cell_start_idx H c;
  do c <- cell_closest H c;
  do c <- (if with_ints then interior_points H c else Ok c);
  Ok (H, c).
End Inside.

(** cell.py:324-329 *)
Definition deparam_cell (H : heap) (c : cell) : heap * cell :=
  let '(H, ks) := fold_left (fun Hl k => let (H, k) := deparam_contour (fst Hl) k in (H, snd Hl ++ [k])) (c_comps c) (H, []) in
  (H, with_tables (with_comps c ks) (Some 0%Z) (Some []) (c_closest c)).

(** ** Triangulation masks

    A triangulation is a list of points and a list of triples of indices (matplotlib.tri, not part
    of the repository). A path is a list of points. *)
Definition tri : Type := (nat * nat * nat)%type.

(** cell.py:944-971 *)
Definition point_is_inside (contains : R -> list pt -> pt -> bool) (p : pt) (outer : list pt) (holes : list (list pt)) (radius : R) : bool :=
  andb (contains radius outer p) (forallb (fun h => negb (contains radius h p)) holes).
(** cell.py:926-941 *)
Definition on_segment (e1 e2 a b : pt) (radius : R) : bool :=
  let u := (fst b - fst a, snd b - snd a) in
  let v := (fst e2 - fst e1, snd e2 - snd e1) in
  orb (Rltb (sqrt ((fst u - fst v) ^ 2 + (snd u - snd v) ^ 2)) radius)
      (Rltb (sqrt ((fst u + fst v) ^ 2 + (snd u + snd v) ^ 2)) radius).
(** cell.py:907-923: the segments from each point to the next, cyclically *)
Definition segments (path : list pt) : list (pt * pt) := combine path (tl path ++ firstn 1 path).
Definition on_path (e1 e2 : pt) (path : list pt) (radius : R) : bool :=
  existsb (fun s => on_segment e1 e2 (fst s) (snd s) radius) (segments path).
(** cell.py:889-904 *)
Definition edge_on_boundary (e1 e2 : pt) (outer : list pt) (holes : list (list pt)) (radius : R) : bool :=
  existsb (fun p => on_path e1 e2 p radius) (outer :: holes).
(** cell.py:811-832 for one triangle. Indices are valid in a triangulation: the default point has
    no counterpart. *)
Definition hole_masked (contains : R -> list pt -> pt -> bool) (pts : list pt) (t : tri) (outer : list pt) (holes : list (list pt)) (radius : R) : bool :=
  let '(i, j, k) := t in
  let p n := nth n pts (0, 0) in
  existsb (fun ab =>
      let a := p (fst ab) in let b := p (snd ab) in
      if edge_on_boundary a b outer holes radius then false
      else negb (point_is_inside contains (1 / 2 * (fst a + fst b), 1 / 2 * (snd a + snd b)) outer holes radius))
    [(i, j); (j, k); (k, i)].
(** cell.py:800-833 *)
Definition hole_mask contains pts ts outer holes radius : list bool := map (fun t => hole_masked contains pts t outer holes radius) ts.

Definition reqb (x y : R) : bool := if Req_EM_T x y then true else false.
(** cell.py:879-886 *)
Definition on_boundary_simple (p : pt) (path : list pt) : bool :=
  andb (existsb (reqb (fst p)) (map fst path)) (existsb (reqb (snd p)) (map snd path)).
(** cell.py:862-876 *)
Definition on_boundary (p : pt) (outer : list pt) (holes : list (list pt)) : bool := existsb (on_boundary_simple p) (outer :: holes).
(** cell.py:836-859 *)
Definition boundary_mask (pts : list pt) (ts : list tri) (outer : list pt) (holes : list (list pt)) : list bool :=
  map (fun '(i, j, k) => existsb (fun n => on_boundary (nth n pts (0, 0)) outer holes) [i; j; k]) ts.
