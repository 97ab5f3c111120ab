(** Model of puncturedfem/locfun/local_space.py, of the constructor of locfun/edge_space.py on edges
    and of the part of solver/globfunsp.py that hands edge spaces to a local space. Progress bars
    are not modelled. *)
From Coq Require Import List ZArith Reals Bool String.
From Verif Require Import PyBase PolyModel BaryModel QuadModel VertModel EdgeModel ContourModel CellModel MeshModel TraceModel LocalModel NystromModel EdgeSpaceModel GlobModel.
Import List ListNotations.
Open Scope R_scope.

(** ** Edge spaces *)

(** The index of an edge without one is None, which GlobalKey refuses. *)
Definition pyidx (o : option Z) : pyint := match o with Some z => PInt z | None => PNotInt end.
Definition no_idx : pyint := PInt (-1).
(** globkey.py:41-69 as called by edge_space.py:127, 133-135 and local_space.py:190, 227 *)
Definition vert_key (v : Z) : res gkey := mk_key "vert" no_idx (PInt v) no_idx no_idx.
Definition edge_key (i : option Z) (k : nat) : res gkey := mk_key "edge" (pyidx i) no_idx no_idx (PInt (Z.of_nat k)).
Definition bubb_key (k : nat) : res gkey := mk_key "bubb" no_idx no_idx (PInt (Z.of_nat k)) no_idx.

(** What EdgeSpace reads from an edge (EdgeSpaceModel). The constructor integrates only arrays with
    one entry per sampled point, and only after it has read the sampled points, so the integral
    never raises; LocSpaceProofs2.v proves it. *)
Definition view (e : edge) : eview :=
  EView (map sx (e_smp e)) (fun v => match integrate_over_edge v false e with Ok x => x | Err _ => 0 end)
    (e_loop e) (match e_idx e with Some z => z | None => (-1)%Z end) (vidx (e_anchor e)) (vidx (e_endpnt e)).

(** edge_space.py:43-56: the index of the edge, the traces and their keys *)
Record espace : Type := ESpace { sp_idx : option Z; sp_vert : list (poly RS); sp_edge : list (poly RS); sp_vkeys : list gkey; sp_ekeys : list gkey }.

Section Oracles.
(** numpy's SVD truncation (EdgeSpaceModel), scipy's GMRES (NystromModel), and the order in which a
    Python set of integers is traversed *)
Variable low_rank : nat -> matrix -> matrix.
Variable gmres : (list R -> res (list R)) -> list R -> (list R -> res (list R)) -> res (list R).
Variable set_iter : list Z -> list Z.

(** edge_space.py:58-79 *)
Definition mk_espace (e : edge) (deg : pyint) : res espace :=
  do d <- set_deg deg;
  do _ <- get_sampled_points false e;
  do s <- mk_edge_space low_rank (view e) d;
  do vk <- (if e_loop e then Ok [] else map_res vert_key [vidx (e_anchor e); vidx (e_endpnt e)]);
  do ek <- map_res (edge_key (e_idx e)) (seq 0 (List.length (es_edge s)));
  Ok (ESpace (e_idx e) (es_vert s) (es_edge s) vk ek).

(** ** Centroid and area *)

(** numpy.mean *)
Definition np_mean (l : list R) : R := np_sum l / INR (List.length l).
(** local_space.py:147-151 *)
Definition centroid (H : heap) (c : cell) : res pt := do (x1, x2) <- boundary_points H c; Ok (np_mean x1, np_mean x2).
(** local_space.py:153-156 *)
Definition find_area (H : heap) (c : cell) : res R :=
  do (x1, x2) <- boundary_points H c; do xn <- cell_dot dot_with_normal x1 x2 H c;
  do i <- cell_integrate xn H c; Ok (1 / 2 * i).
(** local_space.py:203-209. For area 0 numpy divides by zero and goes on with -inf; here -1 / 0 is an
    unspecified real. *)
Definition centered_monomial (cen : pt) (area : R) (k : nat) : poly RS :=
  pcompose RS (add_monomial_with_idx RS [] (-1 / area ^ 2) k)
    (psub_scal RS (mkpoly RS [(1, 1%nat, 0%nat)]) (fst cen)) (psub_scal RS (mkpoly RS [(1, 0%nat, 1%nat)]) (snd cen)).

(** ** Functions *)

(** A LocalPoissonFunction with its key; a key is None when local_poisson.py gets none, which does
    not happen here. *)
Definition kfun : Type := (gkey * lpois)%type.
Definition key_of (u : kfun) : gkey := fst u.

(** local_space.py:176-201 *)
Definition bubb_funs (N : nyst) (H : heap) (c : cell) (d : Z) (cen : pt) (area : R) (interior gradient : bool) : res (list kfun) :=
  if Z.ltb d 2 then Ok [] else
  map_res (fun k => do key <- bubb_key k; do u <- mk_lpois N H c (centered_monomial cen area k) (TVal (VScal 0)) interior gradient; Ok (key, u))
    (seq 0 (Z.to_nat (d * (d - 1) / 2))).

(** DirichletTrace(edges=self.nyst.K.get_edges(), funcs=lambda x, y: 0) *)
Definition zero_trace (es : list edge) : res trace := mk_trace (Some es) false (Some (FOne (FFun (fun _ _ => 0)))) None.
(** set_func_from_poly_on_edge(edge_index=j, poly=p) *)
Definition put_poly (t : trace) (j : nat) (p : poly RS) : res trace := set_func_on_edge t (PInt (Z.of_nat j)) (peval RS p) true true.
(** enumerate(l) *)
Definition enum {A} (l : list A) : list (nat * A) := combine (seq 0 (List.length l)) l.
(** local_space.py:243-248 for one edge space at position [j] *)
Definition add_vert (v : Z) (t : trace) (jb : nat * espace) : res trace :=
  fold_res (fun t k => do key <- geti (sp_vkeys (snd jb)) k; if Z.eqb (g_vert key) v then do p <- geti (sp_vert (snd jb)) k; put_poly t (fst jb) p else Ok t)
    (seq 0 (List.length (sp_vert (snd jb)))) t.
(** local_space.py:240-248 *)
Definition vert_trace (es : list edge) (spaces : list espace) (v : Z) : res trace :=
  do t <- zero_trace es; fold_res (add_vert v) (enum spaces) t.
(** local_space.py:217-225, the set *)
Definition vert_indices (es : list edge) : list Z :=
  nodup Z.eq_dec (flat_map (fun e => if e_loop e then [] else [vidx (e_anchor e); vidx (e_endpnt e)]) es).
(** local_space.py:211-255. The keys are all made before the first function. *)
Definition vert_funs (N : nyst) (H : heap) (c : cell) (spaces : list espace) (interior gradient : bool) : res (list kfun) :=
  do es <- kedges H c;
  do keys <- map_res vert_key (set_iter (vert_indices es));
  map_res (fun key => do t <- vert_trace es spaces (g_vert key); do u <- mk_lpois N H c [] (TTrace t) interior gradient; Ok (key, u)) keys.

(** list.index on a list of indices *)
Fixpoint find_idx (i : option Z) (l : list (option Z)) (k : nat) : res nat :=
  match l with
  | [] => Err ValueError
  | o :: l => if match i, o with Some a, Some b => Z.eqb a b | None, None => true | _, _ => false end then Ok k else find_idx i l (S k)
  end.
(** local_space.py:277-282 *)
Definition edge_trace (es : list edge) (j : nat) (p : poly RS) : res trace := do t <- zero_trace es; put_poly t j p.
(** local_space.py:271-292 for one edge space *)
Definition space_funs (N : nyst) (H : heap) (c : cell) (interior gradient : bool) (b : espace) : res (list kfun) :=
  do es <- kedges H c;
  do j <- find_idx (sp_idx b) (map e_idx es) 0;
  map_res (fun k => do p <- geti (sp_edge b) k; do t <- edge_trace es j p; do key <- geti (sp_ekeys b) k; do u <- mk_lpois N H c [] (TTrace t) interior gradient; Ok (key, u))
    (seq 0 (List.length (sp_edge b))).
(** local_space.py:257-292 *)
Definition edge_funs (N : nyst) (H : heap) (c : cell) (spaces : list espace) (interior gradient : bool) : res (list kfun) :=
  do l <- map_res (space_funs N H c interior gradient) spaces; Ok (concat l).

(** ** The space *)

(** local_space.py:60-73; [l_nums] are num_vert_funs, num_edge_funs, num_bubb_funs and num_funs *)
Record lspace : Type := LSpace { l_deg : Z; l_vert : list kfun; l_edge : list kfun; l_bubb : list kfun; l_nums : nat * nat * nat * nat; l_centroid : pt; l_area : R }.
(** local_space.py:75-119, 158-174 *)
Definition mk_lspace (H : heap) (c : cell) (spaces : option (list espace)) (deg : pyint) (interior gradient : bool) : res lspace :=
  do d <- set_deg deg;
  do cen <- centroid H c; do area <- find_area H c;
  do spaces <- match spaces with Some l => Ok l | None => do es <- kedges H c; map_res (fun e => mk_espace e (PInt d)) es end;
  do V <- mk_solver gmres H c "fft" "jacobi";
  let N := to_nyst gmres H c V in
  do bs <- bubb_funs N H c d cen area interior gradient;
  do vs <- vert_funs N H c spaces interior gradient;
  do fs <- edge_funs N H c spaces interior gradient;
  Ok (LSpace d vs fs bs (List.length vs, List.length fs, List.length bs, List.length vs + List.length fs + List.length bs)%nat cen area).
(** local_space.py:136-145 *)
Definition get_basis (L : lspace) : list kfun := l_vert L ++ l_edge L ++ l_bubb L.

(** globfunsp.py:137-157: each edge is sampled on its own, away from the cells *)
Definition mesh_spaces (qd : quad * quad) (edges : list edge) (deg : pyint) : res (list espace) :=
  map_res (fun e => do e1 <- parameterize qd e; mk_espace e1 deg) edges.
(** globfunsp.py:185-188: [self.edge_spaces[e.idx] for e in cell.get_edges()] *)
Definition cell_spaces (all : list espace) (es : list edge) : res (list espace) :=
  map_res (fun e => match e_idx e with Some i => pyget all i | None => Err TypeError end) es.
End Oracles.
