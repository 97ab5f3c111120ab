(** Model of puncturedfem/locfun/edge_space.py over real numbers. *)
From Coq Require Import List ZArith Reals.
From Verif Require Import PyBase PolyModel LegendreModel BBoxModel BaryModel.
Import ListNotations.
Open Scope R_scope.

(** What EdgeSpace reads from a parameterized Edge: the sampled points (get_sampled_points with
    ignore_endpoint=False, edge.py:340-356), the functional integrate_over_edge
    (edge.py:736-763), is_loop, and three indices. The functional is an arbitrary function
    here: no theorem below depends on what it computes. *)
Record eview : Type := EView {
  ev_pts : list pt;
  ev_int : list R -> R;
  ev_loop : bool;
  ev_idx : Z; ev_anchor_idx : Z; ev_endpnt_idx : Z
}.

(** numpy.linalg.svd based truncation (edge_space.py:290-298): an arbitrary function on square
    matrices, given with their size. *)
Definition matrix : Type := nat -> nat -> R.

Definition set_nth {A} (n : nat) (a : A) (l : list A) : list A := firstn n l ++ a :: skipn (S n) l.
Definition del_nth {A} (n : nat) (l : list A) : list A := firstn n l ++ skipn (S n) l.

(** edge_space.py:156-178 *)
Definition lin0 : poly RS := mkpoly RS [(1, 0%nat, 0%nat); (1, 1%nat, 0%nat); (1, 0%nat, 1%nat)].
Definition lin1 : poly RS := mkpoly RS [(1, 0%nat, 0%nat); (-1, 1%nat, 0%nat); (-1, 0%nat, 1%nat)].
Definition lin2 : poly RS := mkpoly RS [(1, 1%nat, 0%nat); (-1, 0%nat, 1%nat)].

Definition upd {A} (n : nat) (f : A -> A) (d : A) (l : list A) : list A := set_nth n (f (nth n l d)) l.

(** edge_space.py:241-259. When all samples coincide sx = sy = 0: numpy divides by zero and
    goes on with inf; here 1/0 is an unspecified real. *)
Definition bbox_maps (pts : list pt) : res (poly RS * poly RS) :=
  do (x0, x1, y0, y1) <- bounding_box (1 / 1000000000000) (map fst pts) (map snd pts);
  let sx := (x1 - x0) / 2 in let sy := (y1 - y0) / 2 in
  let tx := (x1 + x0) / 2 in let ty := (y1 + y0) / 2 in
  Ok (pscale RS (mkpoly RS [(1, 1%nat, 0%nat); (- tx, 0%nat, 0%nat)]) (1 / sx),
      pscale RS (mkpoly RS [(1, 0%nat, 1%nat); (- ty, 0%nat, 0%nat)]) (1 / sy)).

(** edge_space.py:150-204. The loop at 203-204 ([fun /= ...]) only rebinds its loop variable
    (poly.py defines no __itruediv__), so it changes nothing. *)
Definition pre_traces (e : eview) (deg : nat) : res (list (poly RS)) :=
  let fs := integrated_legendre_tensor_products deg in
  let fs := set_nth (deg + 1) lin2 (set_nth 1 lin1 (set_nth 0 lin0 fs)) in
  let arc := ev_int e (map (fun _ => 1) (ev_pts e)) in
  let x1_avg := ev_int e (map fst (ev_pts e)) / arc in
  let x2_avg := ev_int e (map snd (ev_pts e)) / arc in
  let y1 := mkpoly RS [(1, 1%nat, 0%nat); (- x1_avg, 0%nat, 0%nat)] in
  let y2 := mkpoly RS [(1, 0%nat, 1%nat); (- x2_avg, 0%nat, 0%nat)] in
  let cc p := pcompose RS p y1 y2 in
  let fs := upd (deg + 1) cc [] (upd 1 cc [] (upd 0 cc [] fs)) in
  do (qx, qy) <- bbox_maps (ev_pts e);
  Ok (map (fun f => pcompose RS f qx qy) fs).

(** edge_space.py:212-227 for one function *)
Definition correct (e : eview) (z0 z1 : pt) (l0 l1 f : poly RS) : poly RS :=
  let a0 := peval RS f (fst z0) (snd z0) in
  let a1 := peval RS f (fst z1) (snd z1) in
  let g := psub RS f (padd RS (pscale RS l0 a0) (pscale RS l1 a1)) in
  let avg := ev_int e (map (fun z : pt => peval RS g (fst z) (snd z)) (ev_pts e)) in
  if Rltb avg 0 then pscale RS g (-1) else g.

(** edge_space.py:137-239: (vertex traces, edge traces) *)
Definition build_spanning_set (e : eview) (deg : nat) : res (list (poly RS) * list (poly RS)) :=
  do fs <- pre_traces e deg;
  if ev_loop e then Ok ([], fs)
  else match ev_pts e with
  | [] => Err IndexError
  | z0 :: _ =>
      let z1 := last (ev_pts e) z0 in
      do (l0, l1, l2) <- barycentric_coordinates_edge z0 z1;
      let fs := firstn 2 fs ++ map (correct e z0 z1 l0 l1) (skipn 2 fs) in
      Ok ([l0; l1], del_nth 0 (del_nth 1 (del_nth (deg + 1) fs)) ++ [l2])
  end.

(** edge_space.py:276-288 *)
Definition gram (e : eview) (fs : list (poly RS)) : matrix := fun i j =>
  let k := Nat.min i j in let l := Nat.max i j in
  let q := pmul RS (nth k fs []) (nth l fs []) in
  ev_int e (map (fun z : pt => peval RS q (fst z) (snd z)) (ev_pts e)).

(** numpy.argmax over the diagonal: the first index of the largest entry among 0..n *)
Fixpoint argmax (d : nat -> R) (n : nat) : nat :=
  match n with
  | O => O
  | S n' => let k := argmax d n' in if Rltb (d k) (d n) then n else k
  end.

(** edge_space.py:317: M -= outer(M[:,k], M[:,k]) / M[k,k] *)
Definition eliminate (M : matrix) (k : nat) : matrix := fun i j => M i j - M i k * M j k / M k k.

(** edge_space.py:314-318, with fuel; [n] is the number of rows minus one *)
Fixpoint pivot_loop (fuel : nat) (tl : R) (n : nat) (M : matrix) (idx : list nat) : res (list nat) :=
  match fuel with
  | O => Err OutOfFuel
  | S fuel' =>
      let k := argmax (fun i => M i i) n in
      if Rltb tl (M k k) then pivot_loop fuel' tl n (eliminate M k) (idx ++ [k]) else Ok idx
  end.

(** sorted() on a list of integers: insertion sort *)
Fixpoint insert (k : nat) (l : list nat) : list nat :=
  match l with
  | [] => [k]
  | a :: l' => if Nat.leb k a then k :: l else a :: insert k l'
  end.
Definition sorted (l : list nat) : list nat := fold_right insert [] l.

(** edge_space.py:300-319; m is the number of rows *)
Definition basis_index_set (m : nat) (M : matrix) (tl : R) : res (list nat) :=
  match m with
  | O => Ok []
  | S n => do idx <- pivot_loop (m + 1) tl n M []; Ok (sorted idx)
  end.

(** edge_space.py:261-274 *)
Definition reduce_to_basis (low_rank : nat -> matrix -> matrix) (e : eview) (fs : list (poly RS)) : res (list (poly RS)) :=
  let m := length fs in
  do idx <- basis_index_set m (low_rank m (gram e fs)) (1 / 1000000);
  Ok (map (fun k => nth k fs []) idx).

(** globkey.py keys made by edge_space.py:121-135 *)
Inductive es_key : Type := KVert (vert_idx : Z) | KEdge (edge_idx : Z) (edge_space_idx : nat).

Record edge_space : Type := ES {
  es_vert : list (poly RS); es_edge : list (poly RS);
  es_vert_keys : list es_key; es_edge_keys : list es_key; es_num : nat
}.

(** edge_space.py:58-79 with set_deg (94-107): degree 0 or less is a ValueError *)
Definition mk_edge_space (low_rank : nat -> matrix -> matrix) (e : eview) (deg : Z) : res edge_space :=
  if Z.ltb deg 1 then Err ValueError
  else
    do (vs, fs) <- build_spanning_set e (Z.to_nat deg);
    do es <- reduce_to_basis low_rank e fs;
    Ok (ES vs es
          (if ev_loop e then [] else [KVert (ev_anchor_idx e); KVert (ev_endpnt_idx e)])
          (map (KEdge (ev_idx e)) (seq 0 (length es)))
          (length vs + length es)).
