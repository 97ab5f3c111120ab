(** Vocabulary for the boundary integral operators. *)
From Coq Require Import List ZArith Reals Bool String.
From Verif Require Import PyBase PolySpec BaryModel QuadModel EdgeModel EdgeSpec ContourModel CellModel CellSpec TraceModel LocalSpec AntilapSpec.
Import List ListNotations.
Open Scope R_scope.

(** A sample of a boundary: its edge, as a reference and as an object, and its index on the edge *)
Record point : Type := Point { p_ref : nat; p_edge : edge; p_loc : nat; p_smp : sample }.
Definition edge_points (r : nat * edge) : list point := map (fun p => Point (fst r) (snd r) (fst p) (snd p)) (combine (seq 0 (List.length (open_smp (snd r)))) (open_smp (snd r))).
(** All samples of a contour with edge references [ids], and of a cell *)
Definition contour_grid (ids : list nat) (es : list edge) : list point := concat (map edge_points (combine ids es)).
Definition cell_grid (c : cell) (ess : list (list edge)) : list point := concat (map (fun p => contour_grid (k_edges (fst p)) (snd p)) (combine (c_comps c) ess)).

(** The first sample of an edge with Kress quadrature has no weight *)
Definition weightless (b : point) : bool := andb (Nat.eqb (p_loc b) 0) (prefix "kress" (e_qtype (p_edge b))).
Definition dist2 (x y : pt) : R := (fst x - fst y)² + (snd x - snd y)².
Definition pair_dist (a b : point) : R := dist2 (sx (p_smp a)) (sx (p_smp b)).
(** 1 over the number of intervals *)
Definition mesh_step (b : point) : R := / IZR (e_npts (p_edge b) - 1).
(** The kernel of the double layer potential with quadrature weight: twice its limit on the diagonal
    is the curvature *)
Definition double_entry (a b : point) : R :=
  let s := p_smp a in let t := p_smp b in
  if weightless b then 0
  else mesh_step b * sw t *
    (if andb (Nat.eqb (p_ref a) (p_ref b)) (if Rlt_dec (pair_dist a b) (1 / 1000000000000) then true else false) then sk t / 2
     else ((fst (sx s) - fst (sx t)) * fst (sN t) + (snd (sx s) - snd (sx t)) * snd (sN t)) / pair_dist a b).
(** No two samples of different edges coincide, weightless ones aside *)
Definition apart (g : list point) : Prop := forall a b, In a g -> In b g -> p_ref a <> p_ref b -> weightless b = false -> sx (p_smp a) <> sx (p_smp b).

(** The kernel of the single layer potential with Martensen's quadrature on the same edge: [2 n]
    intervals, [k] of them between the samples *)
Definition log_sine (n k : nat) : R := 4 * (sin (INR k * PI / INR (2 * n)))².
Definition log_weight (n k : nat) : R := / (2 * INR n) * sum_list (map (fun m => cos (INR m * (2 * PI * INR k / INR (2 * n))) / INR m) (seq 1 n)).
Definition single_entry (a b : point) : R :=
  let n := (Z.to_nat (e_npts (p_edge b) - 1) / 2)%nat in
  let k := (Nat.max (p_loc a) (p_loc b) - Nat.min (p_loc a) (p_loc b))%nat in
  if weightless b then 0
  else if Nat.eqb (p_ref a) (p_ref b) then
    (if Nat.eqb k 0 then (if Rlt_dec (sw (p_smp b)) (1 / 100000000000000) then 0 else - (mesh_step b * ln (sw (p_smp b))))
     else - (mesh_step b / 2 * ln (pair_dist a b / log_sine n k))) + log_weight n k
  else - (mesh_step b / 2 * ln (pair_dist a b)).
(** The samples are few enough that neighbours are told apart, and no two samples of an edge coincide *)
Definition separated (g : list point) : Prop :=
  forall a b, In a g -> In b g -> p_ref a = p_ref b -> weightless b = false -> p_loc a <> p_loc b ->
    sx (p_smp a) <> sx (p_smp b) /\ 1 / 100000000000000 <= log_sine (Z.to_nat (e_npts (p_edge b) - 1) / 2) (Nat.max (p_loc a) (p_loc b) - Nat.min (p_loc a) (p_loc b)).
(** A matrix from its entries *)
Definition matrix_of (f : point -> point -> R) (g : list point) : list (list R) := map (fun a => map (f a) g) g.

(** The length of the boundary by quadrature *)
Definition perimeter (es : list edge) : R := boundary_sum es (samples_of es sw).

(** The logarithm with pole [xi], and its gradient *)
Definition log_to (xi : pt) (x y : R) : R := ln (sqrt ((x - fst xi)² + (y - snd xi)²)).
Definition log_x (xi : pt) (x y : R) : R := (x - fst xi) / ((x - fst xi)² + (y - snd xi)²).
Definition log_y (xi : pt) (x y : R) : R := (y - snd xi) / ((x - fst xi)² + (y - snd xi)²).
(** A trace with the samples of the logarithm and of its weighted derivatives *)
Definition log_samples (es : list edge) (xi : pt) (t : trace) : Prop :=
  tr_vals t = Some (samples_of es (at_smp (log_to xi))) /\ tr_wnd t = Some (samples_of es (weighted_in sN (log_x xi) (log_y xi))) /\ tr_wtd t = Some (samples_of es (weighted_in sT (log_x xi) (log_y xi))).

(** The samples of an edge lie on the circle with centre [x0] and radius [r], run through at unit speed *)
Definition round (x0 : pt) (r : R) (e : edge) : Prop :=
  prefix "kress" (e_qtype e) = false /\
  Forall (fun s => dist2 (sx s) x0 = r² /\ sN s = ((fst (sx s) - fst x0) / r, (snd (sx s) - snd x0) / r) /\ sw s = r /\ sk s = - / r) (open_smp e).

(** A solver of linear systems that returns an array of the size of the right-hand side, if the
    operator and the preconditioner do so as well *)
Definition sizable (n : nat) (f : list R -> res (list R)) : Prop := forall u, List.length u = n -> exists y, f u = Ok y /\ List.length y = n.
Definition solves_sizes (gm : (list R -> res (list R)) -> list R -> (list R -> res (list R)) -> res (list R)) : Prop :=
  forall f b p, sizable (List.length b) f -> sizable (List.length b) p -> exists x, gm f b p = Ok x /\ List.length x = List.length b.
