(** Model of the computations of puncturedfem/plot/locfun_plot.py. Drawing itself (matplotlib) is
    not modelled. *)
From Coq Require Import List ZArith Reals Bool String.
From Verif Require Import PyBase PolyModel BaryModel EdgeModel ContourModel CellModel TraceModel LocalModel PlotModel.
Import List ListNotations.
Open Scope R_scope.

(** A float array with nan or inf entries, here [None] *)
Definition farr : Type := list (option R).

(** locfun_plot.py:27-28 *)
Definition plot_tol : R := / 10 ^ 8.
Definition max_grad : R := 1000.
(** locfun_plot.py:370-377 *)
Definition given (o : option (list R)) : res (list R) := match o with Some a => Ok a | None => Err ValueError end.
(** locfun_plot.py:394-397 for one entry. An entry that is divided by zero is set to nan. *)
Definition grad_entry (g w : R) : option R :=
  if Rlt_dec w plot_tol then None else if Rlt_dec max_grad (g / w) then None else Some (g / w).
(** locfun_plot.py:367-398. The heap holds the edges when the plot is drawn. The two arrays of the
    quotient have one entry per boundary point. *)
Definition grad_component (u : lpois) (H : heap) (c : cell) (component : Z) : res farr :=
  do hn <- given (tr_wnd (lh_trace (u_harm u))); do ht <- given (tr_wtd (lh_trace (u_harm u)));
  do pn <- given (tr_wnd (lp_trace (u_poly u))); do pt <- given (tr_wtd (lp_trace (u_poly u)));
  do n <- attr (c_npts c);
  let ones := repeat 1 (Z.to_nat n) in let zeros := repeat 0 (Z.to_nat n) in
  do (b1, b2) <- (if Z.eqb component 1 then Ok (ones, zeros) else if Z.eqb component 2 then Ok (zeros, ones) else Err ValueError);
  do norm <- cell_dot dot_with_normal b1 b2 H c;
  do tang <- cell_dot dot_with_tangent b1 b2 H c;
  do wnd <- np_add hn pn; do wtd <- np_add ht pt;
  do a <- np_mul norm wnd; do b <- np_mul tang wtd; do g <- np_add a b;
  do w <- cell_weights H c;
  if Nat.eqb (List.length g) (List.length w) then Ok (map (fun z => grad_entry (fst z) (snd z)) (combine g w)) else Err BroadcastError.

(** np.sqrt(a**2 + b**2) *)
Definition fnorm (a b : option R) : option R := match a, b with Some a, Some b => Some (sqrt (a ^ 2 + b ^ 2)) | _, _ => None end.
Definition fnorms (a b : farr) : res farr :=
  if Nat.eqb (List.length a) (List.length b) then Ok (map (fun z => fnorm (fst z) (snd z)) (combine a b)) else Err BroadcastError.

(** What the cell knows about its triangulation (cell.py:762-799): the triangles, as positions in
    the list of interior points followed by boundary points, and the two masks *)
Record tgl : Type := Tgl { tg_tris : list tri; tg_hole : list bool; tg_bdry : list bool }.
(** The array that is drawn and the mask of the triangles *)
Record picture : Type := Pic { pic_vals : farr; pic_mask : list bool }.

(** locfun_plot.py:295-300. Indices are not negative. *)
Definition bad_at (vals : farr) (i : nat) : res bool := do x <- geti vals i; Ok (match x with None => true | Some _ => false end).
Definition bad_tri (vals : farr) (t : tri) : res bool :=
  let '(i, j, k) := t in do a <- bad_at vals i; do b <- bad_at vals j; do d <- bad_at vals k; Ok (orb a (orb b d)).
Definition or_masks (a b : list bool) : res (list bool) :=
  if Nat.eqb (List.length a) (List.length b) then Ok (map (fun z => orb (fst z) (snd z)) (combine a b)) else Err BroadcastError.
(** locfun_plot.py:295-310 *)
Definition apply_masks (use_interp : bool) (vals : farr) (T : tgl) : res picture :=
  do inf <- map_res (bad_tri vals) (tg_tris T);
  do mask <- or_masks (tg_hole T) inf;
  do mask <- (if use_interp then Ok mask else or_masks mask (tg_bdry T));
  Ok (Pic vals mask).

(** locfun_plot.py:253-254; np.log10 *)
Definition floor_entry (x : R) : R := if Rlt_dec x (/ 10 ^ 16) then / 10 ^ 16 else x.
Definition log10 (x : R) : R := ln x / ln 10.
(** locfun_plot.py:242-257. The result has the interior values afterwards: with use_log10 and
    without boundary values the array of the caller is overwritten. *)
Definition draw_generic (use_interp use_log10 : bool) (interior : option (list R)) (boundary : option farr) (T : tgl) : option (list R) * res picture :=
  match interior with
  | None => (None, Err NotImplementedError)
  | Some l =>
      let joined := match boundary with Some b => if use_interp then Some b else None | None => None end in
      let l' := match joined with None => if use_log10 then map floor_entry l else l | Some _ => l end in
      let vals := map Some l ++ match joined with Some b => b | None => [] end in
      let vals := if use_log10 then map (option_map (fun x => log10 (floor_entry x))) vals else vals in
      (Some l', apply_masks use_interp vals T)
  end.
(** The boundary array is only built with use_interp. *)
Definition boundary_array (use_interp : bool) (r : res farr) : res (option farr) := if use_interp then do b <- r; Ok (Some b) else Ok None.
Definition trace_array (u : lpois) : res farr :=
  do a <- arith (tr_vals (lh_trace (u_harm u))); do b <- arith (tr_vals (lp_trace (u_poly u))); do s <- np_add a b; Ok (map Some s).

(** locfun_plot.py:83-257 for a new figure, with the function afterwards *)
Definition draw (use_interp use_log10 : bool) (plot_type : string) (u : lpois) (H : heap) (c : cell) (T : tgl) : lpois * res picture :=
  let go interior (boundary : res (option farr)) : option (list R) * res picture :=
    match boundary with
    | Err e => (interior, Err e)
    | Ok b =>
        match (do es <- kedges H c; get_axis_limits es (1 / 10)) with
        | Err e => (interior, Err e)
        | Ok _ => draw_generic use_interp use_log10 interior b T
        end
    end in
  if String.eqb plot_type "values" then
    let (l, r) := go (u_vals u) (boundary_array use_interp (trace_array u)) in (LPois (u_harm u) (u_poly u) l (u_g1 u) (u_g2 u), r)
  else if String.eqb plot_type "grad_x1" then
    let (l, r) := go (u_g1 u) (boundary_array use_interp (grad_component u H c 1)) in (LPois (u_harm u) (u_poly u) (u_vals u) l (u_g2 u), r)
  else if String.eqb plot_type "grad_x2" then
    let (l, r) := go (u_g2 u) (boundary_array use_interp (grad_component u H c 2)) in (LPois (u_harm u) (u_poly u) (u_vals u) (u_g1 u) l, r)
  else if String.eqb plot_type "grad_norm" then
    match u_g1 u, u_g2 u with
    | Some a, Some b =>
        let bdry := boundary_array use_interp (do x <- grad_component u H c 1; do y <- grad_component u H c 2; fnorms x y) in
        match bdry with
        | Err e => (u, Err e)
        | Ok _ => if Nat.eqb (List.length a) (List.length b) then (u, snd (go (Some (grad_norms a b)) bdry)) else (u, Err BroadcastError)
        end
    | _, _ => (u, Err ValueError)
    end
  else (u, Err ValueError).
