(** Model of puncturedfem/plot/plot_util.py, mesh_plot.py and the computations of globfun_plot.py.
    Drawing itself (matplotlib) is not modelled. *)
From Coq Require Import List ZArith Reals Bool String Ascii.
From Verif Require Import PyBase PolyModel BaryModel QuadModel EdgeModel ContourModel TraceModel LocalModel.
Import List ListNotations.
Open Scope R_scope.

(** ** plot_util.py *)

(** min(a) and max(a) of a numpy array; an empty one raises ValueError *)
Definition pymin (l : list R) : res R := match l with [] => Err ValueError | x :: l => Ok (fold_left Rmin l x) end.
Definition pymax (l : list R) : res R := match l with [] => Err ValueError | x :: l => Ok (fold_left Rmax l x) end.
(** plot_util.py:124-131. [None] is the initial value inf, respectively -inf. *)
Definition update_min (cur : option R) (l : list R) : res (option R) :=
  do m <- pymin l; Ok (Some (match cur with None => m | Some x => Rmin x m end)).
Definition update_max (cur : option R) (l : list R) : res (option R) :=
  do m <- pymax l; Ok (Some (match cur with None => m | Some x => Rmax x m end)).
(** e.x[k, :]. Without samples e.x has one axis only, and indexing with two raises IndexError. *)
Definition edge_coord (f : pt -> R) (e : edge) : res (list R) :=
  if e_param e then Ok (map (fun s => f (sx s)) (e_smp e)) else Err IndexError.
Record limits : Type := Lims { min_x : option R; max_x : option R; min_y : option R; max_y : option R }.
(** plot_util.py:73-77 *)
Definition grow (b : limits) (e : edge) : res limits :=
  do x <- edge_coord fst e; do lx <- update_min (min_x b) x; do ux <- update_max (max_x b) x;
  do y <- edge_coord snd e; do ly <- update_min (min_y b) y; do uy <- update_max (max_y b) y;
  Ok (Lims lx ux ly uy).
(** plot_util.py:81-86 for one axis. Infinite limits stay infinite. *)
Definition widen (pad : R) (a b : option R) : option R * option R :=
  match a, b with
  | Some a, Some b => let d := b - a in (Some (a - pad * d), Some (b + pad * d))
  | _, _ => (a, b)
  end.
(** plot_util.py:43-89 *)
Definition get_axis_limits (es : list edge) (pad : R) : res limits :=
  do b <- fold_res grow es (Lims None None None None);
  if Rlt_dec 0 pad then
    let (lx, ux) := widen pad (min_x b) (max_x b) in let (ly, uy) := widen pad (min_y b) (max_y b) in Ok (Lims lx ux ly uy)
  else Ok b.
(** plot_util.py:92-121. numpy floats do not raise: a zero height or infinite limits give inf or nan,
    here [None]. *)
Definition get_figure_size (b : limits) (h : R) : option (R * R) :=
  match b with
  | Lims (Some lx) (Some ux) (Some ly) (Some uy) =>
      let dx := ux - lx in let dy := uy - ly in if Req_EM_T dy 0 then None else Some (h * dx / dy, h)
  | _ => None
  end.

(** os.path.dirname: up to the last slash, without trailing slashes unless there is nothing else *)
Definition slash : ascii := "/"%char.
Fixpoint upto_slash (l : list ascii) : list ascii := match l with [] => [] | c :: l' => if Ascii.eqb c slash then l else upto_slash l' end.
Fixpoint drop_slashes (l : list ascii) : list ascii := match l with [] => [] | c :: l' => if Ascii.eqb c slash then drop_slashes l' else l end.
Definition dirname (f : list ascii) : list ascii :=
  let head := upto_slash (rev f) in
  rev (match drop_slashes head with [] => head | l => l end).
Inductive fs_action : Type := MakeDirs (d : list ascii) | SaveFig (f : list ascii).
(** plot_util.py:38-40. [exist] is os.path.exists and is false of the empty path; os.makedirs of the empty path
    raises FileNotFoundError, here [None]. Other failures of the file system are not modelled. *)
Definition save_figure (exist : list ascii -> bool) (f : list ascii) : option (list fs_action) :=
  let d := dirname f in
  match d with
  | [] => None
  | _ => Some ((if exist d then [] else [MakeDirs d]) ++ [SaveFig f])
  end.

(** ** mesh_plot.py *)

(** mesh_plot.py:50-69. The edges are deep copies, so [H] is a copy of the caller's heap. *)
Definition mk_mesh_plot (H : heap) (is : list nat) (n : pyint) (reparameterize : bool) : res heap :=
  do qd <- get_quad_dict n 7;
  do _ <- map_res (fun i => match nth_error H i with Some _ => Ok tt | None => Err TypeError end) is;
  fold_res (fun H i => do e <- deref H i; if orb reparameterize (negb (e_param e)) then do e <- parameterize qd e; Ok (hset H i e) else Ok H) is H.
(** mesh_plot.py:163-175: tails and directions of the arrows; np.roll(x, -1) moves the first entry
    to the end *)
Definition roll (l : list pt) : list pt := match l with [] => [] | z :: l => l ++ [z] end.
Definition arrows (l : list pt) : list (pt * pt) :=
  combine (removelast l) (removelast (map (fun zw => (fst (fst zw) - fst (snd zw), snd (fst zw) - snd (snd zw))) (combine (roll l) l))).
(** mesh_plot.py:157-162 *)
Definition plot_edge (e : edge) : res (list (pt * pt)) := do l <- get_sampled_points false e; Ok (arrows l).

(** ** globfun_plot.py *)

(** globfun_plot.py:92-104, with the solution of the solver and the number of functions; arguments
    that are no arrays are not modelled *)
Definition set_coefficients (soln : option (list R)) (num : Z) (coef : option (list R)) : res (list R) :=
  do c <- match coef with Some c => Ok c | None => attr soln end;
  if Z.eqb (Z.of_nat (List.length c)) num then Ok c else Err ValueError.
Definition range : Type := option (R * R).
(** globfun_plot.py:260-269. [None] is (inf, -inf). *)
Definition range_on_cell (vals : option (list R)) (cur : range) : res range :=
  match vals with
  | None => Err ValueError
  | Some l => do a <- pymin l; do b <- pymax l; Ok (Some (match cur with None => (a, b) | Some (x, y) => (Rmin x a, Rmax y b) end))
  end.
Record gplot : Type := GPlot { gp_funs : list lpois; gp_range : range; gp_range1 : range; gp_range2 : range; gp_norm : range }.
Definition grad_norms (a b : list R) : list R := map (fun z => sqrt (fst z ^ 2 + snd z ^ 2)) (combine a b).
(** globfun_plot.py:113-139. Both gradient arrays have one entry per interior point. *)
Definition plot_cell (st : gplot) (u : lpois) : res gplot :=
  do r <- range_on_cell (u_vals u) (gp_range st);
  do r1 <- range_on_cell (u_g1 u) (gp_range1 st);
  do r2 <- range_on_cell (u_g2 u) (gp_range2 st);
  match u_g1 u, u_g2 u with
  | Some a, Some b =>
      if Nat.eqb (List.length a) (List.length b) then
        do n <- range_on_cell (Some (grad_norms a b)) (gp_norm st); Ok (GPlot (gp_funs st ++ [u]) r r1 r2 n)
      else Err BroadcastError
  | _, _ => Err ValueError
  end.
(** globfun_plot.py:106-139; [combo] is Solver.compute_linear_combo_on_mesh_cell with the
    coefficients *)
Definition build_global (combo : Z -> res lpois) (cells : list Z) : res gplot :=
  fold_res (fun st z => do u <- combo z; plot_cell st u) cells (GPlot [] None None None None).
(** globfun_plot.py:186-198 *)
Definition color_range (st : gplot) (plot_type : string) : res range :=
  if String.eqb plot_type "values" then Ok (gp_range st)
  else if String.eqb plot_type "grad_x1" then Ok (gp_range1 st)
  else if String.eqb plot_type "grad_x2" then Ok (gp_range2 st)
  else if String.eqb plot_type "grad_norm" then Ok (gp_norm st)
  else Err ValueError.
