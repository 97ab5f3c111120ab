(** Model of the order of the drawing commands in puncturedfem/plot: which figures are open, what
    is drawn on them, what is saved and shown. matplotlib is modelled by the list of open figures
    with what has been drawn on each, the default colour map and the output. Its commands do not fail,
    except that a figure of undefined size is refused; show does not close figures (as with the
    backends without windows). Line formats, contour levels, spacing and resolution are left out. *)
From Coq Require Import List ZArith Reals Bool String Ascii.
From Verif Require Import PyBase PolyModel BaryModel QuadModel EdgeModel ContourModel CellModel TraceModel LocalModel PlotModel LocPlotModel TracePlotModel.
Import List ListNotations.
Open Scope R_scope.

(** What a figure carries, in the order of the commands *)
Inductive art : Type :=
| Line (l : list pt)
| Quiver (l : list (pt * pt))
| Contour (fill : bool) (p : picture) (clim : option range) (cmap : string)
| Triangles (T : list tri)
| Curve (log : bool) (l : list (R * R)) (fmt : string)
| Window (b : limits)
| Equal
| Grid (b : bool)
| Title (s : string)
| AxisOff
| Bar (clim : option range) (cmap : string)
| Legend (l : list string)
| Ticks (l : list (R * Z)).
Definition figure : Type := nat * list art.
Inductive event : Type := Made (d : list ascii) | Saved (f : list ascii) (pic : list art) | Shown (fs : list figure).
(** The open figures, the current one first; the default colour map (rcParams); the output *)
Record plt : Type := Plt { figs : list figure; rc : string; out : list event }.

(** Exceptions of the library, and FileNotFoundError *)
Inductive trouble : Type := Threw (e : exc) | NoDirectory.
Inductive outcome (A : Type) : Type := Done (x : A) | Fail (t : trouble).
Arguments Done {A}. Arguments Fail {A}.
Definition act (A : Type) : Type := plt -> plt * outcome A.
Definition ret {A} (x : A) : act A := fun P => (P, Done x).
Definition follow {A B} (a : act A) (k : A -> act B) : act B := fun P => match a P with (P, Done x) => k x P | (P, Fail t) => (P, Fail t) end.
Definition lift {A} (r : res A) : act A := fun P => match r with Ok x => (P, Done x) | Err e => (P, Fail (Threw e)) end.
Notation "'run' x <- a ; b" := (follow a (fun x => b)) (at level 200, x pattern, a at level 100, b at level 200).
Definition when (b : bool) (a : act unit) : act unit := if b then a else ret tt.
Fixpoint each {A} (f : A -> act unit) (l : list A) : act unit := match l with [] => ret tt | x :: l => run _ <- f x; each f l end.

(** ** matplotlib *)

(** plt.figure(figsize=(w, h)); the number is the next after the largest. *)
Definition fresh_number (fs : list figure) : nat := S (fold_right (fun f n => Nat.max (fst f) n) 0%nat fs).
Definition open_figure (size : option (R * R)) : act nat := fun P =>
  match size with
  | None => (P, Fail (Threw ValueError))
  | Some _ => let n := fresh_number (figs P) in (Plt ((n, []) :: figs P) (rc P) (out P), Done n)
  end.
(** plt.figure(n): the figure n becomes the current one; it is opened if there is none. *)
Definition use_figure (n : nat) : act unit := fun P =>
  let mine := filter (fun f => Nat.eqb (fst f) n) (figs P) in let rest := filter (fun f => negb (Nat.eqb (fst f) n)) (figs P) in
  (Plt ((match mine with [] => [(n, [])] | _ => mine end) ++ rest) (rc P) (out P), Done tt).
(** plt.gcf(): without an open figure one is opened *)
Definition current (P : plt) : figure * list figure := match figs P with [] => ((1%nat, []), []) | f :: fs => (f, fs) end.
Definition edit (g : list art -> list art) : act unit := fun P => let '((n, l), fs) := current P in (Plt ((n, g l) :: fs) (rc P) (out P), Done tt).
Definition put (a : art) : act unit := edit (fun l => l ++ [a]).
(** plt.tricontourf and plt.tricontour use the default colour map. *)
Definition put_contour (fill : bool) (p : picture) (clim : option range) : act unit := fun P => put (Contour fill p clim (rc P)) P.
(** plt.set_cmap: the default, and the last contours of the current figure (plt.gci) *)
Fixpoint recolor_first (cm : string) (l : list art) : list art :=
  match l with
  | [] => []
  | Contour fill p clim _ :: l => Contour fill p clim cm :: l
  | a :: l => a :: recolor_first cm l
  end.
Definition set_cmap (cm : string) : act unit := fun P => edit (fun l => rev (recolor_first cm (rev l))) (Plt (figs P) cm (out P)).
(** plt.gci(): range and colours of the last contours of the current figure *)
Definition last_contour (l : list art) : option (option range * string) :=
  fold_left (fun o a => match a with Contour _ _ clim cm => Some (clim, cm) | _ => o end) l None.
Definition put_bar : act unit := edit (fun l => l ++ match last_contour l with Some (clim, cm) => [Bar clim cm] | None => [] end).
Definition emit (e : event) : act unit := fun P => (Plt (figs P) (rc P) (out P ++ [e]), Done tt).
Definition show : act unit := fun P => emit (Shown (figs P)) P.
Definition close : act unit := fun P => (Plt (List.tl (figs P)) (rc P) (out P), Done tt).
Definition is_empty {A} (l : list A) : bool := match l with [] => true | _ => false end.
Definition is_title (s : string) : bool := negb (String.eqb s "").

Section Files.
Variable exist : list ascii -> bool.

(** plot_util.py:23-40 *)
Definition save (f : list ascii) : act unit := fun P =>
  match save_figure exist f with
  | None => (P, Fail NoDirectory)
  | Some l => each (fun a => match a with MakeDirs d => emit (Made d) | SaveFig f => fun P => emit (Saved f (snd (fst (current P)))) P end) l P
  end.

(** ** mesh_plot.py *)

(** mesh_plot.py:74-80 *)
Record mesh_opts : Type := MOpts { m_title : string; m_orient : bool; m_grid : bool; m_axis : bool; m_keep : bool; m_pad : R }.
(** mesh_plot.py:157-162 *)
Definition draw_edge (orient : bool) (e : edge) : act unit :=
  run l <- lift (get_sampled_points false e); put (if orient then Quiver (arrows l) else Line l).
(** mesh_plot.py:82-132; the edges are those of the plot *)
Definition mesh_draw (es : list edge) (o : mesh_opts) (show_plot : bool) (filename : list ascii) : act unit :=
  run b <- lift (get_axis_limits es (m_pad o));
  run _ <- open_figure (get_figure_size b 4);
  run _ <- each (draw_edge (m_orient o)) es;
  run _ <- put (Window b);
  run _ <- put (Grid (m_grid o));
  run _ <- when (is_title (m_title o)) (put (Title (m_title o)));
  run _ <- when (negb (m_axis o)) (put AxisOff);
  run _ <- when (negb (is_empty filename)) (save filename);
  run _ <- when show_plot show;
  when (negb (m_keep o)) close.

(** ** locfun_plot.py *)

(** locfun_plot.py:212-224 without the levels *)
Record local_opts : Type := LOpts { l_fill : bool; l_title : string; l_cmap : option string; l_bar : bool; l_axis : bool; l_boundary : bool; l_tris : bool; l_close : bool; l_new : bool; l_fig : option nat; l_clim : option range; l_log10 : bool }.
(** locfun_plot.py:126-199: the interior and the boundary values *)
Definition arrays (use_interp : bool) (plot_type : string) (u : lpois) (H : heap) (c : cell) : res (option (list R) * option farr) :=
  if String.eqb plot_type "values" then do b <- boundary_array use_interp (trace_array u); Ok (u_vals u, b)
  else if String.eqb plot_type "grad_x1" then do b <- boundary_array use_interp (grad_component u H c 1); Ok (u_g1 u, b)
  else if String.eqb plot_type "grad_x2" then do b <- boundary_array use_interp (grad_component u H c 2); Ok (u_g2 u, b)
  else if String.eqb plot_type "grad_norm" then
    match u_g1 u, u_g2 u with
    | Some a, Some b =>
        do bdry <- boundary_array use_interp (do x <- grad_component u H c 1; do y <- grad_component u H c 2; fnorms x y);
        if Nat.eqb (List.length a) (List.length b) then Ok (Some (grad_norms a b), bdry) else Err BroadcastError
    | _, _ => Err ValueError
    end
  else Err ValueError.
(** locfun_plot.py:227-236: the figure that is drawn on *)
Definition local_figure (H : heap) (c : cell) (o : local_opts) : act unit :=
  run handle <- (match l_fig o with
                 | Some n => ret (Some n)
                 | None => if l_new o then
                     run b <- lift (do es <- kedges H c; get_axis_limits es (1 / 10)); run n <- open_figure (get_figure_size b 4); ret (Some n)
                   else ret None
                 end);
  match handle with Some n => use_figure n | None => ret tt end.
(** locfun_plot.py:82-285 and 327-353. The effect of use_log10 on the function is in [LocPlotModel.draw]. *)
Definition local_draw (use_interp : bool) (plot_type : string) (u : lpois) (H : heap) (c : cell) (T : tgl) (o : local_opts) (show_plot : bool) (filename : list ascii) : act unit :=
  run (interior, boundary) <- lift (arrays use_interp plot_type u H c);
  run _ <- local_figure H c o;
  run p <- lift (snd (draw_generic use_interp (l_log10 o) interior boundary T));
  run _ <- put_contour (l_fill o) p (l_clim o);
  run _ <- when (l_tris o) (put (Triangles (tg_tris T)));
  run _ <- put Equal;
  run _ <- when (negb (l_axis o)) (put AxisOff);
  run _ <- when (l_boundary o) (run es <- lift (kedges H c); each (draw_edge false) es);
  run _ <- when (is_title (l_title o)) (put (Title (l_title o)));
  run _ <- (match l_cmap o with Some cm => set_cmap cm | None => ret tt end);
  run _ <- when (l_bar o) put_bar;
  run _ <- when (negb (is_empty filename)) (save filename);
  run _ <- when show_plot show;
  when (l_close o) close.

(** ** globfun_plot.py *)

(** globfun_plot.py:170-175 *)
Record glob_opts : Type := GOpts { g_fill : bool; g_title : string; g_bar : bool; g_axis : bool; g_cmap : option string; g_interp : bool }.
(** globfun_plot.py:206-218 *)
Definition cell_opts (o : glob_opts) (n : nat) (clim : range) : local_opts := LOpts (g_fill o) "" None false false false false false false (Some n) (Some clim) false.
(** e.x with two axes *)
Definition edge_line (e : edge) : res (list pt) := if e_param e then Ok (map sx (e_smp e)) else Err IndexError.
(** globfun_plot.py:141-258; each local function with its cell and triangulation, the edges of the mesh *)
Definition glob_draw (st : gplot) (funs : list (lpois * cell * tgl)) (H : heap) (es : list edge) (plot_type : string) (o : glob_opts) (show_plot : bool) (filename : list ascii) : act unit :=
  if negb (orb show_plot (negb (is_empty filename))) then ret tt else
  run b <- lift (get_axis_limits es (1 / 10));
  run n <- open_figure (get_figure_size b 4);
  run clim <- lift (color_range st plot_type);
  run _ <- each (fun f => let '(u, c, T) := f in local_draw (g_interp o) plot_type u H c T (cell_opts o n clim) false []) funs;
  run _ <- each (fun e => run l <- lift (edge_line e); put (Line l)) es;
  run _ <- when (andb (g_fill o) (g_bar o)) (fun P => put (Bar (Some clim) (match g_cmap o with Some cm => cm | None => rc P end)) P);
  run _ <- put Equal;
  run _ <- when (negb (g_axis o)) (put AxisOff);
  run _ <- when (is_title (g_title o)) (put (Title (g_title o)));
  run _ <- when (negb (is_empty filename)) (save filename);
  run _ <- when show_plot show;
  close.

(** ** trace_plot.py *)

(** trace_plot.py:379-383 *)
Definition draw_legend (g : legend) : act unit := match g with LBad => lift (Err TypeError) | LTuple [] => ret tt | LTuple l => put (Legend l) end.
(** trace_plot.py:130-152 and 357-392 *)
Definition trace_draw (p : tplot) (title : string) (grid show_plot : bool) (filename : list ascii) : act unit :=
  run _ <- open_figure (Some (0, 0));
  run _ <- each (fun x => run c <- lift (draw_trace (tp_t p) (fst x) (snd x)); put (Curve (tp_log p) (fst c) (snd c)))
    (match tp_fmt p with FStr s => map (fun v => (v, s)) (tp_traces p) | FList l => combine (tp_traces p) l | FBad => [] end);
  run _ <- draw_legend (tp_legend p);
  run _ <- when (is_title title) (put (Title title));
  run _ <- (if Nat.eqb (List.length (tp_ticks p)) (List.length (tp_labels p)) then put (Ticks (combine (tp_ticks p) (tp_labels p))) else lift (Err ValueError));
  run _ <- put (Grid grid);
  run _ <- when (negb (is_empty filename)) (save filename);
  run _ <- when show_plot show;
  close.
End Files.
