(** Vocabulary for figures: what can be seen on one, and what has been written. *)
From Coq Require Import List ZArith Reals String Ascii.
From Verif Require Import PyBase BaryModel EdgeModel PlotModel LocPlotModel DrawModel.
Import List ListNotations.
Open Scope R_scope.

Definition lines (l : list art) : list (list pt) := flat_map (fun a => match a with Line l => [l] | _ => [] end) l.
Definition fields (l : list art) : list (list (pt * pt)) := flat_map (fun a => match a with Quiver l => [l] | _ => [] end) l.
Definition contours (l : list art) : list (bool * picture * option range * string) := flat_map (fun a => match a with Contour b p r s => [(b, p, r, s)] | _ => [] end) l.
Definition curves (l : list art) : list (bool * list (R * R) * string) := flat_map (fun a => match a with Curve b l s => [(b, l, s)] | _ => [] end) l.
Definition titles (l : list art) : list string := flat_map (fun a => match a with Title s => [s] | _ => [] end) l.
Definition bars (l : list art) : list (option range * string) := flat_map (fun a => match a with Bar r s => [(r, s)] | _ => [] end) l.
Definition windows (l : list art) : list limits := flat_map (fun a => match a with Window b => [b] | _ => [] end) l.
Definition tick_marks (l : list art) : list (list (R * Z)) := flat_map (fun a => match a with Ticks t => [t] | _ => [] end) l.
Definition has_axis (l : list art) : Prop := ~ In AxisOff l.
(** The sampled points of an edge, along the edge *)
Definition polyline (e : edge) : list pt := map sx (e_smp e).
(** A title that is not empty *)
Definition titled (s : string) (l : list art) : Prop := titles l = if String.eqb s "" then [] else [s].
(** What is written for the file name [f]: nothing for the empty one; otherwise the directory if it is missing, then the figure *)
Inductive written (exist : list ascii -> bool) (pic : list art) : list ascii -> list event -> Prop :=
| wr_none : written exist pic [] []
| wr_old f : f <> [] -> dirname f <> [] -> exist (dirname f) = true -> written exist pic f [Saved f pic]
| wr_new f : f <> [] -> dirname f <> [] -> exist (dirname f) = false -> written exist pic f [Made (dirname f); Saved f pic].
(** A file name that can be written to: none, or one with a directory *)
Definition writable (f : list ascii) : Prop := f = [] \/ dirname f <> [].
(** Two sampled points have different heights *)
Definition tall (es : list edge) : Prop := exists e s e' s', In e es /\ In s (e_smp e) /\ In e' es /\ In s' (e_smp e') /\ snd (sx s) <> snd (sx s').
