(** C74: which figures a plot leaves open, and what is drawn, saved and shown. *)
From Coq Require Import List ZArith Reals Lia Lra Bool String Ascii.
From Verif Require Import PyBase PolyModel BaryModel QuadModel VertModel EdgeModel EdgeSpec EdgeProps EdgeProps4 ContourModel CellModel CellProps3 TriCell TraceModel LocalModel PlotModel PlotSpec PlotProps LocPlotModel TracePlotModel DrawModel DrawSpec DrawProofs.
Import List ListNotations.
Open Scope R_scope.

(** ** What is on the figures *)
Lemma flat_map_nil {A B} (f : A -> list B) l : (forall x, In x l -> f x = []) -> flat_map f l = [].
Proof. induction l as [|x l IH]; intros E; [reflexivity|]. cbn. rewrite (E x (or_introl eq_refl)), IH by (intros y I; apply E; right; exact I). reflexivity. Qed.
Lemma flat_map_one {A B C} (f : A -> list B) (g : C -> A) (h : C -> B) l : (forall x, f (g x) = [h x]) -> flat_map f (map g l) = map h l.
Proof. intros E. induction l as [|x l IH]; [reflexivity|]. cbn. rewrite E, IH. reflexivity. Qed.
Lemma flat_map_skip {A B C} (f : A -> list B) (g : C -> A) l : (forall x, f (g x) = []) -> flat_map f (map g l) = [].
Proof. intros E. induction l as [|x l IH]; [reflexivity|]. cbn. rewrite E, IH. reflexivity. Qed.
Lemma is_title_spec s : is_title s = if String.eqb s "" then false else true.
Proof. unfold is_title. destruct (String.eqb s ""); reflexivity. Qed.
Ltac see := unfold titled, lines, fields, contours, titles, bars, windows, curves, tick_marks; rewrite ?flat_map_app.

(** A plot of a mesh: the polylines of the edges in their order, or arrows along them; one window around all
    sampled points; the title unless it is empty; the axis unless it is switched off; nothing else *)
Definition depicts (es : list edge) (o : mesh_opts) (pic : list art) : Prop :=
  lines pic = (if m_orient o then [] else map polyline es) /\ fields pic = (if m_orient o then map (fun e => arrows (polyline e)) es else []) /\
  (exists x0 x1 y0 y1, windows pic = [Lims (Some x0) (Some x1) (Some y0) (Some y1)] /\ forall z, sampled es z -> x0 <= fst z <= x1 /\ y0 <= snd z <= y1) /\
  titled (m_title o) pic /\ (has_axis pic <-> m_axis o = true) /\ In (Grid (m_grid o)) pic /\ contours pic = [] /\ bars pic = [].
Lemma mesh_pic_depicts es o b : es <> [] -> Forall drawable es -> get_axis_limits es (m_pad o) = Ok b -> depicts es o (mesh_pic es o b).
Proof.
  intros Ne F E. destruct (C65_contains es (m_pad o) b Ne F E) as (x0 & x1 & y0 & y1 & -> & Ins). unfold depicts, mesh_pic. see.
  assert (W : forall B (f : art -> list B), (forall l, f (Line l) = []) -> (forall l, f (Quiver l) = []) -> flat_map f (map (fun e => if m_orient o then Quiver (arrows (polyline e)) else Line (polyline e)) es) = []) by (intros B f A1 A2; apply flat_map_skip; intros e; destruct (m_orient o); auto).
  repeat split.
  - destruct (m_orient o); [rewrite flat_map_skip by reflexivity|rewrite flat_map_one with (h := polyline) by reflexivity]; unfold opt; destruct (is_title _); destruct (negb _); cbn; rewrite ?app_nil_r; reflexivity.
  - destruct (m_orient o); [rewrite flat_map_one with (h := fun e => arrows (polyline e)) by reflexivity|rewrite flat_map_skip by reflexivity]; unfold opt; destruct (is_title _); destruct (negb _); cbn; rewrite ?app_nil_r; reflexivity.
  - exists x0, x1, y0, y1. split; [|exact Ins]. rewrite W by reflexivity. unfold opt; destruct (is_title _); destruct (negb _); reflexivity.
  - rewrite W by reflexivity. rewrite is_title_spec. destruct (String.eqb (m_title o) ""); unfold opt; destruct (negb _); reflexivity.
  - intros A. destruct (m_axis o) eqn:X; [reflexivity|]. exfalso. apply A. cbn [negb opt]. rewrite !in_app_iff. right. right. right. right. left. reflexivity.
  - intros X. rewrite X. cbn [negb opt]. unfold has_axis. rewrite !in_app_iff. intros [I|[I|[I|[I|I]]]].
    + apply in_map_iff in I. destruct I as (e & I & _). destruct (m_orient o); discriminate.
    + destruct I as [I|[]]; discriminate. + destruct I as [I|[]]; discriminate. + unfold opt in I. destruct (is_title _); [destruct I as [I|[]]; discriminate|destruct I]. + destruct I.
  - rewrite !in_app_iff. right. right. left. left. reflexivity.
  - rewrite W by reflexivity. unfold opt; destruct (is_title _); destruct (negb _); reflexivity.
  - rewrite W by reflexivity. unfold opt; destruct (is_title _); destruct (negb _); reflexivity.
Qed.

(** ** Meshes *)
(** A mesh plot that succeeds opens one new figure, writes it to the file if a name is given, shows
    it if asked to, in this order, and closes it unless it is to be kept open. Other figures are
    left as they were. *)
Theorem C74_mesh exist es o show_plot f P P' : mesh_draw exist es o show_plot f P = (P', Done tt) ->
  exists n pic evs, ~ In n (map fst (figs P)) /\ depicts es o pic /\ written exist pic f evs /\
  P' = Plt (if m_keep o then (n, pic) :: figs P else figs P) (rc P) (out P ++ evs ++ if show_plot then [Shown ((n, pic) :: figs P)] else []).
Proof.
  intros E. destruct (get_axis_limits es (m_pad o)) as [b|e] eqn:L; [|rewrite (proj1 (mesh_draw_closed exist es o show_plot f P) e L) in E; discriminate]. destruct (get_figure_size b 4) as [z|] eqn:Z; [|rewrite (proj2 (mesh_draw_closed exist es o show_plot f P) b L Z) in E; discriminate].
  rewrite (mesh_draw_open exist es o show_plot f P b z L Z) in E. destruct (finish_cases exist show_plot (m_keep o) f (fresh_number (figs P)) (mesh_pic es o b) (figs P) (rc P) (out P)) as [(W & evs & V & X)|(W & X)]; rewrite X in E; [|discriminate]. injection E as <-.
  exists (fresh_number (figs P)), (mesh_pic es o b), evs. split; [apply fresh_not_in|]. split; [exact (mesh_pic_depicts es o b (size_nonempty _ _ _ _ _ L Z) (limits_drawable _ _ _ L) L)|]. split; [exact V|reflexivity].
Qed.
Print Assumptions C74_mesh.
(** It succeeds for sampled edges that are not all on one horizontal line, if the file name has a
    directory, and only then. *)
Theorem C74_mesh_succeeds exist es o show_plot f P : (exists P', mesh_draw exist es o show_plot f P = (P', Done tt)) <-> es <> [] /\ Forall drawable es /\ tall es /\ writable f.
Proof.
  split.
  - intros (P' & E). destruct (get_axis_limits es (m_pad o)) as [b|e] eqn:L; [|rewrite (proj1 (mesh_draw_closed exist es o show_plot f P) e L) in E; discriminate]. destruct (get_figure_size b 4) as [z|] eqn:Z; [|rewrite (proj2 (mesh_draw_closed exist es o show_plot f P) b L Z) in E; discriminate].
    pose proof (size_nonempty _ _ _ _ _ L Z) as Ne. pose proof (limits_drawable _ _ _ L) as F. split; [exact Ne|]. split; [exact F|]. rewrite (mesh_draw_open exist es o show_plot f P b z L Z) in E. split.
    + destruct (size_cases es (m_pad o) Ne F) as (b' & L' & C). rewrite L in L'. apply Ok_inj in L'. subst b'. destruct (C 4) as [[T _]|[_ X]]; [exact T|congruence].
    + destruct (finish_cases exist show_plot (m_keep o) f (fresh_number (figs P)) (mesh_pic es o b) (figs P) (rc P) (out P)) as [(W & _)|(W & X)]; [exact W|]. rewrite X in E. discriminate.
  - intros (Ne & F & T & W). destruct (size_cases es (m_pad o) Ne F) as (b & L & C). destruct (C 4) as [[_ (z & Z)]|[X _]]; [|contradiction]. rewrite (mesh_draw_open exist es o show_plot f P b z L Z). destruct (finish_cases exist show_plot (m_keep o) f (fresh_number (figs P)) (mesh_pic es o b) (figs P) (rc P) (out P)) as [(_ & evs & V & X)|(X & _)]; [|contradiction]. eexists. exact X.
Qed.
Print Assumptions C74_mesh_succeeds.
(** A plot that fails has drawn nothing at all; or the file has no directory, and then the figure has not been shown and
    stays open. *)
Theorem C74_mesh_fails exist es o show_plot f P P' t : mesh_draw exist es o show_plot f P = (P', Fail t) ->
  P' = P \/ (t = NoDirectory /\ f <> [] /\ dirname f = [] /\ exists n pic, depicts es o pic /\ P' = Plt ((n, pic) :: figs P) (rc P) (out P)).
Proof.
  intros E. destruct (get_axis_limits es (m_pad o)) as [b|e] eqn:L; [|rewrite (proj1 (mesh_draw_closed exist es o show_plot f P) e L) in E; injection E as <- _; left; reflexivity]. destruct (get_figure_size b 4) as [z|] eqn:Z; [|rewrite (proj2 (mesh_draw_closed exist es o show_plot f P) b L Z) in E; injection E as <- _; left; reflexivity].
  rewrite (mesh_draw_open exist es o show_plot f P b z L Z) in E. destruct (finish_cases exist show_plot (m_keep o) f (fresh_number (figs P)) (mesh_pic es o b) (figs P) (rc P) (out P)) as [(W & evs & V & X)|(W & X)]; rewrite X in E; [discriminate|]. injection E as <- <-. right. split; [reflexivity|]. split; [intros ->; apply W; left; reflexivity|]. split; [destruct (dirname f) eqn:D; [reflexivity|]; exfalso; apply W; right; rewrite D; discriminate|].
  do 2 eexists. split; [exact (mesh_pic_depicts es o b (size_nonempty _ _ _ _ _ L Z) (limits_drawable _ _ _ L) L)|reflexivity].
Qed.
Print Assumptions C74_mesh_fails.
(** A file name without a directory: the figure is drawn but neither saved nor shown, and stays open. *)
Theorem C74_open_refuted exist es o show_plot f P : es <> [] -> Forall drawable es -> tall es -> f <> [] -> ~ In slash f ->
  exists n pic, ~ In n (map fst (figs P)) /\ depicts es o pic /\ mesh_draw exist es o show_plot f P = (Plt ((n, pic) :: figs P) (rc P) (out P), Fail NoDirectory).
Proof.
  intros Ne F T Nf Ns. destruct (size_cases es (m_pad o) Ne F) as (b & L & C). destruct (C 4) as [[_ (z & Z)]|[X _]]; [|contradiction]. exists (fresh_number (figs P)), (mesh_pic es o b). split; [apply fresh_not_in|]. split; [exact (mesh_pic_depicts es o b Ne F L)|]. rewrite (mesh_draw_open exist es o show_plot f P b z L Z).
  destruct (finish_cases exist show_plot (m_keep o) f (fresh_number (figs P)) (mesh_pic es o b) (figs P) (rc P) (out P)) as [([W|W] & _)|(_ & X)]; [contradiction| |exact X]. exfalso. apply W. pose proof (C65_bare_name_refuted exist f Ns) as S. unfold save_figure in S. destruct (dirname f); [reflexivity|discriminate].
Qed.
Print Assumptions C74_open_refuted.

(** ** Local functions *)
(** A plot of a local function: one array of contours with the given limits, in the colours [cm];
    the boundary, the title, the axis and the colour bar as asked for, the bar in the colours and limits of the contours *)
Definition shows_function (es : list edge) (T : tgl) (o : local_opts) (p : picture) (cm : string) (pic : list art) : Prop :=
  contours pic = [(l_fill o, p, l_clim o, cm)] /\ lines pic = (if l_boundary o then map polyline es else []) /\ bars pic = (if l_bar o then [(l_clim o, cm)] else []) /\
  titled (l_title o) pic /\ (has_axis pic <-> l_axis o = true) /\ (In (Triangles (tg_tris T)) pic <-> l_tris o = true) /\ fields pic = [] /\ windows pic = [].
Lemma local_pic_shows p r T o es : shows_function es T o p (colors r o) (local_pic p r T o es).
Proof.
  unfold shows_function, local_pic, trim. see. cbn [flat_map]. rewrite ?flat_map_app. assert (W : forall B (f : art -> list B), (forall l, f (Line l) = []) -> flat_map f (if l_boundary o then map (fun e => Line (polyline e)) es else []) = []) by (intros B f A1; destruct (l_boundary o); [apply flat_map_skip; auto|reflexivity]).
  assert (NL : forall a, In a (if l_boundary o then map (fun e => Line (polyline e)) es else []) -> exists l, a = Line l) by (intros a I; destruct (l_boundary o); [|destruct I]; apply in_map_iff in I; destruct I as (e & <- & _); eauto).
  repeat split.
  - rewrite W by reflexivity. unfold opt. destruct (l_tris o), (negb (l_axis o)), (is_title (l_title o)), (l_bar o); reflexivity.
  - assert (X : flat_map (fun a => match a with Line l => [l] | _ => [] end) (if l_boundary o then map (fun e => Line (polyline e)) es else []) = if l_boundary o then map polyline es else []) by (destruct (l_boundary o); [apply flat_map_one; reflexivity|reflexivity]). rewrite X. unfold opt. destruct (l_tris o), (negb (l_axis o)), (is_title (l_title o)), (l_bar o); cbn; rewrite ?app_nil_r; reflexivity.
  - rewrite W by reflexivity. unfold opt. destruct (l_tris o), (negb (l_axis o)), (is_title (l_title o)), (l_bar o); reflexivity.
  - rewrite W by reflexivity. rewrite is_title_spec. unfold opt. destruct (l_tris o), (negb (l_axis o)), (String.eqb (l_title o) ""), (l_bar o); reflexivity.
  - intros A. destruct (l_axis o) eqn:X; [reflexivity|]. exfalso. apply A. right. cbn [negb opt]. rewrite !in_app_iff. left. right. right. left. left. reflexivity.
  - intros X I. cbn [In] in I. rewrite X in I. cbn [negb opt] in I. rewrite !in_app_iff in I. destruct I as [I|[[I|[I|[I|[I|I]]]]|I]]; try discriminate.
    + unfold opt in I. destruct (l_tris o); [destruct I as [I|[]]; discriminate|destruct I]. + destruct I as [I|[]]; discriminate. + destruct I. + apply NL in I. destruct I as (l & I). discriminate. + unfold opt in I. destruct (is_title _); [destruct I as [I|[]]; discriminate|destruct I]. + unfold opt in I. destruct (l_bar o); [destruct I as [I|[]]; discriminate|destruct I].
  - intros I. destruct (l_tris o) eqn:X; [reflexivity|]. exfalso. cbn [In opt] in I. rewrite !in_app_iff in I. destruct I as [I|[[I|[I|[I|[I|I]]]]|I]]; try discriminate.
    + destruct I. + destruct I as [I|[]]; discriminate. + unfold opt in I. destruct (negb _); [destruct I as [I|[]]; discriminate|destruct I]. + apply NL in I. destruct I as (l & I). discriminate. + unfold opt in I. destruct (is_title _); [destruct I as [I|[]]; discriminate|destruct I]. + unfold opt in I. destruct (l_bar o); [destruct I as [I|[]]; discriminate|destruct I].
  - intros X. rewrite X. right. rewrite !in_app_iff. left. left. left. reflexivity.
  - rewrite W by reflexivity. unfold opt. destruct (l_tris o), (negb (l_axis o)), (is_title (l_title o)), (l_bar o); reflexivity.
  - rewrite W by reflexivity. unfold opt. destruct (l_tris o), (negb (l_axis o)), (is_title (l_title o)), (l_bar o); reflexivity.
Qed.
Lemma local_open exist ui kind u H c T o show_plot f P : l_new o = true -> l_fig o = None ->
  (exists arr es w z, arrays ui kind u H c = Ok arr /\ kedges H c = Ok es /\ get_axis_limits es (1 / 10) = Ok w /\ get_figure_size w 4 = Some z /\
    local_draw exist ui kind u H c T o show_plot f P = local_body exist ui arr H c T o show_plot f (Plt ((fresh_number (figs P), []) :: figs P) (rc P) (out P))) \/
  (exists e, local_draw exist ui kind u H c T o show_plot f P = (P, Fail (Threw e))).
Proof.
  intros Nw Fg. rewrite local_draw_split. unfold follow at 1, lift at 1. destruct (arrays ui kind u H c) as [arr|e]; [|right; eexists; reflexivity]. unfold local_figure. rewrite Nw, Fg. destruct (kedges H c) as [es|e] eqn:K; [|right; eexists; reflexivity]. destruct (get_axis_limits es (1 / 10)) as [w|e] eqn:L; [|right; exists e; unfold follow, lift; cbn [bind]; rewrite L; reflexivity].
  destruct (get_figure_size w 4) as [z|] eqn:Z; [|right; exists ValueError; unfold follow, lift; cbn [bind]; rewrite L; unfold open_figure; rewrite Z; reflexivity].
  left. exists arr, es, w, z. split; [reflexivity|]. split; [reflexivity|]. split; [exact L|]. split; [exact Z|]. unfold follow at 1 2 3, lift. cbn [bind]. rewrite L. unfold follow at 1, open_figure. rewrite Z. unfold ret. rewrite use_head by apply fresh_not_in. reflexivity.
Qed.
(** A plot of a local function that succeeds opens one new figure with the picture of C68, writes and shows it, and
    closes it unless asked not to. The colours become the default. *)
Theorem C74_local exist ui kind u H c T o show_plot f P P' : l_new o = true -> l_fig o = None -> local_draw exist ui kind u H c T o show_plot f P = (P', Done tt) ->
  exists n pic evs p es, let cm := match l_cmap o with Some cm => cm | None => rc P end in
  ~ In n (map fst (figs P)) /\ kedges H c = Ok es /\ snd (draw ui (l_log10 o) kind u H c T) = Ok p /\ shows_function es T o p cm pic /\ written exist pic f evs /\
  P' = Plt (if l_close o then figs P else (n, pic) :: figs P) cm (out P ++ evs ++ if show_plot then [Shown ((n, pic) :: figs P)] else []).
Proof.
  intros Nw Fg E. destruct (local_open exist ui kind u H c T o show_plot f P Nw Fg) as [(arr & es & w & z & A & K & L & Z & X)|(e & X)]; rewrite X in E; [|discriminate]. clear X. pose proof (fresh_not_in (figs P)) as N. set (n := fresh_number (figs P)) in *.
  destruct (snd (draw_generic ui (l_log10 o) (fst arr) (snd arr) T)) as [p|e] eqn:D; [|unfold local_body, follow, lift in E; rewrite D in E; discriminate].
  rewrite (local_body_ok exist ui arr H c T o show_plot f p es n [] (figs P) (rc P) (out P) D (fun _ => conj K (limits_drawable _ _ _ L)) N) in E. cbn [app] in E. destruct (finish_cases exist show_plot (negb (l_close o)) f n (local_pic p (rc P) T o es) (figs P) (colors (rc P) o) (out P)) as [(W & evs & V & X)|(W & X)]; rewrite X in E; [|discriminate]. injection E as <-.
  exists n, (local_pic p (rc P) T o es), evs, p, es. cbv zeta. split; [exact N|]. split; [exact K|]. split; [rewrite (arrays_draw ui (l_log10 o) kind u H c T es w K L), A; exact D|]. split; [apply local_pic_shows|]. split; [exact V|]. destruct (l_close o); reflexivity.
Qed.
Print Assumptions C74_local.
(** One that fails has done nothing, or it leaves a figure open and has not shown it. *)
Theorem C74_local_fails exist ui kind u H c T o show_plot f P P' t : l_new o = true -> l_fig o = None -> local_draw exist ui kind u H c T o show_plot f P = (P', Fail t) ->
  P' = P \/ exists n pic, ~ In n (map fst (figs P)) /\ figs P' = (n, pic) :: figs P /\ out P' = out P.
Proof.
  intros Nw Fg E. destruct (local_open exist ui kind u H c T o show_plot f P Nw Fg) as [(arr & es & w & z & A & K & L & Z & X)|(e & X)]; rewrite X in E; [|injection E as <- _; left; reflexivity]. clear X. right. pose proof (fresh_not_in (figs P)) as N. set (n := fresh_number (figs P)) in *.
  destruct (snd (draw_generic ui (l_log10 o) (fst arr) (snd arr) T)) as [p|e] eqn:D.
  - rewrite (local_body_ok exist ui arr H c T o show_plot f p es n [] (figs P) (rc P) (out P) D (fun _ => conj K (limits_drawable _ _ _ L)) N) in E. cbn [app] in E. destruct (finish_cases exist show_plot (negb (l_close o)) f n (local_pic p (rc P) T o es) (figs P) (colors (rc P) o) (out P)) as [(W & evs & V & X)|(W & X)]; rewrite X in E; [discriminate|]. injection E as <- _. exists n. eexists. split; [exact N|]. split; reflexivity.
  - unfold local_body, follow, lift in E. rewrite D in E. injection E as <- _. exists n, []. split; [exact N|]. split; reflexivity.
Qed.
Print Assumptions C74_local_fails.
(** A function without interior values: an empty figure stays open. *)
Theorem C74_skeleton_refuted exist u H c T o show_plot f P es : l_new o = true -> l_fig o = None -> kedges H c = Ok es -> es <> [] -> Forall drawable es -> tall es -> u_vals u = None ->
  exists n, ~ In n (map fst (figs P)) /\ local_draw exist false "values" u H c T o show_plot f P = (Plt ((n, []) :: figs P) (rc P) (out P), Fail (Threw NotImplementedError)).
Proof.
  intros Nw Fg K Ne F Tl V. destruct (size_cases es (1 / 10) Ne F) as (w & L & C). destruct (C 4) as [[_ (z & Z)]|[X _]]; [|contradiction]. exists (fresh_number (figs P)). split; [apply fresh_not_in|]. rewrite local_draw_split. unfold follow at 1, lift at 1. cbn [arrays String.eqb Ascii.eqb Bool.eqb boundary_array bind]. unfold local_figure. rewrite Nw, Fg, K. unfold follow at 1 2 3, lift. cbn [bind]. rewrite L. unfold follow at 1, open_figure. rewrite Z. unfold ret. rewrite use_head by apply fresh_not_in. unfold local_body, follow, lift. cbn [fst snd]. rewrite V. reflexivity.
Qed.
Print Assumptions C74_skeleton_refuted.
(** On a figure that is given and is the current one the picture is added to what is there, and
    with close_plot the figure is closed. *)
Theorem C74_local_handle exist ui kind u H c T o show_plot f n x fs r ot P' : l_fig o = Some n -> ~ In n (map fst fs) -> l_boundary o = false -> local_draw exist ui kind u H c T o show_plot f (Plt ((n, x) :: fs) r ot) = (P', Done tt) ->
  exists pic evs p arr, let cm := match l_cmap o with Some cm => cm | None => r end in
  arrays ui kind u H c = Ok arr /\ snd (draw_generic ui (l_log10 o) (fst arr) (snd arr) T) = Ok p /\ shows_function [] T o p cm pic /\ written exist (x ++ pic) f evs /\
  P' = Plt (if l_close o then fs else (n, x ++ pic) :: fs) cm (ot ++ evs ++ if show_plot then [Shown ((n, x ++ pic) :: fs)] else []).
Proof.
  intros Fg N NB E. rewrite local_draw_split in E. unfold follow at 1, lift in E. destruct (arrays ui kind u H c) as [arr|e]; [|discriminate]. unfold follow at 1, local_figure in E. rewrite Fg in E. unfold follow at 1, ret in E. rewrite use_head in E by exact N.
  destruct (snd (draw_generic ui (l_log10 o) (fst arr) (snd arr) T)) as [p|e] eqn:D; [|unfold local_body, follow, lift in E; rewrite D in E; discriminate].
  rewrite (local_body_ok exist ui arr H c T o show_plot f p [] n x fs r ot D ltac:(congruence) N) in E. destruct (finish_cases exist show_plot (negb (l_close o)) f n (x ++ local_pic p r T o []) fs (colors r o) ot) as [(W & evs & V & X)|(W & X)]; rewrite X in E; [|discriminate]. injection E as <-.
  exists (local_pic p r T o []), evs, p, arr. cbv zeta. split; [reflexivity|]. split; [exact D|]. split; [apply local_pic_shows|]. split; [exact V|]. destruct (l_close o); reflexivity.
Qed.
Print Assumptions C74_local_handle.
(** The colour map of one plot is that of the next plots too, unless they have their own. *)
Theorem C74_colors_refuted exist ui kind u H c T o show_plot f P P1 cm ui' kind' u' H' c' T' o' f' P2 : l_new o = true -> l_fig o = None -> l_new o' = true -> l_fig o' = None ->
  l_cmap o = Some cm -> l_cmap o' = None -> local_draw exist ui kind u H c T o show_plot f P = (P1, Done tt) -> local_draw exist ui' kind' u' H' c' T' o' true f' P1 = (P2, Done tt) ->
  exists evs n pic p fs, out P2 = out P1 ++ evs ++ [Shown ((n, pic) :: fs)] /\ contours pic = [(l_fill o', p, l_clim o', cm)].
Proof.
  intros A1 A2 B1 B2 C1 C2 D1 D2. destruct (C74_local _ _ _ _ _ _ _ _ _ _ _ _ A1 A2 D1) as (n & pic & evs & p & es & _ & _ & _ & _ & _ & ->). rewrite C1 in D2. destruct (C74_local _ _ _ _ _ _ _ _ _ _ _ _ B1 B2 D2) as (n' & pic' & evs' & p' & es' & _ & _ & _ & S & _ & ->). cbv zeta in S. rewrite C2 in S. cbn [rc] in S. destruct S as (S & _). do 5 eexists. split; [cbn [out figs]; reflexivity|exact S].
Qed.
Print Assumptions C74_colors_refuted.

(** ** Global functions *)
(** Without showing or saving nothing is done, whatever kind of plot is asked for. *)
Theorem C74_glob_idle exist st funs H es kind o P : glob_draw exist st funs H es kind o false [] P = (P, Done tt).
Proof. reflexivity. Qed.
Print Assumptions C74_glob_idle.
(** A plot of a global function: the contours of the cells in their order with common limits, in the default colours [r]; the
    polylines of all edges; the bar with the limits, in the colours that are given *)
Definition shows_global (es : list edge) (ps : list picture) (clim : range) (o : glob_opts) (r : string) (pic : list art) : Prop :=
  contours pic = map (fun p => (g_fill o, p, Some clim, r)) ps /\ lines pic = map polyline es /\
  bars pic = (if andb (g_fill o) (g_bar o) then [(Some clim, match g_cmap o with Some cm => cm | None => r end)] else []) /\ titled (g_title o) pic /\ (has_axis pic <-> g_axis o = true /\ ps = []) /\ fields pic = [] /\ windows pic = [].
(** The picture of a cell *)
Definition cell_picture (o : glob_opts) (kind : string) (H : heap) (f : lpois * cell * tgl) (p : picture) : Prop :=
  let '(u, c, T) := f in exists arr, arrays (g_interp o) kind u H c = Ok arr /\ snd (draw_generic (g_interp o) false (fst arr) (snd arr) T) = Ok p.
Definition cell_part (o : glob_opts) (clim : range) (r : string) (p : picture) : list art := [Contour (g_fill o) p (Some clim) r; Equal; AxisOff].
Definition glob_pic (es : list edge) (ps : list picture) (clim : range) (o : glob_opts) (r : string) : list art :=
  concat (map (cell_part o clim r) ps) ++ map (fun e => Line (polyline e)) es ++ opt (andb (g_fill o) (g_bar o)) (Bar (Some clim) (match g_cmap o with Some cm => cm | None => r end)) ++ [Equal] ++ opt (negb (g_axis o)) AxisOff ++ opt (is_title (g_title o)) (Title (g_title o)).
Lemma glob_pic_shows es ps clim o r : shows_global es ps clim o r (glob_pic es ps clim o r).
Proof.
  assert (W : forall B (f : art -> list B), (forall l, f (Line l) = []) -> flat_map f (map (fun e => Line (polyline e)) es) = []) by (intros B f A1; apply flat_map_skip; auto).
  assert (V : forall B (f : art -> list B), (forall p, f (Contour (g_fill o) p (Some clim) r) = []) -> f Equal = [] -> f AxisOff = [] -> flat_map f (concat (map (cell_part o clim r) ps)) = []) by (intros B f A1 A2 A3; induction ps as [|p ps' IH]; [reflexivity|]; cbn [map concat]; rewrite flat_map_app, IH; unfold cell_part; cbn [flat_map]; rewrite A1, A2, A3; reflexivity).
  unfold shows_global, glob_pic. see. repeat split.
  - rewrite W by reflexivity. assert (X : flat_map (fun a => match a with Contour b p q s => [(b, p, q, s)] | _ => [] end) (concat (map (cell_part o clim r) ps)) = map (fun p => (g_fill o, p, Some clim, r)) ps) by (clear; induction ps as [|p ps IH]; [reflexivity|]; cbn [map concat]; rewrite flat_map_app, IH; reflexivity). rewrite X. unfold opt. destruct (andb _ _), (negb (g_axis o)), (is_title (g_title o)); cbn; rewrite ?app_nil_r; reflexivity.
  - rewrite V by reflexivity. rewrite flat_map_one with (h := polyline) by reflexivity. unfold opt. destruct (andb _ _), (negb (g_axis o)), (is_title (g_title o)); cbn; rewrite ?app_nil_r; reflexivity.
  - rewrite V, W by reflexivity. unfold opt. destruct (andb _ _), (negb (g_axis o)), (is_title (g_title o)); reflexivity.
  - rewrite V, W by reflexivity. rewrite is_title_spec. unfold opt. destruct (andb _ _), (negb (g_axis o)), (String.eqb (g_title o) ""); reflexivity.
  - destruct (g_axis o) eqn:X; [reflexivity|]. exfalso. apply H. cbn [negb opt]. rewrite !in_app_iff. do 4 right. left. left. reflexivity.
  - destruct ps as [|p ps']; [reflexivity|]. exfalso. apply H. rewrite !in_app_iff. left. cbn. auto.
  - intros (X & ->). rewrite X. cbn [negb opt map concat app]. unfold has_axis. rewrite !in_app_iff. intros [I|[I|[I|I]]].
    + apply in_map_iff in I. destruct I as (e & I & _). discriminate.
    + unfold opt in I. destruct (andb _ _); [destruct I as [I|[]]; discriminate|destruct I].
    + discriminate.
    + unfold opt in I. destruct (is_title _); [destruct I as [I|[]]; discriminate|destruct I].
  - rewrite V, W by reflexivity. unfold opt. destruct (andb _ _), (negb (g_axis o)), (is_title (g_title o)); reflexivity.
  - rewrite V, W by reflexivity. unfold opt. destruct (andb _ _), (negb (g_axis o)), (is_title (g_title o)); reflexivity.
Qed.
Lemma cells_art o kind H clim r funs : match map_res (cell_art (g_interp o) kind H o clim r) funs with Ok ls => exists ps, Forall2 (cell_picture o kind H) funs ps /\ ls = map (cell_part o clim r) ps | Err _ => True end.
Proof.
  induction funs as [|[[u c] T] funs IH]; [exists []; split; [constructor|reflexivity]|]. cbn [map_res cell_art]. destruct (arrays (g_interp o) kind u H c) as [arr|] eqn:A; [|exact I]. cbn [bind]. destruct (snd (draw_generic (g_interp o) false (fst arr) (snd arr) T)) as [p|] eqn:D; [|exact I]. cbn [bind]. destruct (map_res _ funs) as [ls|]; [|exact I]. cbn [bind]. destruct IH as (ps & F & ->). exists (p :: ps). split; [constructor; [exists arr; auto|exact F]|reflexivity].
Qed.
Lemma v_lines n r es : Forall drawable es -> draws n r (each (fun e => run l <- lift (edge_line e); put (Line l)) es) (map (fun e => Line (polyline e)) es).
Proof.
  intros F. pose proof (v_each n r (fun e => run l <- lift (edge_line e); put (Line l)) (fun e => do l <- edge_line e; Ok [Line l]) es (fun e _ => v_lift n r _ _ (fun l => Ok [Line l]) (fun l _ => v_put n r _))) as X.
  assert (Y : map_res (fun e => do l <- edge_line e; Ok [Line l]) es = Ok (map (fun e => [Line (polyline e)]) es)) by (induction F as [|e es [Pe _] F IH]; [reflexivity|]; cbn [map_res map]; unfold edge_line at 1; rewrite Pe; cbn [bind]; rewrite IH; [reflexivity|exact (v_each n r _ _ es (fun e _ => v_lift n r _ _ (fun l => Ok [Line l]) (fun l _ => v_put n r _)))]).
  rewrite Y in X. cbn [bind verdict] in X. rewrite concat_single in X. exact X.
Qed.
Lemma glob_open exist st funs H es kind o show_plot f P b z clim : show_plot = true \/ f <> [] -> get_axis_limits es (1 / 10) = Ok b -> get_figure_size b 4 = Some z -> color_range st kind = Ok clim ->
  match map_res (cell_art (g_interp o) kind H o clim (rc P)) funs with
  | Ok _ => exists ps, Forall2 (cell_picture o kind H) funs ps /\ glob_draw exist st funs H es kind o show_plot f P = finish exist show_plot false f (Plt ((fresh_number (figs P), glob_pic es ps clim o (rc P)) :: figs P) (rc P) (out P))
  | Err e => exists y, glob_draw exist st funs H es kind o show_plot f P = (Plt ((fresh_number (figs P), y) :: figs P) (rc P) (out P), Fail (Threw e))
  end.
Proof.
  intros S L Z C. pose proof (limits_drawable _ _ _ L) as F. pose proof (fresh_not_in (figs P)) as N. set (n := fresh_number (figs P)) in *.
  assert (G : negb (orb show_plot (negb (is_empty f))) = false) by (destruct S as [->|S]; [reflexivity|]; destruct f; [congruence|]; cbn; destruct show_plot; reflexivity).
  pose proof (v_each n (rc P) (fun f => let '(u, c, T) := f in local_draw exist (g_interp o) kind u H c T (cell_opts o n clim) false []) _ funs (fun f _ => v_cell exist kind H o clim n (rc P) f)) as V. pose proof (cells_art o kind H clim (rc P) funs) as CA.
  assert (E : exists k, glob_draw exist st funs H es kind o show_plot f P = follow (each (fun f => let '(u, c, T) := f in local_draw exist (g_interp o) kind u H c T (cell_opts o n clim) false []) funs) (fun _ => k) (Plt ((n, []) :: figs P) (rc P) (out P)) /\
    forall x, k (Plt ((n, x) :: figs P) (rc P) (out P)) = finish exist show_plot false f (Plt ((n, x ++ map (fun e => Line (polyline e)) es ++ opt (andb (g_fill o) (g_bar o)) (Bar (Some clim) (match g_cmap o with Some cm => cm | None => rc P end)) ++ [Equal] ++ opt (negb (g_axis o)) AxisOff ++ opt (is_title (g_title o)) (Title (g_title o))) :: figs P) (rc P) (out P))).
  { eexists. split.
    - unfold glob_draw. rewrite G. unfold follow at 1, lift at 1. rewrite L. unfold follow at 1, open_figure. rewrite Z. fold n. unfold follow at 1, lift at 1. rewrite C. reflexivity.
    - intros x. assert (DB : draws n (rc P) (when (andb (g_fill o) (g_bar o)) (fun P => put (Bar (Some clim) (match g_cmap o with Some cm => cm | None => rc P end)) P)) (opt (andb (g_fill o) (g_bar o)) (Bar (Some clim) (match g_cmap o with Some cm => cm | None => rc P end)))) by (destruct (andb _ _); intros y fs oo _; cbn [when opt]; [reflexivity|rewrite app_nil_r; reflexivity]).
      rewrite (draw_step _ _ _ _ _ _ _ _ (v_lines n (rc P) es F) N), (draw_step _ _ _ _ _ _ _ _ DB N), (draw_step _ _ _ _ _ _ _ _ (d_put _ _ _) N), (draw_step _ _ _ _ _ _ _ _ (d_when _ _ _ _) N), (draw_step _ _ _ _ _ _ _ _ (d_when _ _ _ _) N). rewrite <- !app_assoc. reflexivity. }
  destruct E as (k & E & K). destruct (map_res _ funs) as [ls|e]; cbn [bind verdict] in V.
  - destruct CA as (ps & FP & ->). exists ps. split; [exact FP|]. rewrite E. rewrite (draw_step _ _ _ _ _ _ _ _ V N). cbn [app]. rewrite K. reflexivity.
  - rewrite E. exact (fail_step _ _ _ _ _ _ _ _ V N).
Qed.
Lemma glob_shut exist st funs H es kind o show_plot f P : show_plot = true \/ f <> [] ->
  (forall e, get_axis_limits es (1 / 10) = Err e -> glob_draw exist st funs H es kind o show_plot f P = (P, Fail (Threw e))) /\
  (forall b, get_axis_limits es (1 / 10) = Ok b -> get_figure_size b 4 = None -> glob_draw exist st funs H es kind o show_plot f P = (P, Fail (Threw ValueError))) /\
  (forall b z e, get_axis_limits es (1 / 10) = Ok b -> get_figure_size b 4 = Some z -> color_range st kind = Err e -> glob_draw exist st funs H es kind o show_plot f P = (Plt ((fresh_number (figs P), []) :: figs P) (rc P) (out P), Fail (Threw e))).
Proof.
  intros S. assert (G : negb (orb show_plot (negb (is_empty f))) = false) by (destruct S as [->|S]; [reflexivity|]; destruct f; [congruence|]; cbn; destruct show_plot; reflexivity).
  unfold glob_draw. rewrite G. split; [intros e L; unfold follow at 1, lift; rewrite L; reflexivity|]. split; [intros b L Z|intros b z e L Z C]; unfold follow at 1, lift at 1; rewrite L; unfold follow at 1, open_figure; rewrite Z; [reflexivity|]. unfold follow at 1, lift. rewrite C. reflexivity.
Qed.
(** A plot of a global function that succeeds opens one figure, writes it, shows it and closes it.
    The colour map that is given reaches the bar only, and the axis is hidden whenever there is a
    cell. *)
Theorem C74_glob exist st funs H es kind o show_plot f P P' : show_plot = true \/ f <> [] -> glob_draw exist st funs H es kind o show_plot f P = (P', Done tt) ->
  exists n pic evs ps clim, ~ In n (map fst (figs P)) /\ color_range st kind = Ok clim /\ Forall2 (cell_picture o kind H) funs ps /\ shows_global es ps clim o (rc P) pic /\ written exist pic f evs /\
  P' = Plt (figs P) (rc P) (out P ++ evs ++ if show_plot then [Shown ((n, pic) :: figs P)] else []).
Proof.
  intros S E. destruct (glob_shut exist st funs H es kind o show_plot f P S) as (G1 & G2 & G3). destruct (get_axis_limits es (1 / 10)) as [b|e] eqn:L; [|rewrite (G1 e eq_refl) in E; discriminate]. destruct (get_figure_size b 4) as [z|] eqn:Z; [|rewrite (G2 b eq_refl Z) in E; discriminate]. destruct (color_range st kind) as [clim|e] eqn:C; [|rewrite (G3 b z e eq_refl Z eq_refl) in E; discriminate].
  pose proof (glob_open exist st funs H es kind o show_plot f P b z clim S L Z C) as X. destruct (map_res _ funs) as [ls|e]; [|destruct X as (y & X); rewrite X in E; discriminate]. destruct X as (ps & FP & X). rewrite X in E. clear X. destruct (finish_cases exist show_plot false f (fresh_number (figs P)) (glob_pic es ps clim o (rc P)) (figs P) (rc P) (out P)) as [(W & evs & V & X)|(W & X)]; rewrite X in E; [|discriminate]. injection E as <-.
  exists (fresh_number (figs P)), (glob_pic es ps clim o (rc P)), evs, ps, clim. split; [apply fresh_not_in|]. split; [reflexivity|]. split; [exact FP|]. split; [apply glob_pic_shows|]. split; [exact V|reflexivity].
Qed.
Print Assumptions C74_glob.
(** It succeeds if the edges are sampled and not all on one horizontal line, the kind of plot is
    known, every cell can be drawn and the file name has a directory, and only then. *)
Theorem C74_glob_succeeds exist st funs H es kind o show_plot f P : show_plot = true \/ f <> [] ->
  (exists P', glob_draw exist st funs H es kind o show_plot f P = (P', Done tt)) <-> es <> [] /\ Forall drawable es /\ tall es /\ In kind ["values"; "grad_x1"; "grad_x2"; "grad_norm"]%string /\ (exists ps, Forall2 (cell_picture o kind H) funs ps) /\ writable f.
Proof.
  intros S. destruct (glob_shut exist st funs H es kind o show_plot f P S) as (G1 & G2 & G3).
  assert (CR : (exists clim, color_range st kind = Ok clim) <-> In kind ["values"; "grad_x1"; "grad_x2"; "grad_norm"]%string).
  { unfold color_range. split.
    - intros (clim & X). destruct (String.eqb_spec kind "values"); [left; auto|]. destruct (String.eqb_spec kind "grad_x1"); [right; left; auto|]. destruct (String.eqb_spec kind "grad_x2"); [do 2 right; left; auto|]. destruct (String.eqb_spec kind "grad_norm"); [do 3 right; left; auto|]. discriminate.
    - intros [<-|[<-|[<-|[<-|[]]]]]; eexists; reflexivity. }
  split.
  - intros (P' & E). destruct (get_axis_limits es (1 / 10)) as [b|e] eqn:L; [|rewrite (G1 e eq_refl) in E; discriminate]. destruct (get_figure_size b 4) as [z|] eqn:Z; [|rewrite (G2 b eq_refl Z) in E; discriminate]. destruct (color_range st kind) as [clim|e] eqn:C; [|rewrite (G3 b z e eq_refl Z eq_refl) in E; discriminate].
    pose proof (glob_open exist st funs H es kind o show_plot f P b z clim S L Z C) as X. destruct (map_res _ funs) as [ls|e]; [|destruct X as (y & X); rewrite X in E; discriminate]. destruct X as (ps & FP & X). rewrite X in E. clear X. destruct (finish_cases exist show_plot false f (fresh_number (figs P)) (glob_pic es ps clim o (rc P)) (figs P) (rc P) (out P)) as [(W & evs & V & X)|(W & X)]; rewrite X in E; [|discriminate].
    pose proof (size_nonempty _ _ _ _ _ L Z) as Ne. pose proof (limits_drawable _ _ _ L) as F. split; [exact Ne|]. split; [exact F|]. split; [|split; [apply CR; eauto|split; [eauto|exact W]]]. destruct (size_cases es (1 / 10) Ne F) as (b' & L' & D). rewrite L in L'. apply Ok_inj in L'. subst b'. destruct (D 4) as [[T _]|[_ Y]]; [exact T|congruence].
  - intros (Ne & F & T & K & (ps & FP) & W). destruct (size_cases es (1 / 10) Ne F) as (b & L & D). destruct (D 4) as [[_ (z & Z)]|[X _]]; [|contradiction]. apply CR in K. destruct K as (clim & C). pose proof (glob_open exist st funs H es kind o show_plot f P b z clim S L Z C) as X.
    assert (M : exists ls, map_res (cell_art (g_interp o) kind H o clim (rc P)) funs = Ok ls) by (clear X; induction FP as [|[[u c] T'] p funs ps (arr & A & B) FP IH]; [eexists; reflexivity|]; cbn [map_res cell_art]; rewrite A; cbn [bind]; rewrite B; cbn [bind]; destruct (IH ltac:(apply (glob_shut exist st funs H es kind o show_plot f P S)) ltac:(apply (glob_shut exist st funs H es kind o show_plot f P S)) ltac:(apply (glob_shut exist st funs H es kind o show_plot f P S))) as (ls & ->); eexists; reflexivity).
    destruct M as (ls & M). rewrite M in X. destruct X as (ps' & _ & X). rewrite X. destruct (finish_cases exist show_plot false f (fresh_number (figs P)) (glob_pic es ps' clim o (rc P)) (figs P) (rc P) (out P)) as [(_ & evs & V & Y)|(Y & _)]; [|contradiction]. eexists. exact Y.
Qed.
Print Assumptions C74_glob_succeeds.
(** A plot that fails has done nothing, or it leaves a figure open and has shown and saved nothing. *)
Theorem C74_glob_fails exist st funs H es kind o show_plot f P P' t : glob_draw exist st funs H es kind o show_plot f P = (P', Fail t) ->
  (P' = P /\ (es = [] \/ ~ Forall drawable es \/ ~ tall es)) \/ exists n pic, ~ In n (map fst (figs P)) /\ P' = Plt ((n, pic) :: figs P) (rc P) (out P).
Proof.
  intros E. assert (S : show_plot = true \/ f <> []) by (destruct show_plot; [left; reflexivity|]; destruct f; [discriminate|right; discriminate]). destruct (glob_shut exist st funs H es kind o show_plot f P S) as (G1 & G2 & G3). pose proof (fresh_not_in (figs P)) as N.
  destruct (get_axis_limits es (1 / 10)) as [b|e] eqn:L.
  2:{ rewrite (G1 e eq_refl) in E. injection E as <- _. left. split; [reflexivity|]. right. left. intros F. destruct es as [|a es]; [rewrite limits_none in L; discriminate|]. destruct (size_cases (a :: es) (1 / 10) ltac:(discriminate) F) as (b & L' & _). congruence. }
  destruct (get_figure_size b 4) as [z|] eqn:Z.
  2:{ rewrite (G2 b eq_refl Z) in E. injection E as <- _. left. split; [reflexivity|]. destruct es as [|a es]; [left; reflexivity|]. right. right. intros T. destruct (size_cases (a :: es) (1 / 10) ltac:(discriminate) (limits_drawable _ _ _ L)) as (b' & L' & D). rewrite L in L'. apply Ok_inj in L'. subst b'. destruct (D 4) as [[_ (z & Y)]|[Y _]]; [congruence|contradiction]. }
  right. destruct (color_range st kind) as [clim|e] eqn:C; [|rewrite (G3 b z e eq_refl Z eq_refl) in E; injection E as <- _; eauto].
  pose proof (glob_open exist st funs H es kind o show_plot f P b z clim S L Z C) as X. destruct (map_res _ funs) as [ls|e]; [|destruct X as (y & X); rewrite X in E; injection E as <- _; eauto]. destruct X as (ps & FP & X). rewrite X in E. clear X. destruct (finish_cases exist show_plot false f (fresh_number (figs P)) (glob_pic es ps clim o (rc P)) (figs P) (rc P) (out P)) as [(W & evs & V & X)|(W & X)]; rewrite X in E; [discriminate|]. injection E as <- _. eauto.
Qed.
Print Assumptions C74_glob_fails.
(** An unknown kind of plot leaves an empty figure open. *)
Theorem C74_kind_refuted exist st funs H es kind o f P : es <> [] -> Forall drawable es -> tall es -> ~ In kind ["values"; "grad_x1"; "grad_x2"; "grad_norm"]%string ->
  exists n, ~ In n (map fst (figs P)) /\ glob_draw exist st funs H es kind o true f P = (Plt ((n, []) :: figs P) (rc P) (out P), Fail (Threw ValueError)).
Proof.
  intros Ne F T K. destruct (size_cases es (1 / 10) Ne F) as (b & L & D). destruct (D 4) as [[_ (z & Z)]|[X _]]; [|contradiction]. exists (fresh_number (figs P)). split; [apply fresh_not_in|]. apply (proj2 (proj2 (glob_shut exist st funs H es kind o true f P (or_introl eq_refl))) b z ValueError L Z). unfold color_range. rewrite !(proj2 (String.eqb_neq _ _)) by (intros ->; apply K; cbn; auto). reflexivity.
Qed.
Print Assumptions C74_kind_refuted.
(** With a colour map of its own the bar is not the legend of the contours. *)
Theorem C74_bar_refuted exist st funs H es kind o f P P' cm : g_fill o = true -> g_bar o = true -> g_cmap o = Some cm -> cm <> rc P -> glob_draw exist st funs H es kind o true f P = (P', Done tt) ->
  exists evs n pic fs clim, out P' = out P ++ evs ++ [Shown ((n, pic) :: fs)] /\ bars pic = [(clim, cm)] /\ List.length (contours pic) = List.length funs /\ forall b p q s, In (b, p, q, s) (contours pic) -> q = clim /\ s <> cm.
Proof.
  intros A B C D E. destruct (C74_glob exist st funs H es kind o true f P P' (or_introl eq_refl) E) as (n & pic & evs & ps & clim & _ & _ & FP & (S1 & _ & S3 & _) & _ & ->). rewrite A, B, C in S3. cbn [andb] in S3. exists evs, n, pic, (figs P), (Some clim). split; [reflexivity|]. split; [exact S3|]. rewrite S1. split; [rewrite map_length; symmetry; clear - FP; induction FP; cbn; congruence|]. intros b p q s I. apply in_map_iff in I. destruct I as (p' & I & _). injection I as _ _ <- <-. split; [reflexivity|]. intros X. apply D. symmetry. exact X.
Qed.
Print Assumptions C74_bar_refuted.
(** The axis is hidden although show_axis is set. *)
Theorem C74_axis_refuted exist st funs H es kind o f P P' : funs <> [] -> glob_draw exist st funs H es kind o true f P = (P', Done tt) ->
  exists evs n pic fs, out P' = out P ++ evs ++ [Shown ((n, pic) :: fs)] /\ ~ has_axis pic.
Proof.
  intros Nf E. destruct (C74_glob exist st funs H es kind o true f P P' (or_introl eq_refl) E) as (n & pic & evs & ps & clim & _ & _ & FP & (_ & _ & _ & _ & S5 & _) & _ & ->). exists evs, n, pic, (figs P). split; [reflexivity|]. intros X. apply S5 in X. destruct X as (_ & ->). inversion FP. congruence.
Qed.
Print Assumptions C74_axis_refuted.

(** ** Traces *)
(** A plot of traces opens a figure with the curves and ticks of C67, writes it, shows it and closes it; or fails and leaves it open. *)
Theorem C74_trace exist p title grid show_plot f P : tp_legend p <> LBad ->
  exists n, ~ In n (map fst (figs P)) /\
  match draw_traces p with
  | Ok (cs, ts) => exists pic, curves pic = map (fun c => (tp_log p, fst c, snd c)) cs /\ tick_marks pic = [ts] /\ titled title pic /\ In (Grid grid) pic /\ (forall l, In (Legend l) pic <-> l <> [] /\ tp_legend p = LTuple l) /\
      ((exists evs, written exist pic f evs /\ trace_draw exist p title grid show_plot f P = (Plt (figs P) (rc P) (out P ++ evs ++ if show_plot then [Shown ((n, pic) :: figs P)] else []), Done tt)) \/
       (~ writable f /\ trace_draw exist p title grid show_plot f P = (Plt ((n, pic) :: figs P) (rc P) (out P), Fail NoDirectory)))
  | Err e => exists pic, trace_draw exist p title grid show_plot f P = (Plt ((n, pic) :: figs P) (rc P) (out P), Fail (Threw e))
  end.
Proof.
  intros L. exists (fresh_number (figs P)). split; [apply fresh_not_in|]. destruct (draw_traces p) as [[cs ts]|e] eqn:D; [|apply trace_draw_bad; assumption]. exists (trace_pic p cs ts title grid). unfold trace_pic. split; [|split; [|split; [|split; [|split]]]].
  - see. rewrite flat_map_one with (h := fun c => (tp_log p, fst c, snd c)) by reflexivity. unfold legend_art, opt. destruct (tp_legend p) as [[|? ?]|], (is_title title); cbn; rewrite ?app_nil_r; reflexivity.
  - see. rewrite flat_map_skip by reflexivity. unfold legend_art, opt. destruct (tp_legend p) as [[|? ?]|], (is_title title); reflexivity.
  - see. rewrite flat_map_skip by reflexivity. rewrite is_title_spec. unfold legend_art, opt. destruct (tp_legend p) as [[|? ?]|], (String.eqb title ""); reflexivity.
  - rewrite !in_app_iff. do 4 right. left. reflexivity.
  - intros l. rewrite !in_app_iff. split.
    + intros [I|[I|[I|[I|I]]]].
      * apply in_map_iff in I. destruct I as (c & I & _). discriminate.
      * unfold legend_art in I. destruct (tp_legend p) as [[|x m]|]; [destruct I| |destruct I]. destruct I as [I|[]]. injection I as <-. split; [discriminate|reflexivity].
      * unfold opt in I. destruct (is_title title); [destruct I as [I|[]]; discriminate|destruct I].
      * destruct I as [I|[]]; discriminate.
      * destruct I as [I|[]]; discriminate.
    + intros (Nl & E). right. left. unfold legend_art. rewrite E. destruct l; [congruence|left; reflexivity].
  - rewrite (trace_draw_ok exist p title grid show_plot f P cs ts D L). fold (trace_pic p cs ts title grid). destruct (finish_cases exist show_plot false f (fresh_number (figs P)) (trace_pic p cs ts title grid) (figs P) (rc P) (out P)) as [(W & evs & V & X)|(W & X)]; [left; exists evs; split; [exact V|exact X]|right; split; [exact W|exact X]].
Qed.
Print Assumptions C74_trace.

(** ** Examples *)
(** One side of the triangle, saved and shown; and a file name without a directory *)
Lemma upright : exists e, parameterize dict4 (side (v0 0) (v2 1 2) (-1) 0 1) = Ok e /\ drawable e /\ tall [e].
Proof.
  destruct (side_param (v0 0) (v2 1 2) (-1) 0 1 (far02 1 0 2 ltac:(lra))) as (e & P & _ & _ & _ & _ & _ & Pe & _ & Sm). exists e. split; [exact P|]. split; [split; [exact Pe|rewrite Sm; discriminate]|].
  exists e, (seg (v0 0) (v2 1 2) 0), e, (seg (v0 0) (v2 1 2) 8). split; [left; reflexivity|]. split; [rewrite Sm; apply in_map, in_seq; lia|]. split; [left; reflexivity|]. split; [rewrite Sm; apply in_map, in_seq; lia|]. unfold seg. cbn [sx v0 v2 vx vy snd]. simpl (INR 8). simpl (INR 0). lra.
Qed.
Example C74_mesh_example : exists e pic n, let o := MOpts "side" false true true false (1 / 10) in let P := Plt [] "viridis" [] in
  depicts [e] o pic /\ List.length (polyline e) = 9%nat /\
  mesh_draw (fun _ => false) [e] o true (list_ascii_of_string "img/a.pdf") P = (Plt [] "viridis" [Made (list_ascii_of_string "img"); Saved (list_ascii_of_string "img/a.pdf") pic; Shown [(n, pic)]], Done tt) /\
  exists n' pic', mesh_draw (fun _ => false) [e] o true (list_ascii_of_string "a.pdf") P = (Plt [(n', pic')] "viridis" [], Fail NoDirectory).
Proof.
  destruct (side_param (v0 0) (v2 1 2) (-1) 0 1 (far02 1 0 2 ltac:(lra))) as (e & P & _ & _ & _ & _ & _ & Pe & _ & Sm). destruct upright as (e0 & E0 & D & T). rewrite P in E0. apply Ok_inj in E0. subst e0. exists e. set (o := MOpts "side" false true true false (1 / 10)). assert (F : Forall drawable [e]) by (constructor; [exact D|constructor]).
  assert (S : exists P', mesh_draw (fun _ => false) [e] o true (list_ascii_of_string "img/a.pdf") (Plt [] "viridis" []) = (P', Done tt)) by (apply C74_mesh_succeeds; repeat split; [discriminate|exact F|exact T|right; discriminate]). destruct S as (P' & S). destruct (C74_mesh _ _ _ _ _ _ _ S) as (n & pic & evs & _ & Dp & W & ->). exists pic, n. cbv zeta. split; [exact Dp|]. split; [unfold polyline; rewrite map_length, Sm; reflexivity|]. split.
  - rewrite S. inversion W as [|f Nf Df X|f Nf Df X]; subst; [discriminate|]. reflexivity.
  - destruct (C74_open_refuted (fun _ => false) [e] o true (list_ascii_of_string "a.pdf") (Plt [] "viridis" []) ltac:(discriminate) F T ltac:(discriminate)) as (n' & pic' & _ & _ & X); [cbn; intuition discriminate|]. exists n', pic'. exact X.
Qed.
(** Two cells of one triangle each, the bar in its own colours *)
Example C74_glob_example h p c1 c2 H : exists e pic n p1 p2, let u x := LPois h p (Some [x; 2; 3]) (Some [0; 1; 1]) (Some [1; 1; 0]) in let T := Tgl [(0, 1, 2)%nat] [false] [false] in
  let st := GPlot [u 0; u 1] (Some (0, 3)) (Some (0, 1)) (Some (0, 1)) (Some (1, 2)) in let o := GOpts true "" true true (Some "jet"%string) false in
  glob_draw (fun _ => true) st [(u 0, c1, T); (u 1, c2, T)] H [e] "values" o true [] (Plt [] "viridis" []) = (Plt [] "viridis" [Shown [(n, pic)]], Done tt) /\
  contours pic = [(true, p1, Some (Some (0, 3)), "viridis"%string); (true, p2, Some (Some (0, 3)), "viridis"%string)] /\ pic_vals p1 = [Some 0; Some 2; Some 3] /\ pic_vals p2 = [Some 1; Some 2; Some 3] /\ bars pic = [(Some (Some (0, 3)), "jet"%string)] /\ lines pic = [polyline e] /\ ~ has_axis pic.
Proof.
  destruct upright as (e & _ & D & T). assert (F : Forall drawable [e]) by (constructor; [exact D|constructor]). exists e.
  set (u := fun x => LPois h p (Some [x; 2; 3]) (Some [0; 1; 1]) (Some [1; 1; 0])). set (T0 := Tgl [(0, 1, 2)%nat] [false] [false]). set (st := GPlot [u 0; u 1] (Some (0, 3)) (Some (0, 1)) (Some (0, 1)) (Some (1, 2))). set (o := GOpts true "" true true (Some "jet"%string) false).
  assert (S : exists P', glob_draw (fun _ => true) st [(u 0, c1, T0); (u 1, c2, T0)] H [e] "values" o true [] (Plt [] "viridis" []) = (P', Done tt)).
  { apply C74_glob_succeeds; [left; reflexivity|]. split; [discriminate|]. split; [exact F|]. split; [exact T|]. split; [left; reflexivity|]. split; [|left; reflexivity]. eexists. constructor; [eexists; split; reflexivity|]. constructor; [eexists; split; reflexivity|constructor]. }
  destruct S as (P' & S). pose proof (C74_glob _ _ _ _ _ _ _ _ _ _ _ (or_introl eq_refl) S) as (n & pic & evs & ps & clim & _ & C & FP & Sh & W & ->). inversion W; subst; [|congruence..]. injection C as <-. inversion FP as [|? p1 ? ps1 X1 FP1]; subst. inversion FP1 as [|? p2 ? ps2 X2 FP2]; subst. cbv beta iota delta [cell_picture] in X1, X2. destruct X1 as (a1 & A1 & B1). destruct X2 as (a2 & A2 & B2). inversion FP2; subst. apply Ok_inj in A1, A2. subst a1 a2. apply Ok_inj in B1, B2. subst p1 p2. destruct Sh as (S1 & S2 & S3 & _ & S5 & _).
  exists pic, n. do 2 eexists. cbv zeta. split; [exact S|]. split; [exact S1|]. split; [reflexivity|]. split; [reflexivity|]. split; [exact S3|]. split; [exact S2|]. intros X. apply S5 in X. destruct X as (_ & X). discriminate.
Qed.
