(** Lemmas about the drawing commands. *)
From Coq Require Import List ZArith Reals Lia Lra Bool String Ascii.
From Verif Require Import PyBase PolyModel BaryModel QuadModel EdgeModel ContourModel CellModel TraceModel LocalModel PlotModel PlotSpec PlotProps LocPlotModel TracePlotModel DrawModel DrawSpec.
Import List ListNotations.
Open Scope R_scope.

(** On the figure [n] with the default colours [r], the action draws [l], or fails with [e] and leaves the figure open. *)
Definition draws (n : nat) (r : string) (a : act unit) (l : list art) : Prop :=
  forall x fs o, ~ In n (map fst fs) -> a (Plt ((n, x) :: fs) r o) = (Plt ((n, x ++ l) :: fs) r o, Done tt).
Definition fails {A} (n : nat) (r : string) (a : act A) (e : exc) : Prop :=
  forall x fs o, ~ In n (map fst fs) -> exists y, a (Plt ((n, x) :: fs) r o) = (Plt ((n, y) :: fs) r o, Fail (Threw e)).
Definition verdict (n : nat) (r : string) (a : act unit) (v : res (list art)) : Prop := match v with Ok l => draws n r a l | Err e => fails n r a e end.

Section Verdict.
Variables (n : nat) (r : string).
Lemma v_ret : verdict n r (ret tt) (Ok []).
Proof. intros x fs o _. rewrite app_nil_r. reflexivity. Qed.
Lemma v_put a : verdict n r (put a) (Ok [a]).
Proof. intros x fs o _. reflexivity. Qed.
Lemma v_contour fill p clim : verdict n r (put_contour fill p clim) (Ok [Contour fill p clim r]).
Proof. intros x fs o _. reflexivity. Qed.
Lemma v_when b a v : verdict n r a v -> verdict n r (when b a) (if b then v else Ok []).
Proof. destruct b; [exact (fun X => X)|]. intros _. apply v_ret. Qed.
Lemma v_seq a v b w : verdict n r a v -> verdict n r b w -> verdict n r (follow a (fun _ => b)) (do l <- v; do m <- w; Ok (l ++ m)).
Proof.
  intros A B. destruct v as [l|e]; cbn [bind verdict].
  - destruct w as [m|e]; cbn [bind verdict] in *; intros x fs o F; unfold follow; rewrite (A x fs o F).
    + rewrite (B _ fs o F), app_assoc. reflexivity.
    + exact (B _ fs o F).
  - intros x fs o F. destruct (A x fs o F) as (y & E). exists y. unfold follow. rewrite E. reflexivity.
Qed.
Lemma v_lift {A} (g : res A) k (v : A -> res (list art)) : (forall x, g = Ok x -> verdict n r (k x) (v x)) -> verdict n r (follow (lift g) k) (do x <- g; v x).
Proof.
  intros K. destruct g as [x|e]; cbn [bind].
  - specialize (K x eq_refl). destruct (v x); exact K.
  - intros x fs o F. exists x. reflexivity.
Qed.
Lemma v_each {A} (f : A -> act unit) (v : A -> res (list art)) l : (forall x, In x l -> verdict n r (f x) (v x)) -> verdict n r (each f l) (do ls <- map_res v l; Ok (concat ls)).
Proof.
  induction l as [|x l IH]; intros K; cbn [each map_res]; [apply v_ret|].
  pose proof (v_seq _ _ _ _ (K x (or_introl eq_refl)) (IH (fun y I => K y (or_intror I)))) as X. destruct (v x) as [a|e]; cbn [bind] in *; [|exact X]. destruct (map_res v l) as [ls|e]; cbn [bind] in *; exact X.
Qed.
End Verdict.

(** ** Saving, showing *)
Lemma save_fails exist f P : ~ writable f -> save exist f P = (P, Fail NoDirectory).
Proof. intros N. unfold save, save_figure. destruct (dirname f) eqn:D; [reflexivity|]. destruct N. right. rewrite D. discriminate. Qed.
Lemma save_ok exist f n x fs r o : f <> [] -> writable f -> exists evs, written exist x f evs /\ save exist f (Plt ((n, x) :: fs) r o) = (Plt ((n, x) :: fs) r (o ++ evs), Done tt).
Proof.
  intros N [->|W]; [congruence|]. unfold save, save_figure. destruct (dirname f) eqn:D; [congruence|]. rewrite <- D. destruct (exist (dirname f)) eqn:X; cbn -[dirname].
  - eexists. split; [apply wr_old; congruence|]. reflexivity.
  - eexists. split; [apply wr_new; congruence|]. unfold follow, emit, ret. cbn. rewrite <- app_assoc. reflexivity.
Qed.
Lemma when_save exist f n x fs r o : (writable f /\ exists evs, written exist x f evs /\ when (negb (is_empty f)) (save exist f) (Plt ((n, x) :: fs) r o) = (Plt ((n, x) :: fs) r (o ++ evs), Done tt)) \/
  (~ writable f /\ when (negb (is_empty f)) (save exist f) (Plt ((n, x) :: fs) r o) = (Plt ((n, x) :: fs) r o, Fail NoDirectory)).
Proof.
  destruct f as [|c f]; cbn [is_empty negb when].
  - left. split; [left; reflexivity|]. exists []. split; [constructor|]. rewrite app_nil_r. reflexivity.
  - destruct (list_eq_dec ascii_dec (dirname (c :: f)) []) as [E|E].
    + right. assert (N : ~ writable (c :: f)) by (intros [X|X]; [discriminate|congruence]). split; [exact N|]. apply save_fails, N.
    + left. split; [right; exact E|]. apply save_ok; [discriminate|right; exact E].
Qed.
Lemma written_writable exist x f evs : written exist x f evs -> writable f.
Proof. intros W. destruct W; [left; reflexivity|right; assumption|right; assumption]. Qed.
Definition finish (exist : list ascii -> bool) (show_plot keep : bool) (f : list ascii) : act unit :=
  follow (when (negb (is_empty f)) (save exist f)) (fun _ => follow (when show_plot show) (fun _ => when (negb keep) close)).
Definition shows (show_plot : bool) (fs : list figure) : list event := if show_plot then [Shown fs] else [].
Lemma finish_cases exist show_plot keep f n x fs r o :
  (writable f /\ exists evs, written exist x f evs /\ finish exist show_plot keep f (Plt ((n, x) :: fs) r o) = (Plt (if keep then (n, x) :: fs else fs) r (o ++ evs ++ shows show_plot ((n, x) :: fs)), Done tt)) \/
  (~ writable f /\ finish exist show_plot keep f (Plt ((n, x) :: fs) r o) = (Plt ((n, x) :: fs) r o, Fail NoDirectory)).
Proof.
  unfold finish, follow at 1 3. destruct (when_save exist f n x fs r o) as [(W & evs & V & E)|(W & E)]; rewrite E; [left|right; auto]. split; [exact W|]. exists evs. split; [exact V|].
  unfold follow, shows. destruct show_plot; destruct keep; cbn; rewrite <- ?app_assoc, ?app_nil_r; reflexivity.
Qed.

(** ** Windows *)
Lemma fresh_not_in fs : ~ In (fresh_number fs) (map fst fs).
Proof.
  intros I. assert (X : forall k, In k (map fst fs) -> (k < fresh_number fs)%nat).
  { clear I. unfold fresh_number. induction fs as [|[m l] fs IH]; intros k; [intros []|]. cbn [map fold_right fst]. intros [->|J]; [lia|]. specialize (IH k J). lia. }
  specialize (X _ I). lia.
Qed.
Lemma grow_drawable es : forall b b', fold_res grow es b = Ok b' -> Forall drawable es.
Proof.
  induction es as [|e es IH]; intros b b' E; [constructor|]. cbn [fold_res] in E. destruct (grow b e) as [b1|] eqn:G; [|discriminate]. constructor; [|exact (IH _ _ E)].
  unfold grow, edge_coord in G. split; [destruct (e_param e); [reflexivity|discriminate]|]. destruct (e_param e); [|discriminate]. intros N. rewrite N in G. discriminate.
Qed.
Lemma limits_drawable es pad b : get_axis_limits es pad = Ok b -> Forall drawable es.
Proof. unfold get_axis_limits. intros E. destruct (fold_res grow es _) as [b0|] eqn:G; [|discriminate]. exact (grow_drawable _ _ _ G). Qed.
Lemma limits_none pad : get_axis_limits [] pad = Ok (Lims None None None None).
Proof. unfold get_axis_limits. cbn. destruct (Rlt_dec 0 pad); reflexivity. Qed.
Lemma size_nonempty es pad b h z : get_axis_limits es pad = Ok b -> get_figure_size b h = Some z -> es <> [].
Proof. intros E Z ->. rewrite limits_none in E. apply Ok_inj in E. subst b. discriminate. Qed.
(** A figure is opened for edges that are all sampled and not all on one horizontal line. *)
Lemma size_cases es pad : es <> [] -> Forall drawable es -> exists b, get_axis_limits es pad = Ok b /\ forall h, (tall es /\ exists z, get_figure_size b h = Some z) \/ (~ tall es /\ get_figure_size b h = None).
Proof.
  intros Ne F. destruct (C65_limits es pad Ne F) as (x0 & x1 & y0 & y1 & T1 & T2 & E). cbv zeta in E. eexists. split; [exact E|]. intros h. rewrite (C65_figure es pad h x0 x1 y0 y1 _ Ne F T1 T2 E). destruct T2 as (B & (z & (e & s & I & J & ->) & Ez) & (w & (e' & s' & I' & J' & ->) & Ew)). destruct (Req_EM_T y0 y1) as [D|D].
  - right. split; [|reflexivity]. intros (a & t & a' & t' & X1 & X2 & X3 & X4 & D'). apply D'. pose proof (B (sx t) ltac:(exists a, t; auto)). pose proof (B (sx t') ltac:(exists a', t'; auto)). lra.
  - left. split; [exists e, s, e', s'; repeat split; auto; lra|eauto].
Qed.

(** ** Edges *)
Lemma v_edge n r orient e : verdict n r (draw_edge orient e) (do l <- get_sampled_points false e; Ok [if orient then Quiver (arrows l) else Line l]).
Proof. apply v_lift. intros l _. apply v_put. Qed.
Lemma sampled_drawable es : Forall drawable es -> forall orient : bool, map_res (fun e => do l <- get_sampled_points false e; Ok [if orient then Quiver (arrows l) else Line l]) es = Ok (map (fun e => [if orient then Quiver (arrows (polyline e)) else Line (polyline e)]) es).
Proof.
  intros F orient. induction F as [|e es [P _] F IH]; [reflexivity|]. cbn [map_res map]. unfold get_sampled_points at 1. rewrite P. cbn [bind]. rewrite IH. reflexivity.
Qed.
Lemma concat_single {A B} (f : A -> B) l : concat (map (fun x => [f x]) l) = map f l.
Proof. induction l as [|x l IH]; [reflexivity|]. cbn. rewrite IH. reflexivity. Qed.
Lemma draw_step {A} n r a l (k : act A) x fs o : draws n r a l -> ~ In n (map fst fs) -> follow a (fun _ => k) (Plt ((n, x) :: fs) r o) = k (Plt ((n, x ++ l) :: fs) r o).
Proof. intros D F. unfold follow. rewrite (D x fs o F). reflexivity. Qed.
Lemma fail_step {A} n r a e (k : act A) x fs o : @fails unit n r a e -> ~ In n (map fst fs) -> exists y, follow a (fun _ => k) (Plt ((n, x) :: fs) r o) = (Plt ((n, y) :: fs) r o, Fail (Threw e)).
Proof. intros D F. destruct (D x fs o F) as (y & E). exists y. unfold follow. rewrite E. reflexivity. Qed.
Definition opt (b : bool) (a : art) : list art := if b then [a] else [].
Lemma d_when n r (b : bool) a : draws n r (when b (put a)) (opt b a).
Proof. pose proof (v_when n r b (put a) _ (v_put n r a)) as X. destruct b; exact X. Qed.
Lemma d_put n r a : draws n r (put a) [a].
Proof. exact (v_put n r a). Qed.

(** ** Meshes *)
Definition mesh_pic (es : list edge) (o : mesh_opts) (b : limits) : list art :=
  map (fun e => if m_orient o then Quiver (arrows (polyline e)) else Line (polyline e)) es ++ [Window b] ++ [Grid (m_grid o)] ++ opt (is_title (m_title o)) (Title (m_title o)) ++ opt (negb (m_axis o)) AxisOff.
Lemma mesh_draw_open exist es o show_plot f P b z : get_axis_limits es (m_pad o) = Ok b -> get_figure_size b 4 = Some z ->
  mesh_draw exist es o show_plot f P = finish exist show_plot (m_keep o) f (Plt ((fresh_number (figs P), mesh_pic es o b) :: figs P) (rc P) (out P)).
Proof.
  intros E Z. pose proof (limits_drawable _ _ _ E) as F. pose proof (fresh_not_in (figs P)) as N. set (n := fresh_number (figs P)) in *. unfold mesh_draw, follow at 1, lift at 1. rewrite E. unfold follow at 1, open_figure. rewrite Z. fold n.
  assert (De : draws n (rc P) (each (draw_edge (m_orient o)) es) (map (fun e => if m_orient o then Quiver (arrows (polyline e)) else Line (polyline e)) es)).
  { pose proof (v_each n (rc P) (draw_edge (m_orient o)) _ es (fun e _ => v_edge n (rc P) (m_orient o) e)) as X. rewrite (sampled_drawable es F (m_orient o)) in X. cbn [bind verdict] in X. rewrite concat_single in X. exact X. }
  rewrite (draw_step _ _ _ _ _ _ _ _ De N), (draw_step _ _ _ _ _ _ _ _ (d_put _ _ _) N), (draw_step _ _ _ _ _ _ _ _ (d_put _ _ _) N), (draw_step _ _ _ _ _ _ _ _ (d_when _ _ _ _) N), (draw_step _ _ _ _ _ _ _ _ (d_when _ _ _ _) N).
  cbn [app]. rewrite <- !app_assoc. reflexivity.
Qed.
Lemma mesh_draw_closed exist es o show_plot f P : (forall e, get_axis_limits es (m_pad o) = Err e -> mesh_draw exist es o show_plot f P = (P, Fail (Threw e))) /\
  (forall b, get_axis_limits es (m_pad o) = Ok b -> get_figure_size b 4 = None -> mesh_draw exist es o show_plot f P = (P, Fail (Threw ValueError))).
Proof.
  unfold mesh_draw, follow at 1 3, lift. split; [intros e ->; reflexivity|]. intros b -> Z. unfold follow at 1, open_figure. rewrite Z. reflexivity.
Qed.

(** ** Local functions *)
Lemma use_head n x fs r o : ~ In n (map fst fs) -> use_figure n (Plt ((n, x) :: fs) r o) = (Plt ((n, x) :: fs) r o, Done tt).
Proof.
  intros N. unfold use_figure. cbn [figs filter fst]. rewrite Nat.eqb_refl. cbn [negb]. assert (X : filter (fun f : figure => Nat.eqb (fst f) n) fs = [] /\ filter (fun f : figure => negb (Nat.eqb (fst f) n)) fs = fs).
  { induction fs as [|[m l] fs IH]; [split; reflexivity|]. cbn [map fst In] in N. destruct IH as [A B]; [tauto|]. cbn [filter fst]. destruct (Nat.eqb_spec m n); [subst; tauto|]. cbn [negb]. rewrite A, B. split; reflexivity. }
  destruct X as [X1 X2]. cbv zeta. unfold figure in *. rewrite X1, X2. reflexivity.
Qed.
Definition plain (a : art) : Prop := match a with Contour _ _ _ _ => False | _ => True end.
Lemma recolor_app cm fill p clim cm0 l m : Forall plain l -> recolor_first cm (l ++ Contour fill p clim cm0 :: m) = l ++ Contour fill p clim cm :: m.
Proof. induction 1 as [|a l A F IH]; [reflexivity|]. cbn [app]. destruct a; cbn [recolor_first]; try (rewrite IH; reflexivity). destruct A. Qed.
Lemma set_cmap_ok cm n x fill p clim cm0 l fs r o : Forall plain l -> set_cmap cm (Plt ((n, x ++ Contour fill p clim cm0 :: l) :: fs) r o) = (Plt ((n, x ++ Contour fill p clim cm :: l) :: fs) cm o, Done tt).
Proof.
  intros F. unfold set_cmap, edit, current. cbn [figs rc out]. repeat f_equal. rewrite rev_app_distr. cbn [rev]. rewrite <- app_assoc. cbn [app]. rewrite recolor_app by (apply Forall_rev, F). rewrite rev_app_distr. cbn [rev]. rewrite !rev_involutive. rewrite <- app_assoc. reflexivity.
Qed.
Lemma last_contour_app x fill p clim cm l : Forall plain l -> last_contour (x ++ Contour fill p clim cm :: l) = Some (clim, cm).
Proof.
  intros F. unfold last_contour. rewrite fold_left_app. cbn [fold_left]. generalize (Some (clim, cm)). induction F as [|a l A F IH]; intros q; [reflexivity|]. cbn [fold_left]. destruct a; try apply IH. destruct A.
Qed.
Definition colors (r : string) (o : local_opts) : string := match l_cmap o with Some cm => cm | None => r end.
Definition trim (T : tgl) (o : local_opts) (es : list edge) : list art :=
  opt (l_tris o) (Triangles (tg_tris T)) ++ [Equal] ++ opt (negb (l_axis o)) AxisOff ++ (if l_boundary o then map (fun e => Line (polyline e)) es else []) ++ opt (is_title (l_title o)) (Title (l_title o)).
Definition local_pic (p : picture) (r : string) (T : tgl) (o : local_opts) (es : list edge) : list art :=
  Contour (l_fill o) p (l_clim o) (colors r o) :: trim T o es ++ opt (l_bar o) (Bar (l_clim o) (colors r o)).
Lemma plain_opt (b : bool) a : plain a -> Forall plain (opt b a).
Proof. intros P. destruct b; [constructor; [exact P|constructor]|constructor]. Qed.
Lemma plain_trim T o es : Forall plain (trim T o es).
Proof.
  unfold trim. repeat (apply Forall_app; split); try (apply plain_opt; exact I); [constructor; [exact I|constructor]|]. destruct (l_boundary o); [|constructor]. induction es; constructor; [exact I|assumption].
Qed.
(** locfun_plot.py:238-285 *)
Definition local_body (exist : list ascii -> bool) (use_interp : bool) (arr : option (list R) * option farr) (H : heap) (c : cell) (T : tgl) (o : local_opts) (show_plot : bool) (f : list ascii) : act unit :=
  run p <- lift (snd (draw_generic use_interp (l_log10 o) (fst arr) (snd arr) T));
  run _ <- put_contour (l_fill o) p (l_clim o);
  run _ <- when (l_tris o) (put (Triangles (tg_tris T)));
  run _ <- put Equal;
  run _ <- when (negb (l_axis o)) (put AxisOff);
  run _ <- when (l_boundary o) (run es <- lift (kedges H c); each (draw_edge false) es);
  run _ <- when (is_title (l_title o)) (put (Title (l_title o)));
  run _ <- (match l_cmap o with Some cm => set_cmap cm | None => ret tt end);
  run _ <- when (l_bar o) put_bar;
  finish exist show_plot (negb (l_close o)) f.
Lemma local_draw_split exist use_interp kind u H c T o show_plot f P : local_draw exist use_interp kind u H c T o show_plot f P = (run arr <- lift (arrays use_interp kind u H c); run _ <- local_figure H c o; local_body exist use_interp arr H c T o show_plot f) P.
Proof.
  unfold local_draw, follow at 1 15, lift at 1 3. destruct (arrays use_interp kind u H c) as [[i b]|e]; [|reflexivity]. unfold local_body, finish. cbn [fst snd]. rewrite negb_involutive. reflexivity.
Qed.
Lemma local_body_ok exist use_interp arr H c T o show_plot f p es n x fs r ot : snd (draw_generic use_interp (l_log10 o) (fst arr) (snd arr) T) = Ok p -> (l_boundary o = true -> kedges H c = Ok es /\ Forall drawable es) -> ~ In n (map fst fs) ->
  local_body exist use_interp arr H c T o show_plot f (Plt ((n, x) :: fs) r ot) = finish exist show_plot (negb (l_close o)) f (Plt ((n, x ++ local_pic p r T o es) :: fs) (colors r o) ot).
Proof.
  intros E B N. unfold local_body. unfold follow at 1, lift at 1. rewrite E.
  assert (De : draws n r (when (l_boundary o) (run es <- lift (kedges H c); each (draw_edge false) es)) (if l_boundary o then map (fun e => Line (polyline e)) es else [])).
  { destruct (l_boundary o); cbn [when]; [|exact (v_ret n r)]. destruct (B eq_refl) as (K & F). pose proof (v_each n r (draw_edge false) _ es (fun e _ => v_edge n r false e)) as X. pose proof (sampled_drawable es F false) as SD. cbv iota in SD. cbv iota in X. rewrite SD in X. cbn [bind verdict] in X. rewrite concat_single in X. intros y gs oo G. unfold follow, lift. rewrite K. exact (X y gs oo G). }
  rewrite (draw_step _ _ _ _ _ _ _ _ (v_contour _ _ _ _ _) N), (draw_step _ _ _ _ _ _ _ _ (d_when _ _ _ _) N), (draw_step _ _ _ _ _ _ _ _ (d_put _ _ _) N), (draw_step _ _ _ _ _ _ _ _ (d_when _ _ _ _) N), (draw_step _ _ _ _ _ _ _ _ De N), (draw_step _ _ _ _ _ _ _ _ (d_when _ _ _ _) N).
  set (l := ((((((x ++ _) ++ _) ++ _) ++ _) ++ _) ++ _)). replace l with (x ++ Contour (l_fill o) p (l_clim o) r :: trim T o es) by (unfold l, trim; rewrite <- !app_assoc; reflexivity). clear l.
  pose proof (plain_trim T o es) as PT. set (tr := trim T o es) in *. unfold follow at 1. replace ((match l_cmap o with Some cm => set_cmap cm | None => ret tt end) (Plt ((n, x ++ Contour (l_fill o) p (l_clim o) r :: tr) :: fs) r ot)) with (Plt ((n, x ++ Contour (l_fill o) p (l_clim o) (colors r o) :: tr) :: fs) (colors r o) ot, Done tt) by (unfold colors; destruct (l_cmap o); [rewrite set_cmap_ok by exact PT|]; reflexivity).
  unfold follow at 1. replace (when (l_bar o) put_bar (Plt ((n, x ++ Contour (l_fill o) p (l_clim o) (colors r o) :: tr) :: fs) (colors r o) ot)) with (Plt ((n, x ++ local_pic p r T o es) :: fs) (colors r o) ot, @Done unit tt); [reflexivity|].
  unfold local_pic. fold tr. destruct (l_bar o); cbn [when opt]; unfold ret.
  - unfold put_bar, edit, current. cbn [figs rc out]. rewrite last_contour_app by exact PT. rewrite <- app_assoc. reflexivity.
  - rewrite app_nil_r. reflexivity.
Qed.
(** A cell of a global function *)
Definition cell_art (ui : bool) (kind : string) (H : heap) (o : glob_opts) (clim : range) (r : string) (f : lpois * cell * tgl) : res (list art) :=
  let '(u, c, T) := f in do arr <- arrays ui kind u H c; do p <- snd (draw_generic ui false (fst arr) (snd arr) T); Ok [Contour (g_fill o) p (Some clim) r; Equal; AxisOff].
Lemma v_cell exist kind H o clim n r f : verdict n r (let '(u, c, T) := f in local_draw exist (g_interp o) kind u H c T (cell_opts o n clim) false []) (cell_art (g_interp o) kind H o clim r f).
Proof.
  destruct f as [[u c] T]. unfold cell_art. destruct (arrays (g_interp o) kind u H c) as [arr|e] eqn:A; cbn [bind verdict].
  - assert (X : forall x fs ot, ~ In n (map fst fs) -> local_draw exist (g_interp o) kind u H c T (cell_opts o n clim) false [] (Plt ((n, x) :: fs) r ot) = local_body exist (g_interp o) arr H c T (cell_opts o n clim) false [] (Plt ((n, x) :: fs) r ot)).
    { intros x fs ot N. rewrite local_draw_split, A. unfold follow at 1, lift. unfold follow at 1, local_figure. cbn [cell_opts l_fig]. unfold follow at 1, ret. rewrite use_head by exact N. reflexivity. }
    destruct (snd (draw_generic (g_interp o) false (fst arr) (snd arr) T)) as [p|e] eqn:E; cbn [bind verdict].
    + intros x fs ot N. rewrite (X _ _ _ N). rewrite (local_body_ok exist (g_interp o) arr H c T (cell_opts o n clim) false [] p [] n x fs r ot E ltac:(discriminate) N). unfold finish, follow, ret. reflexivity.
    + intros x fs ot N. exists x. rewrite (X _ _ _ N). unfold local_body, follow, lift. cbn [cell_opts l_log10]. rewrite E. reflexivity.
  - intros x fs ot N. exists x. rewrite local_draw_split, A. reflexivity.
Qed.
(** The arrays and the picture are those of [LocPlotModel.draw]. *)
Lemma arrays_draw ui log kind u H c T es w : kedges H c = Ok es -> get_axis_limits es (1 / 10) = Ok w ->
  snd (draw ui log kind u H c T) = do arr <- arrays ui kind u H c; snd (draw_generic ui log (fst arr) (snd arr) T).
Proof.
  intros K W. unfold draw, arrays. rewrite K. cbn [bind]. rewrite W. cbn [bind]. cbv zeta.
  destruct (String.eqb kind "values"); [destruct (boundary_array ui (trace_array u)) as [b|e]; cbn [bind fst snd]; [destruct (draw_generic ui log (u_vals u) b T); reflexivity|reflexivity]|].
  destruct (String.eqb kind "grad_x1"); [destruct (boundary_array ui (grad_component u H c 1)) as [b|e]; cbn [bind fst snd]; [destruct (draw_generic ui log (u_g1 u) b T); reflexivity|reflexivity]|].
  destruct (String.eqb kind "grad_x2"); [destruct (boundary_array ui (grad_component u H c 2)) as [b|e]; cbn [bind fst snd]; [destruct (draw_generic ui log (u_g2 u) b T); reflexivity|reflexivity]|].
  destruct (String.eqb kind "grad_norm"); [|reflexivity]. destruct (u_g1 u) as [a|]; [|reflexivity]. destruct (u_g2 u) as [b|]; [|reflexivity]. destruct (boundary_array ui _) as [d|e]; [|reflexivity]. cbn [bind]. destruct (Nat.eqb _ _); reflexivity.
Qed.

(** ** Traces *)
Definition trace_jobs (p : tplot) : list (list R * string) := match tp_fmt p with FStr s => map (fun v => (v, s)) (tp_traces p) | FList l => combine (tp_traces p) l | FBad => [] end.
Definition legend_art (p : tplot) : list art := match tp_legend p with LTuple (x :: l) => [Legend (x :: l)] | _ => [] end.
Definition trace_pic (p : tplot) (cs : list (list (R * R) * string)) (ts : list (R * Z)) (title : string) (grid : bool) : list art :=
  map (fun c => Curve (tp_log p) (fst c) (snd c)) cs ++ legend_art p ++ opt (is_title title) (Title title) ++ [Ticks ts] ++ [Grid grid].
Lemma v_jobs n r p : verdict n r (each (fun x => run c <- lift (draw_trace (tp_t p) (fst x) (snd x)); put (Curve (tp_log p) (fst c) (snd c))) (trace_jobs p))
  (do cs <- map_res (fun x => draw_trace (tp_t p) (fst x) (snd x)) (trace_jobs p); Ok (map (fun c => Curve (tp_log p) (fst c) (snd c)) cs)).
Proof.
  pose proof (v_each n r (fun x => run c <- lift (draw_trace (tp_t p) (fst x) (snd x)); put (Curve (tp_log p) (fst c) (snd c))) (fun x => do c <- draw_trace (tp_t p) (fst x) (snd x); Ok [Curve (tp_log p) (fst c) (snd c)]) (trace_jobs p) (fun x _ => v_lift n r _ _ (fun c => Ok [Curve (tp_log p) (fst c) (snd c)]) (fun c _ => v_put n r _))) as X.
  assert (Y : forall l, (do ls <- map_res (fun x : list R * string => do c <- draw_trace (tp_t p) (fst x) (snd x); Ok [Curve (tp_log p) (fst c) (snd c)]) l; Ok (concat ls)) = do cs <- map_res (fun x => draw_trace (tp_t p) (fst x) (snd x)) l; Ok (map (fun c => Curve (tp_log p) (fst c) (snd c)) cs)).
  { clear. induction l as [|x l IH]; [reflexivity|]. cbn [map_res]. destruct (draw_trace (tp_t p) (fst x) (snd x)) as [c|e]; [|reflexivity]. cbn [bind]. destruct (map_res _ l) as [ls|e] eqn:A; destruct (map_res (fun x => draw_trace _ _ _) l) as [cs|e'] eqn:B; cbn [bind] in *; try discriminate; [apply Ok_inj in IH|congruence]. cbn [concat map]. cbn [app]. rewrite <- IH. reflexivity. }
  rewrite Y in X. exact X.
Qed.
Lemma trace_draw_ok exist p title grid show_plot f P cs ts : draw_traces p = Ok (cs, ts) -> tp_legend p <> LBad ->
  trace_draw exist p title grid show_plot f P = finish exist show_plot false f (Plt ((fresh_number (figs P), trace_pic p cs ts title grid) :: figs P) (rc P) (out P)).
Proof.
  intros E L. unfold draw_traces in E. fold (trace_jobs p) in E. pose proof (fresh_not_in (figs P)) as N. set (n := fresh_number (figs P)) in *. pose proof (v_jobs n (rc P) p) as V. destruct (map_res _ (trace_jobs p)) as [cs'|] eqn:M; [|discriminate]. cbn [bind] in E. destruct (Nat.eqb _ _) eqn:Q; [|discriminate]. apply Ok_inj in E. injection E as -> ->. cbn [bind verdict] in V.
  unfold trace_draw, follow at 1, open_figure. fold n. fold (trace_jobs p). rewrite (draw_step _ _ _ _ _ _ _ _ V N). assert (Dl : draws n (rc P) (draw_legend (tp_legend p)) (legend_art p)).
  { unfold legend_art. destruct (tp_legend p) as [[|x l]|]; [exact (v_ret _ _)|exact (v_put _ _ _)|congruence]. }
  rewrite (draw_step _ _ _ _ _ _ _ _ Dl N), (draw_step _ _ _ _ _ _ _ _ (d_when _ _ _ _) N). rewrite Q. rewrite (draw_step _ _ _ _ _ _ _ _ (d_put _ _ _) N), (draw_step _ _ _ _ _ _ _ _ (d_put _ _ _) N). cbn [app]. rewrite <- !app_assoc. reflexivity.
Qed.
Lemma trace_draw_bad exist p title grid show_plot f P e : draw_traces p = Err e -> tp_legend p <> LBad ->
  exists y, trace_draw exist p title grid show_plot f P = (Plt ((fresh_number (figs P), y) :: figs P) (rc P) (out P), Fail (Threw e)).
Proof.
  intros E L. unfold draw_traces in E. fold (trace_jobs p) in E. pose proof (fresh_not_in (figs P)) as N. set (n := fresh_number (figs P)) in *. pose proof (v_jobs n (rc P) p) as V.
  unfold trace_draw, follow at 1, open_figure. fold n. fold (trace_jobs p). destruct (map_res _ (trace_jobs p)) as [cs'|e'] eqn:M.
  - cbn [bind verdict] in *. destruct (Nat.eqb _ _) eqn:Q; [discriminate|]. injection E as <-. rewrite (draw_step _ _ _ _ _ _ _ _ V N). assert (Dl : draws n (rc P) (draw_legend (tp_legend p)) (legend_art p)).
    { unfold legend_art. destruct (tp_legend p) as [[|x l]|]; [exact (v_ret _ _)|exact (v_put _ _ _)|congruence]. }
    rewrite (draw_step _ _ _ _ _ _ _ _ Dl N), (draw_step _ _ _ _ _ _ _ _ (d_when _ _ _ _) N). eexists. reflexivity.
  - cbn [bind verdict] in *. injection E as ->. apply fail_step; assumption.
Qed.
