(** More refusals: keys for cells that a space does not have (C47), functions that are no polynomials (C51), missing
    normal derivatives (C53), empty arrays (C65, C66), entries that are no traces (C67) and drawing without a figure (C74) *)
From Coq Require Import List ZArith Reals Lia Lra Bool String Ascii.
From Verif Require Import PyBase PolyModel BaryModel QuadModel VertModel CurveModel EdgeModel CellModel ContourModel TraceModel LocalModel MeshModel GlobModel PlotModel TracePlotModel DrawModel.
From Verif Require Import PlotSpec PlotProps PlotProps2 TracePlotSpec TracePlotProps2 LocPlotModel DrawSpec DrawProofs DrawProps.
From Verif Require GlobSpec GlobProofs MeshProps TriCell.
Import List ListNotations.
Open Scope R_scope.

(** Keys that can be numbered are still refused for a cell that the space does not have, unless there are none. *)
Theorem C47_no_such_cell H p c keys ks : (List.length (p_dofs p) <= c)%nat -> map_res (number_key H p (Z.of_nat c)) keys = Ok ks ->
  register H p c keys = match keys with [] => Ok (p, []) | _ => Err IndexError end.
Proof. intros L M. unfold register. rewrite M. cbn [bind]. rewrite (proj2 (nth_error_None _ _) L). destruct keys; [|reflexivity]. injection M as <-. reflexivity. Qed.
Print Assumptions C47_no_such_cell.

(** Functions that are no polynomials are refused, alone and in a list with others. *)
Theorem C51_not_polys t f : (forall p, f <> FPoly p) -> set_funcs_from_polys t (FOne f) = Err ValueError /\ forall l, In f l -> set_funcs_from_polys t (FMany l) = Err ValueError.
Proof.
  intros D. assert (B : (match f with FPoly _ => true | _ => false end) = false) by (destruct f; try reflexivity; exfalso; eapply D; reflexivity). split.
  - cbn [set_funcs_from_polys]. destruct f; try reflexivity. exfalso; eapply D; reflexivity.
  - intros l I. cbn [set_funcs_from_polys]. destruct (forallb _ l) eqn:E; [|reflexivity]. rewrite forallb_forall in E. specialize (E f I). cbn beta in E. congruence.
Qed.
Print Assumptions C51_not_polys.

(** Both inner products need the weighted normal derivatives: the first that of the harmonic part, the second that of its
    antilaplacian or, with a second harmonic function, that of the other one. *)
Theorem C53_derivative_needed u H c : (tr_wnd (lh_trace (u_harm u)) = None -> forall o, h1_inner u o H c = Err TypeError) /\
  (tr_wnd (lh_bi (u_harm u)) = None -> forall v h, l2_inner u (UPois v) H c = Err TypeError /\ l2_inner u (UGen (GHarm h)) H c = Err TypeError).
Proof.
  split; intros W.
  - intros o. unfold h1_inner, h1_gen, h1_flux. destruct o as [v|[h|p]|]; rewrite ?W; reflexivity.
  - intros v h. unfold l2_inner, l2_gen, l2_hh. rewrite W. split; reflexivity.
Qed.
Print Assumptions C53_derivative_needed.

(** A cell without interior points gives an empty array, and the plot of the whole function is refused. *)
Lemma fold_res_split {A B} (f : B -> A -> res B) l1 l2 s : fold_res f (l1 ++ l2) s = do s <- fold_res f l1 s; fold_res f l2 s.
Proof. revert s. induction l1 as [|x l1 IH]; intros s; [reflexivity|]. cbn [fold_res app]. destruct (f s x); [cbn [bind]; apply IH|reflexivity]. Qed.
Theorem C66_empty combo z cells ds zs u : Forall2 (fun z d => combo z = Ok (dr_fun d) /\ carries_plot (dr_fun d) (dr_vals d) (dr_g1 d) (dr_g2 d)) cells ds -> combo z = Ok u -> u_vals u = Some [] -> build_global combo (cells ++ z :: zs) = Err ValueError.
Proof.
  intros F Ez V. destruct (build_gen combo cells ds F (GPlot [] None None None None) [] [] [] [] eq_refl eq_refl eq_refl eq_refl) as (st & E & _). unfold build_global. rewrite fold_res_split, E. cbn [bind fold_res]. rewrite Ez. cbn [bind]. unfold plot_cell. rewrite V. reflexivity.
Qed.
Print Assumptions C66_empty.
(** An edge with an empty array of samples has no limits. *)
Theorem C65_no_samples es e es' pad : Forall drawable es -> e_param e = true -> e_smp e = [] -> get_axis_limits (es ++ e :: es') pad = Err ValueError.
Proof.
  intros F P N. unfold get_axis_limits. assert (X : forall b, fold_res grow (es ++ e :: es') b = Err ValueError).
  { induction F as [|a es [Pa Na] F IH]; intros b; cbn [fold_res app].
    - unfold grow, edge_coord. rewrite P, N. reflexivity.
    - unfold grow at 1, edge_coord. rewrite Pa. cbn [bind]. unfold update_min, update_max. assert (Nl : forall f : pt -> R, map (fun s => f (sx s)) (e_smp a) <> []) by (intros f; destruct (e_smp a); [congruence|discriminate]).
      destruct (pymin_ok _ (Nl fst)) as (m & -> & _). destruct (pymax_ok _ (Nl fst)) as (m' & -> & _). destruct (pymin_ok _ (Nl snd)) as (k & -> & _). destruct (pymax_ok _ (Nl snd)) as (k' & -> & _). cbn [bind]. apply IH. }
  rewrite X. reflexivity.
Qed.
Print Assumptions C65_no_samples.

(** The first entry that does not fit decides which error is raised, and what is kept: everything before it and, if it is
    a DirichletTrace of a wrong length, its values once. *)
Lemma add_traces_split n l1 l2 : Forall (fits n) l1 -> forall l, add_traces n l (l1 ++ l2) = add_traces n (l ++ concat (map copies l1)) l2.
Proof.
  induction 1 as [|f fs (v & E & L) F IH]; intros l; [cbn; rewrite app_nil_r; reflexivity|]. cbn [add_traces map concat app]. unfold copies at 1. rewrite E. destruct f as [w|t|]; cbn [given_values] in E; [| |discriminate]; cbn [add_trace times_drawn].
  - injection E as ->. rewrite (proj2 (Z.eqb_eq _ _) L), IH. cbn [repeat]. rewrite <- app_assoc. reflexivity.
  - rewrite E. cbv zeta. rewrite (proj2 (Z.eqb_eq _ _) L), IH. cbn [repeat]. rewrite <- !app_assoc. reflexivity.
Qed.
Theorem C67_first_misfit n good f rest : Forall (fits n) good -> let kept := concat (map copies good) in let r := set_traces n (TLList (good ++ f :: rest)) in
  (f = TLBad -> r = (kept, Err TypeError)) /\
  (forall v, f = TLArr v -> Z.of_nat (List.length v) <> n -> r = (kept, Err ValueError)) /\
  (forall t, f = TLTrace t -> tr_vals t = None -> r = (kept, Err AttributeError)) /\
  (forall t v, f = TLTrace t -> tr_vals t = Some v -> Z.of_nat (List.length v) <> n -> r = (kept ++ [v], Err ValueError)).
Proof.
  intros F. cbv zeta. unfold set_traces. rewrite (add_traces_split n good (f :: rest) F []). cbn [app add_traces]. repeat split.
  - intros ->. reflexivity.
  - intros v -> N. cbn [add_trace]. rewrite (proj2 (Z.eqb_neq _ _) N). reflexivity.
  - intros t -> N. cbn [add_trace]. rewrite N. reflexivity.
  - intros t v -> V N. cbn [add_trace]. rewrite V. cbv zeta. rewrite (proj2 (Z.eqb_neq _ _) N). reflexivity.
Qed.
Print Assumptions C67_first_misfit.
(** A plot never has a format or legend of the wrong kind, whatever is called on it afterwards. *)
Definition of_kind (p : tplot) : Prop := tp_fmt p <> TracePlotModel.FBad /\ tp_legend p <> LBad.
Theorem C67_kinds_kept fs H c qd fmt leg log mx p : mk_tplot fs H c qd fmt leg log mx = Ok p -> of_kind p /\ forall ks q, fold_left (fun p k => fst (run_call p k)) ks p = q -> of_kind q.
Proof.
  intros E. assert (K : of_kind p).
  { unfold mk_tplot in E. destruct (attr (c_npts c)) as [n|]; [|discriminate]. cbn [bind] in E. destruct (find_t H c qd) as [t|]; [|discriminate]. cbn [bind] in E. destruct (find_ticks _ mx) as [[tk lb]|]; [|discriminate]. cbn [bind] in E. destruct (set_traces n fs) as [ts r]. destruct r; [|discriminate]. cbn [bind] in E.
    unfold of_kind. destruct fmt as [s|l|]; [| |discriminate]; cbn [set_format] in E; [|destruct (Nat.eqb _ _); [|discriminate]]; cbn [bind] in E; (destruct leg as [[|x g]|]; [| |discriminate]; cbn [set_legend] in E; [|destruct (Nat.eqb (List.length (x :: g)) _); [|discriminate]]; cbn [bind] in E; apply Ok_inj in E; subst p; cbn; split; discriminate). }
  split; [exact K|]. clear E. intros ks. revert p K. induction ks as [|k ks IH]; intros p K q Q; [cbn in Q; subst; exact K|]. cbn [fold_left] in Q. apply (IH _) in Q; [exact Q|]. clear IH Q q. destruct K as [Kf Kl]. unfold of_kind. destruct k as [g|f|g|b]; cbn [run_call].
  - destruct (set_traces (tp_npts p) g) as [ts r]. cbn. auto.
  - destruct f as [s|l|]; cbn [set_format]; [| |cbn; auto]; [|destruct (Nat.eqb _ _); [|cbn; auto]]; cbn; split; try discriminate; exact Kl.
  - destruct g as [[|x g]|]; cbn [set_legend]; [| |cbn; auto]; [|destruct (Nat.eqb _ _); [|cbn; auto]]; cbn; split; try discriminate; exact Kf.
  - cbn. auto.
Qed.
Print Assumptions C67_kinds_kept.

(** Without a new figure and without a given one, the current figure is drawn on; if none is open, figure 1 is opened. *)
Inductive now_current : list figure -> nat -> list art -> list figure -> Prop :=
| nc_none : now_current [] 1 [] []
| nc_some n x fs : now_current ((n, x) :: fs) n x fs.
Theorem C74_local_current exist ui kind u H c T o show_plot f P P' n x fs : l_new o = false -> l_fig o = None -> now_current (figs P) n x fs -> ~ In n (map fst fs) -> l_boundary o = false -> local_draw exist ui kind u H c T o show_plot f P = (P', Done tt) ->
  exists pic evs p arr, let cm := match l_cmap o with Some cm => cm | None => rc P end in
  arrays ui kind u H c = Ok arr /\ snd (draw_generic ui (l_log10 o) (fst arr) (snd arr) T) = Ok p /\ shows_function [] T o p cm pic /\ written exist (x ++ pic) f evs /\
  P' = Plt (if l_close o then fs else (n, x ++ pic) :: fs) cm (out P ++ evs ++ if show_plot then [Shown ((n, x ++ pic) :: fs)] else []).
Proof.
  intros Nw Fg C N NB E. rewrite local_draw_split in E. unfold follow at 1, lift in E. destruct (arrays ui kind u H c) as [arr|e]; [|discriminate]. unfold follow at 1, local_figure in E. rewrite Fg, Nw in E. unfold follow at 1, ret in E.
  destruct (snd (draw_generic ui (l_log10 o) (fst arr) (snd arr) T)) as [p|e] eqn:D; [|unfold local_body, follow, lift in E; rewrite D in E; discriminate].
  assert (X : local_body exist ui arr H c T o show_plot f P = local_body exist ui arr H c T o show_plot f (Plt ((n, x) :: fs) (rc P) (out P))).
  { destruct P as [gs r ot]. cbn [figs rc out] in *. destruct C; [|reflexivity]. unfold local_body. unfold follow at 1 10, lift. rewrite D. reflexivity. }
  rewrite X in E. rewrite (local_body_ok exist ui arr H c T o show_plot f p [] n x fs (rc P) (out P) D ltac:(congruence) N) in E. destruct (finish_cases exist show_plot (negb (l_close o)) f n (x ++ local_pic p (rc P) T o []) fs (colors (rc P) o) (out P)) as [(W & evs & V & Y)|(W & Y)]; rewrite Y in E; [|discriminate]. injection E as <-.
  exists (local_pic p (rc P) T o []), evs, p, arr. cbv zeta. split; [reflexivity|]. split; [exact D|]. split; [apply local_pic_shows|]. split; [exact V|]. destruct (l_close o); reflexivity.
Qed.
Print Assumptions C74_local_current.

(** ** Examples *)
(** The two triangles have the cells 0 and 1; a vertex function of cell 2 can be numbered, and cannot be kept. *)
Example C47_no_such_cell_example : exists H' m p k k', mk_mesh MeshProps.two_triangles [0; 1; 2; 4; 3]%nat = Ok (H', m) /\ mk_space m (PInt 3) [2; 2; 2; 2; 2]%Z = Ok p /\ GlobProofs.key_of (GlobSpec.VertexFun 5) = Ok k /\
  number_key H' p 2 k = Ok k' /\ register H' p 2 [k] = Err IndexError /\ register H' p 2 [] = Ok (p, []).
Proof.
  do 5 eexists. split; [vm_compute; reflexivity|]. split; [vm_compute; reflexivity|]. split; [vm_compute; reflexivity|]. split; [vm_compute; reflexivity|]. split; (erewrite C47_no_such_cell; [reflexivity|cbn; auto|vm_compute; reflexivity]).
Qed.
Example C51_not_polys_example t : let f := FFun (fun x y => x + y) in set_funcs_from_polys t (FOne f) = Err ValueError /\ set_funcs_from_polys t (FMany [FPoly []; f]) = Err ValueError.
Proof. cbv zeta. destruct (C51_not_polys t (FFun (fun x y => x + y)) ltac:(discriminate)) as [A B]. split; [exact A|]. apply B. right. left. reflexivity. Qed.
Example C53_derivative_example p v H c : let t := Trace [] None None (Some [1; 2]) None None None in let u := LPois (LHarm t t t [] t) p None None None in h1_inner u (UPois v) H c = Err TypeError /\ l2_inner u (UPois v) H c = Err TypeError.
Proof. cbv zeta. destruct (C53_derivative_needed (LPois (LHarm (Trace [] None None (Some [1; 2]) None None None) (Trace [] None None (Some [1; 2]) None None None) (Trace [] None None (Some [1; 2]) None None None) [] (Trace [] None None (Some [1; 2]) None None None)) p None None None) H c) as [A B]. split; [apply A; reflexivity|]. exact (proj1 (B eq_refl v (u_harm v))). Qed.
(** The second of two cells has no interior points. *)
Example C66_empty_example h p : let u z := if Z.eqb z 0 then LPois h p (Some [5; 2]) (Some [0; 1]) (Some [1; 1]) else LPois h p (Some []) (Some []) (Some []) in build_global (fun z => Ok (u z)) [0; 3]%Z = Err ValueError.
Proof.
  intros u. apply (C66_empty (fun z => Ok (u z)) 3%Z [0%Z] [Drawn (u 0%Z) [5; 2] [0; 1] [1; 1]] [] (u 3%Z)); [|reflexivity|reflexivity]. repeat constructor; cbn; try discriminate.
Qed.
(** A side that was parameterized, with its samples emptied *)
Example C65_no_samples_example pad : let e := TriCell.side (Vert 0 0 0) (Vert 1 0 1) 0 (-1) 0 in
  get_axis_limits [Edge (e_anchor e) (e_endpnt e) 0 (-1) CurveModel.Line [] "trap" (Some 0%Z) true false true 0 [] (0, 2 * PI) (e_diary e)] pad = Err ValueError.
Proof. cbv zeta. apply (C65_no_samples [] _ [] pad (Forall_nil _)); reflexivity. Qed.
(** One good array, a DirichletTrace that is too long, and a third entry that is not looked at *)
Example C67_misfit_example : let t := Trace [] None None (Some [1; 2; 3]) None None None in set_traces 2 (TLList [TLArr [5; 6]; TLTrace t; TLBad]) = ([[5; 6]; [1; 2; 3]], Err ValueError) /\ set_traces 2 (TLList [TLArr [5; 6]; TLBad; TLTrace t]) = ([[5; 6]], Err TypeError).
Proof.
  cbv zeta. assert (F : Forall (fits 2) [TLArr [5; 6]]) by (constructor; [exists [5; 6]; auto|constructor]). split.
  - apply (C67_first_misfit 2 [TLArr [5; 6]] _ [TLBad] F) with (t := Trace [] None None (Some [1; 2; 3]) None None None); [reflexivity|reflexivity|discriminate].
  - apply (C67_first_misfit 2 [TLArr [5; 6]] TLBad _ F). reflexivity.
Qed.
(** Two plots, one after the other, on figure 1 *)
Example C74_current_example h p c H : exists P1 pic P2 pic', let u x := LPois h p (Some [x; 2; 3]) (Some [0; 1; 1]) (Some [1; 1; 0]) in let T := Tgl [(0, 1, 2)%nat] [false] [false] in
  let o := LOpts true "" None false true false false false false None None false in
  local_draw (fun _ => true) false "values" (u 0) H c T o false [] (Plt [] "viridis" []) = (P1, Done tt) /\ figs P1 = [(1%nat, pic)] /\ List.length (contours pic) = 1%nat /\
  local_draw (fun _ => true) false "values" (u 1) H c T o false [] P1 = (P2, Done tt) /\ figs P2 = [(1%nat, pic ++ pic')] /\ List.length (contours pic') = 1%nat.
Proof.
  set (u := fun x => LPois h p (Some [x; 2; 3]) (Some [0; 1; 1]) (Some [1; 1; 0])). set (T := Tgl [(0, 1, 2)%nat] [false] [false]). set (o := LOpts true "" None false true false false false false None None false).
  assert (D : forall x P, exists P', local_draw (fun _ => true) false "values" (u x) H c T o false [] P = (P', Done tt)).
  { intros x [[|[n l] fs] r ot]; eexists; unfold local_draw, follow, lift, arrays; cbn [String.eqb Ascii.eqb Bool.eqb boundary_array bind]; reflexivity. }
  destruct (D 0 (Plt [] "viridis" [])) as (P1 & E1). destruct (C74_local_current _ _ _ _ _ _ _ o _ _ (Plt [] "viridis" []) _ 1%nat [] [] eq_refl eq_refl nc_none ltac:(intros []) eq_refl E1) as (pic & ev & q & arr & _ & _ & S & _ & X1). cbn [l_close o app] in X1.
  assert (C1 : now_current (figs P1) 1 pic []) by (rewrite X1; constructor). destruct (D 1 P1) as (P2 & E2). destruct (C74_local_current _ _ _ _ _ _ _ o _ _ P1 _ 1%nat pic [] eq_refl eq_refl C1 ltac:(intros []) eq_refl E2) as (pic' & ev' & q' & arr' & _ & _ & S' & _ & X2).
  exists P1, pic, P2, pic'. cbv zeta. destruct S as (S & _). destruct S' as (S' & _). split; [exact E1|]. split; [rewrite X1; reflexivity|]. split; [rewrite S; reflexivity|]. split; [exact E2|]. split; [rewrite X2; reflexivity|]. rewrite S'. reflexivity.
Qed.
