(** Lemmas for C84: what is computed on a cell reads no other edges than those of the cell. *)
From Coq Require Import List ZArith Reals Lia Bool String FunctionalExtensionality.
From Verif Require Import PyBase PolyModel BaryModel QuadModel VertModel EdgeModel ContourModel CellModel TraceModel LocalModel FftModel AntilapModel NystromModel EdgeSpaceModel GlobModel SolverModel LocSpaceModel AsmModel CellSpec CellProofs CellProps5 DeparamProps.
Import List ListNotations.
Open Scope R_scope.

Lemma bind_ext {A B} (r r' : res A) (k k' : A -> res B) : r = r' -> (forall a, k a = k' a) -> bind r k = bind r' k'.
Proof. intros <- E. destruct r; [apply E|reflexivity]. Qed.
Lemma bind_geti {A B} (l : list A) i (k k' : A -> res B) : (forall a, In a l -> k a = k' a) -> bind (geti l i) k = bind (geti l i) k'.
Proof. unfold geti. intros E. destruct (nth_error l i) eqn:X; [|reflexivity]. apply E, (nth_error_In _ _ X). Qed.
Lemma map_res_ext {A B} (f g : A -> res B) l : (forall a, f a = g a) -> map_res f l = map_res g l.
Proof. intros E. apply map_res_same'. intros. apply E. Qed.
Lemma fold_res_ext {A B} (f g : B -> A -> res B) l b : (forall b a, f b a = g b a) -> fold_res f l b = fold_res g l b.
Proof. intros E. apply fold_res_same. intros. apply E. Qed.
Lemma fold_comps {B} (f g : B -> nat * contour -> res B) l0 l b : (forall b i k, In k l -> f b (i, k) = g b (i, k)) -> fold_res f (combine l0 l) b = fold_res g (combine l0 l) b.
Proof. intros E. apply fold_res_same. intros [i k] y I. apply E, (in_combine_r _ _ _ _ I). Qed.

(** Rewriting by syntactic matching. *)
Ltac rw lem := let T := type of lem in lazymatch T with ?l = _ => pattern l; refine (eq_ind_r _ _ lem); cbv beta end.
Ltac ag0 := fail.
Ltac ag := idtac.
Ltac cong :=
  cbv zeta; ag; try (match goal with |- ?x = ?y => constr_eq x y; reflexivity end);
  lazymatch goal with
  | |- bind (geti _ _) _ = bind (geti _ _) _ => apply bind_geti; intros ? ?; cong
  | |- bind _ _ = bind _ _ => apply bind_ext; [cong|intros ?; cong]
  | |- map_res _ _ = map_res _ _ => apply map_res_ext; intros ?; cong
  | |- fold_res _ (combine _ (c_comps _)) _ = _ => apply fold_comps; intros ? ? ? ?; cong
  | |- fold_res _ _ _ = fold_res _ _ _ => apply fold_res_ext; intros ? ?; cong
  | |- (match ?x with _ => _ end) = (match ?y with _ => _ end) => constr_eq x y; destruct x; cong
  | |- cell_fill _ _ = cell_fill _ _ => apply cell_fill_same; intros ? ? ? ?; cong
  | |- Ok _ = Ok _ => f_equal; cong
  | _ => idtac
  end.

Section Agree.
Variables H H' : heap.
Variable c : cell.
Hypothesis A : agree H H' (cell_edges c).

Lemma a_guard k : In k (c_comps c) -> guard H' k = guard H k.
Proof. intros I. apply agree_guard. exact (agree_comp _ _ _ _ A I). Qed.
Lemma a_fill k f : In k (c_comps c) -> fill H' k f = fill H k f.
Proof. intros I. apply agree_fill. exact (agree_comp _ _ _ _ A I). Qed.
Lemma a_points k : In k (c_comps c) -> contour_points H' k = contour_points H k.
Proof. intros I. apply agree_points. exact (agree_comp _ _ _ _ A I). Qed.
Lemma a_cell_guard : cell_guard H' c = cell_guard H c.
Proof. exact (agree_cell_guard _ _ _ A). Qed.
Lemma a_dot d u v : cell_dot d u v H' c = cell_dot d u v H c.
Proof. exact (agree_dot _ _ _ _ _ _ A). Qed.
Lemma a_norm v : cell_dx_norm v H' c = cell_dx_norm v H c.
Proof. exact (agree_norm _ _ _ _ A). Qed.
Lemma a_integrate v : cell_integrate v H' c = cell_integrate v H c.
Proof. exact (agree_integrate _ _ _ _ A). Qed.
Ltac ag1 := match goal with | I0 : In ?k (c_comps c) |- context [guard H' ?k] => rw (a_guard k I0) | I0 : In ?k (c_comps c) |- context [fill H' ?k ?f] => rw (a_fill k f I0) | I0 : In ?k (c_comps c) |- context [contour_points H' ?k] => rw (a_points k I0) | _ => ag0 end.
Ltac ag ::= repeat ag1.
Ltac ag2 := match goal with | |- context [cell_guard H' c] => rw (a_cell_guard) | |- context [cell_dot ?d ?u ?v H' c] => rw (a_dot d u v) | |- context [cell_dx_norm ?v H' c] => rw (a_norm v) | |- context [cell_integrate ?v H' c] => rw (a_integrate v) | _ => ag1 end.
Ltac ag ::= repeat ag2.
Lemma a_pre v : cell_integrate_preweighted v H' c = cell_integrate_preweighted v H c.
Proof. unfold cell_integrate_preweighted. cong. Qed.
Lemma a_boundary : boundary_points H' c = boundary_points H c.
Proof. unfold boundary_points. cong. Qed.
Lemma a_vectors d : cell_vectors d H' c = cell_vectors d H c.
Proof. unfold cell_vectors. cong. Qed.
Lemma a_weights : cell_weights H' c = cell_weights H c.
Proof. unfold cell_weights. cong. Qed.
Lemma a_cdx k v : In k (c_comps c) -> contour_dx_norm v H' k = contour_dx_norm v H k.
Proof. intros I. unfold contour_dx_norm. cong. Qed.
Ltac ag3 := match goal with | I0 : In ?k (c_comps c) |- context [contour_dx_norm ?v H' ?k] => rw (a_cdx k v I0) | _ => ag2 end.
Ltac ag ::= repeat ag3.
Lemma a_cint k v : In k (c_comps c) -> contour_integrate v H' k = contour_integrate v H k.
Proof. intros I. unfold contour_integrate, contour_integrate_preweighted. cong. Qed.
Lemma a_deref i : In i (cell_edges c) -> deref H' i = deref H i.
Proof. intros I. unfold deref. rewrite (A i I). reflexivity. Qed.
Lemma a_kedges : kedges H' c = kedges H c.
Proof. unfold kedges. apply map_res_same'. exact a_deref. Qed.
Ltac ag4 := match goal with | |- context [cell_integrate_preweighted ?v H' c] => rw (a_pre v) | |- context [boundary_points H' c] => rw (a_boundary) | |- context [cell_vectors ?d H' c] => rw (a_vectors d) | |- context [cell_weights H' c] => rw (a_weights) | |- context [kedges H' c] => rw (a_kedges) | _ => ag3 end.
Ltac ag ::= repeat ag4.
Ltac ag5 := match goal with | I0 : In ?k (c_comps c) |- context [contour_integrate ?v H' ?k] => rw (a_cint k v I0) | _ => ag4 end.
Ltac ag ::= repeat ag5.
Lemma a_trace v : cell_trace H' c v = cell_trace H c v.
Proof. unfold cell_trace. cong. Qed.
Ltac ag6 := match goal with | |- context [cell_trace H' c ?v] => rw (a_trace v) | _ => ag5 end.
Ltac ag ::= repeat ag6.
(** ** cell.py: the tables and the interior points *)
Variable contains : R -> list pt -> pt -> bool.
Lemma a_distance k p : In k (c_comps c) -> contour_distance H' k p = contour_distance H k p.
Proof. intros I. apply agree_distance. exact (agree_comp _ _ _ _ A I). Qed.
Lemma a_inside1 k xs ys : In k (c_comps c) -> inside1 contains H' k xs ys = inside1 contains H k xs ys.
Proof. intros I. unfold inside1. cong. Qed.
Lemma a_inside2 k g : In k (c_comps c) -> inside2 contains H' k g = inside2 contains H k g.
Proof. intros I. unfold inside2. cong. Qed.
Ltac ag7 := match goal with | I0 : In ?k (c_comps c) |- context [contour_distance H' ?k ?p] => rw (a_distance k p I0) | I0 : In ?k (c_comps c) |- context [inside1 contains H' ?k ?xs ?ys] => rw (a_inside1 k xs ys I0) | I0 : In ?k (c_comps c) |- context [inside2 contains H' ?k ?g] => rw (a_inside2 k g I0) | _ => ag6 end.
Ltac ag ::= repeat ag7.
Lemma a_numpts : cell_num_pts H' c = cell_num_pts H c.
Proof. unfold cell_num_pts. cong. Qed.
Lemma a_start : cell_start_idx H' c = cell_start_idx H c.
Proof. unfold cell_start_idx. cong. Qed.
Lemma a_closest : cell_closest H' c = cell_closest H c.
Proof. unfold cell_closest. cong. Qed.
Lemma a_outer : find_outer contains H' c = find_outer contains H c.
Proof. unfold find_outer. cong. Qed.
Lemma a_cdist p : cell_distance H' c p = cell_distance H c p.
Proof. unfold cell_distance. cong. Qed.
Lemma a_box : cell_box H' c = cell_box H c.
Proof. unfold cell_box. cong. Qed.
Lemma a_cinside g : cell_inside contains H' c g = cell_inside contains H c g.
Proof. unfold cell_inside. cong. Qed.
Ltac ag8 := match goal with | |- context [cell_distance H' c ?p] => rw (a_cdist p) | |- context [cell_box H' c] => rw (a_box) | |- context [cell_inside contains H' c ?g] => rw (a_cinside g) | _ => ag7 end.
Ltac ag ::= repeat ag8.
Lemma a_ipoints : interior_points contains H' c = interior_points contains H c.
Proof. unfold interior_points. cong. Qed.
(** ** local_polynomial.py, local_harmonic.py, local_poisson.py *)
Lemma a_deriv d p : poly_deriv d p H' c = poly_deriv d p H c.
Proof. unfold poly_deriv. cong. Qed.
Lemma a_int_poly p : int_poly p H' c = int_poly p H c.
Proof. unfold int_poly. cong. Qed.
Ltac ag9 := match goal with | |- context [poly_deriv ?d ?p H' c] => rw (a_deriv d p) | |- context [int_poly ?p H' c] => rw (a_int_poly p) | _ => ag8 end.
Ltac ag ::= repeat ag9.
Lemma a_lpoly p : mk_lpoly p H' c = mk_lpoly p H c.
Proof. unfold mk_lpoly. cong. Qed.
Ltac ag10 := match goal with | |- context [mk_lpoly ?p H' c] => rw (a_lpoly p) | _ => ag9 end.
Ltac ag ::= repeat ag10.
Lemma a_lharm N t : mk_lharm N H' c t = mk_lharm N H c t.
Proof. unfold mk_lharm, harm_conj, conjugable, biharm. cong. Qed.
Lemma a_csamples h : csamples h H' c = csamples h H c.
Proof. unfold csamples. cong. Qed.
Ltac ag11 := match goal with | |- context [mk_lharm ?N H' c ?t] => rw (a_lharm N t) | |- context [csamples ?h H' c] => rw (a_csamples h) | _ => ag10 end.
Ltac ag ::= repeat ag11.
Lemma a_interior p h g : interior_values p h H' c g = interior_values p h H c g.
Proof. unfold interior_values. cong. Qed.
Ltac ag12 := match goal with | |- context [interior_values ?p ?h H' c ?g] => rw (a_interior p h g) | _ => ag11 end.
Ltac ag ::= repeat ag12.
Lemma a_lpois N f g i gr : mk_lpois N H' c f g i gr = mk_lpois N H c f g i gr.
Proof. unfold mk_lpois. cong. Qed.
Ltac ag13 := match goal with | |- context [mk_lpois ?N H' c ?f ?g ?i ?gr] => rw (a_lpois N f g i gr) | _ => ag12 end.
Ltac ag ::= repeat ag13.
Lemma a_h1_gen v w : h1_gen v w H' c = h1_gen v w H c.
Proof. unfold h1_gen, h1_flux, h1_pp. cong. Qed.
Lemma a_l2_gen v w : l2_gen v w H' c = l2_gen v w H c.
Proof. unfold l2_gen, l2_hh, l2_hp, l2_pp. cong. Qed.
Ltac ag14 := match goal with | |- context [h1_gen ?v ?w H' c] => rw (a_h1_gen v w) | |- context [l2_gen ?v ?w H' c] => rw (a_l2_gen v w) | _ => ag13 end.
Ltac ag ::= repeat ag14.
Lemma a_h1 u o : h1_inner u o H' c = h1_inner u o H c.
Proof. unfold h1_inner. cong. Qed.
Lemma a_l2 u o : l2_inner u o H' c = l2_inner u o H c.
Proof. unfold l2_inner. cong. Qed.
Ltac ag15 := match goal with | |- context [h1_inner ?u ?o H' c] => rw (a_h1 u o) | |- context [l2_inner ?u ?o H' c] => rw (a_l2 u o) | _ => ag14 end.
Ltac ag ::= repeat ag15.
(** ** antilap.py *)
Lemma a_components r rh p ph : from_components H' c r rh p ph = from_components H c r rh p ph.
Proof. unfold from_components. cong. Qed.
Lemma a_tang u v : tang H' c u v = tang H c u v.
Proof. unfold tang. cong. Qed.
Lemma a_nor u v : AntilapModel.norm H' c u v = AntilapModel.norm H c u v.
Proof. unfold AntilapModel.norm. cong. Qed.
Ltac ag16 := match goal with | |- context [from_components H' c ?r ?rh ?p ?ph] => rw (a_components r rh p ph) | |- context [tang H' c ?u ?v] => rw (a_tang u v) | |- context [AntilapModel.norm H' c ?u ?v] => rw (a_nor u v) | _ => ag15 end.
Ltac ag ::= repeat ag16.
Lemma a_simply p ph : simply_connected H' c p ph = simply_connected H c p ph.
Proof. unfold simply_connected. cong. Qed.
Lemma a_recover N r : recover N H' c r = recover N H c r.
Proof. unfold recover. cong. Qed.
Lemma a_residues f g : residues H' c f g = residues H c f g.
Proof. unfold residues. cong. Qed.
Lemma a_add_holes xs hs lc P w : add_holes H' c xs hs lc P w = add_holes H c xs hs lc P w.
Proof. unfold add_holes. cong. Qed.
Ltac ag17 := match goal with | |- context [simply_connected H' c ?p ?ph] => rw (a_simply p ph) | |- context [recover ?N H' c ?r] => rw (a_recover N r) | |- context [residues H' c ?f ?g] => rw (a_residues f g) | |- context [add_holes H' c ?xs ?hs ?lc ?P ?w] => rw (a_add_holes xs hs lc P w) | _ => ag16 end.
Ltac ag ::= repeat ag17.
Lemma a_multiply N p ph lc : multiply_connected N H' c p ph lc = multiply_connected N H c p ph lc.
Proof. unfold multiply_connected, wnd_from_gradient, wtd_from_gradient, fft_solve. cong. Qed.
Ltac ag18 := match goal with | |- context [multiply_connected ?N H' c ?p ?ph ?lc] => rw (a_multiply N p ph lc) | _ => ag17 end.
Ltac ag ::= repeat ag18.
Lemma a_anti N : anti_laplacian N H' c = anti_laplacian N H c.
Proof. apply functional_extensionality; intros p. apply functional_extensionality; intros q. apply functional_extensionality; intros lc. unfold anti_laplacian. cong. Qed.
(** ** nystrom.py *)
Lemma a_block ki kj b : In ki (c_comps c) -> In kj (c_comps c) -> component_block H' ki kj b = component_block H ki kj b.
Proof.
  intros I J. unfold component_block. cong.
  - apply a_deref. unfold cell_edges. apply in_concat. exists (k_edges ki). split; [apply in_map, I|assumption].
  - apply a_deref. unfold cell_edges. apply in_concat. exists (k_edges kj). split; [apply in_map, J|assumption].
Qed.
Ltac ag19 := match goal with | I0 : In ?ki (c_comps c), I1 : In ?kj (c_comps c) |- context [component_block H' ?ki ?kj ?b] => rw (a_block ki kj b I0 I1) | _ => ag18 end.
Ltac ag ::= repeat ag19.
Lemma a_layer b : layer_mat H' c b = layer_mat H c b.
Proof. unfold layer_mat. cong. Qed.
Ltac ag20 := match goal with | |- context [layer_mat H' c ?b] => rw (a_layer b) | _ => ag19 end.
Ltac ag ::= repeat ag20.
Lemma a_layers : build_layers H' c = build_layers H c.
Proof. unfold build_layers. cong. Qed.
Lemma a_neumann L : neumann_op H' c L = neumann_op H c L.
Proof. apply functional_extensionality. intros u. unfold neumann_op, lin_call. cong. Qed.
Lemma a_moments d l v : moments d H' c l v = moments d H c l v.
Proof. unfold moments. cong. Qed.
Lemma a_log x y j : log_trace H' c x y j = log_trace H c x y j.
Proof. unfold log_trace. cong. Qed.
Ltac ag21 := match goal with | |- context [build_layers H' c] => rw (a_layers) | |- context [neumann_op H' c ?L] => rw (a_neumann L) | |- context [moments ?d H' c ?l ?v] => rw (a_moments d l v) | |- context [log_trace H' c ?x ?y ?j] => rw (a_log x y j) | _ => ag20 end.
Ltac ag ::= repeat ag21.
Lemma a_terms L : compute_log_terms H' c L = compute_log_terms H c L.
Proof. unfold compute_log_terms, Sn. cong. Qed.
Lemma a_conjugate L T : conjugate_op H' c L T = conjugate_op H c L T.
Proof. apply functional_extensionality. intros u. unfold conjugate_op, lin_call, St. cong. Qed.
Lemma a_diagonal M : layer_diagonal H' c M = layer_diagonal H c M.
Proof.
  unfold layer_diagonal. apply bind_ext; [reflexivity|]. intros n. apply bind_ext; [|reflexivity]. apply fold_res_ext. intros D j. apply bind_geti. intros k I. do 2 (apply bind_ext; [reflexivity|]; intros ?).
  apply bind_ext; [|reflexivity]. apply fold_res_same. intros p Da J. rewrite a_deref; [reflexivity|]. unfold cell_edges. apply in_concat. exists (k_edges k). split; [apply in_map, I|exact J].
Qed.
Ltac ag22 := match goal with | |- context [compute_log_terms H' c ?L] => rw (a_terms L) | |- context [conjugate_op H' c ?L ?T] => rw (a_conjugate L T) | |- context [layer_diagonal H' c ?M] => rw (a_diagonal M) | _ => ag21 end.
Ltac ag ::= repeat ag22.
Variable gmres : (list R -> res (list R)) -> list R -> (list R -> res (list R)) -> res (list R).
Lemma a_solve L D w : solve_neumann gmres H' c L D w = solve_neumann gmres H c L D w.
Proof. unfold solve_neumann. cong. Qed.
Lemma a_holes L T D p w : conjugate_holes gmres H' c L T D p w = conjugate_holes gmres H c L T D p w.
Proof. unfold conjugate_holes, Sn. cong. Qed.
Lemma a_indicator n k : In k (c_comps c) -> indicator H' c n k = indicator H c n k.
Proof. intros I. unfold indicator. cong. Qed.
Ltac ag23 := match goal with | |- context [solve_neumann gmres H' c ?L ?D ?w] => rw (a_solve L D w) | |- context [conjugate_holes gmres H' c ?L ?T ?D ?p ?w] => rw (a_holes L T D p w) | _ => ag22 end.
Ltac ag ::= repeat ag23.
Ltac ag24 := match goal with | I0 : In ?k (c_comps c) |- context [indicator H' c ?n ?k] => rw (a_indicator n k I0) | _ => ag23 end.
Ltac ag ::= repeat ag24.
Lemma in_tl {B} (x : B) l : In x (tl l) -> In x l.
Proof. destruct l; [intros []|right; assumption]. Qed.
Lemma a_normals L D : normal_indicators gmres H' c L D = normal_indicators gmres H c L D.
Proof. unfold normal_indicators. apply bind_geti. intros c0 I0. apply bind_ext; [|reflexivity]. apply fold_res_same. intros k la I. apply in_tl in I. cong. Qed.
Ltac ag25 := match goal with | |- context [normal_indicators gmres H' c ?L ?D] => rw (a_normals L D) | _ => ag24 end.
Ltac ag ::= repeat ag25.
Lemma a_solver s p : NystromModel.mk_solver gmres H' c s p = NystromModel.mk_solver gmres H c s p.
Proof. unfold NystromModel.mk_solver. cong. Qed.
Lemma a_harmonic V : harmonic_conjugate gmres H' c V = harmonic_conjugate gmres H c V.
Proof. apply functional_extensionality. intros u. unfold harmonic_conjugate. cong. Qed.
Lemma a_nyst V : to_nyst gmres H' c V = to_nyst gmres H c V.
Proof. unfold to_nyst, as_solver. rw (a_harmonic V). rw (functional_extensionality _ _ (a_solve (sv_layers V) (sv_diag V))). rw (a_anti (ASolver (solve_neumann gmres H c (sv_layers V) (sv_diag V)) (sv_strategy V) (sv_eta V))). reflexivity. Qed.
Ltac ag26 := match goal with | |- context [NystromModel.mk_solver gmres H' c ?s ?p] => rw (a_solver s p) | |- context [to_nyst gmres H' c ?V] => rw (a_nyst V) | _ => ag25 end.
Ltac ag ::= repeat ag26.
(** ** local_space.py, bilinear_form.py, solver.py *)
Variable low_rank : nat -> matrix -> matrix.
Variable set_iter : list Z -> list Z.
Lemma a_lspace spaces deg i g : mk_lspace low_rank gmres set_iter H' c spaces deg i g = mk_lspace low_rank gmres set_iter H c spaces deg i g.
Proof. unfold mk_lspace, centroid, find_area, bubb_funs, vert_funs, edge_funs, space_funs. cong. Qed.
Variable B : bform.
Lemma a_form_row l i : form_row B H' c l i = form_row B H c l i.
Proof. unfold form_row, form_values, AsmModel.eval_rhs, eval_h1, eval_l2. cong. Qed.
End Agree.
