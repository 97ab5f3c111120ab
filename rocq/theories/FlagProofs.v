(** Lemmas for C85: what the flags for values and gradients inside the cells change. *)
From Coq Require Import List ZArith Reals Lia Bool String.
From Verif Require Import PyBase PolyModel BaryModel QuadModel VertModel EdgeModel ContourModel CellModel MeshModel TraceModel LocalModel NystromModel EdgeSpaceModel GlobModel SolverModel LocSpaceModel AsmModel.
Import List ListNotations.
Open Scope R_scope.

(** A function as it would be with the flags [i] and [g] *)
Definition view (i g : bool) (u : lpois) : lpois :=
  let zeros := option_map (map (fun _ => 0)) (u_vals u) in
  LPois (u_harm u) (u_poly u) (if orb i g then u_vals u else None) (if g then u_g1 u else if i then zeros else None) (if g then u_g2 u else if i then zeros else None).
Definition kview (i g : bool) (k : kfun) : kfun := (fst k, view i g (snd k)).
Definition lview (i g : bool) (L : lspace) : lspace := LSpace (l_deg L) (map (kview i g) (l_vert L)) (map (kview i g) (l_edge L)) (map (kview i g) (l_bubb L)) (l_nums L) (l_centroid L) (l_area L).
(** A cell with other interior points *)
Definition put_int (c : cell) (o : option (list pt)) : cell := Cell (c_idx c) (c_comps c) (c_holes c) (c_nedges c) (c_orients c) (c_mesh c) (c_rtol c) (c_atol c) (c_npts c) (c_start c) (c_closest c) o.
(** Flags that ask for no more *)
Definition weaker (i g iv gv : bool) : Prop := (i = true -> iv = true) /\ (g = true -> gv = true).

Lemma map_res_view {A B D} (f : A -> res B) (f' : A -> res D) (h : B -> D) l : (forall a b, f a = Ok b -> f' a = Ok (h b)) -> forall r, map_res f l = Ok r -> map_res f' l = Ok (map h r).
Proof.
  intros E. induction l as [|a l IH]; intros r M; [apply Ok_inj in M; subst; reflexivity|]. cbn [map_res] in *. destruct (f a) as [b|] eqn:F; [|discriminate]. rewrite (E _ _ F). cbn [bind] in *. destruct (map_res f l) as [r'|]; [|discriminate]. rewrite (IH r' eq_refl). cbn [bind] in *. apply Ok_inj in M. subst. reflexivity.
Qed.
Lemma geti_map {A B} (h : A -> B) l i : geti (map h l) i = bind (geti l i) (fun x => Ok (h x)).
Proof. unfold geti. rewrite nth_error_map. destruct (nth_error l i); reflexivity. Qed.
Lemma combine_map_r {A B D} (h : B -> D) (l : list A) : forall r, combine l (map h r) = map (fun x => (fst x, h (snd x))) (combine l r).
Proof. induction l as [|a l IH]; intros [|b r]; cbn; [reflexivity..|]. rewrite IH. reflexivity. Qed.

(** ** Functions *)
Lemma lpois_view N H c f t iv gv i g u : weaker i g iv gv -> mk_lpois N H c f t iv gv = Ok u -> mk_lpois N H c f t i g = Ok (view i g u).
Proof.
  intros [Wi Wg]. unfold mk_lpois. repeat match goal with |- bind ?r _ = _ -> _ => destruct r as [?|]; [cbn [bind]|discriminate] end.
  destruct (orb iv gv) eqn:O.
  - unfold interior_values. destruct (attr (c_int c)) as [ys|]; [|discriminate]. cbn [bind]. destruct (log_terms c _) as [logs|]; [|discriminate]. cbn [bind]. destruct (csamples _ H c) as [sm|]; [|discriminate]. cbn [bind]. intros E. apply Ok_inj in E. subst u.
    unfold view. destruct i, g; cbn [orb bind u_harm u_poly u_vals u_g1 u_g2 option_map]; try rewrite (Wg eq_refl); try reflexivity. rewrite map_map. reflexivity.
  - apply orb_false_iff in O. destruct O as [-> ->]. intros E. apply Ok_inj in E. subst u. destruct i; [discriminate (Wi eq_refl)|]. destruct g; [discriminate (Wg eq_refl)|]. reflexivity.
Qed.
Ltac open E := match type of E with bind ?r _ = _ => destruct r as [?|] eqn:?X; [cbn [bind] in E|discriminate E] end.
Lemma lspace_view low_rank gmres set_iter H c sp d iv gv i g L : weaker i g iv gv -> mk_lspace low_rank gmres set_iter H c sp d iv gv = Ok L -> mk_lspace low_rank gmres set_iter H c sp d i g = Ok (lview i g L).
Proof.
  intros W E. unfold mk_lspace in *. destruct (set_deg d) as [z|]; [|discriminate]. cbn [bind] in *. destruct (centroid H c) as [cen|]; [|discriminate]. cbn [bind] in *. destruct (find_area H c) as [ar|]; [|discriminate]. cbn [bind] in *.
  match type of E with bind ?r _ = _ => destruct r as [spaces|]; [|discriminate] end. cbn [bind] in *. destruct (NystromModel.mk_solver _ _ _ _ _) as [V|]; [|discriminate]. cbn [bind] in *. cbv zeta in *. set (N := to_nyst gmres H c V) in *. clearbody N.
  assert (K : forall key f t u, (do u <- mk_lpois N H c f t iv gv; Ok (key, u)) = Ok u -> (do u <- mk_lpois N H c f t i g; Ok (key, u)) = Ok (kview i g u)).
  { intros key f t u X. destruct (mk_lpois N H c f t iv gv) as [w|] eqn:Y; [|discriminate]. cbn [bind] in X. apply Ok_inj in X. subst u. rewrite (lpois_view _ _ _ _ _ _ _ _ _ _ W Y). reflexivity. }
  destruct (bubb_funs N H c z cen ar iv gv) as [bs|] eqn:Eb; [|discriminate]. cbn [bind] in E. destruct (vert_funs _ N H c spaces iv gv) as [vs|] eqn:Ev; [|discriminate]. cbn [bind] in E. destruct (edge_funs N H c spaces iv gv) as [fs|] eqn:Ef; [|discriminate]. cbn [bind] in E. apply Ok_inj in E. subst L.
  assert (Eb' : bubb_funs N H c z cen ar i g = Ok (map (kview i g) bs)).
  { unfold bubb_funs in *. destruct (Z.ltb z 2); [apply Ok_inj in Eb; subst; reflexivity|]. revert Eb. apply map_res_view. intros k b X. destruct (bubb_key k) as [key|]; [|discriminate]. cbn [bind] in *. exact (K _ _ _ _ X). }
  assert (Ev' : vert_funs set_iter N H c spaces i g = Ok (map (kview i g) vs)).
  { unfold vert_funs in *. destruct (kedges H c) as [es|]; [|discriminate]. cbn [bind] in *. destruct (map_res vert_key _) as [keys|]; [|discriminate]. cbn [bind] in *. revert Ev. apply map_res_view. intros k b X. destruct (vert_trace es spaces (g_vert k)) as [t|]; [|discriminate]. cbn [bind] in *. exact (K _ _ _ _ X). }
  assert (Ef' : edge_funs N H c spaces i g = Ok (map (kview i g) fs)).
  { unfold edge_funs in *. destruct (map_res _ spaces) as [l|] eqn:M; [|discriminate]. cbn [bind] in Ef. apply Ok_inj in Ef. subst fs. assert (M' : map_res (space_funs N H c i g) spaces = Ok (map (map (kview i g)) l)); [|rewrite M'; cbn [bind]; rewrite concat_map; reflexivity].
    revert M. apply map_res_view. intros b fs X. unfold space_funs in *. destruct (kedges H c) as [es|]; [|discriminate]. cbn [bind] in *. destruct (find_idx _ _ _) as [j|]; [|discriminate]. cbn [bind] in *. revert X. apply map_res_view. intros k u X. destruct (geti (sp_edge b) k) as [p|]; [|discriminate]. cbn [bind] in *. destruct (edge_trace es j p) as [t|]; [|discriminate]. cbn [bind] in *. destruct (geti (sp_ekeys b) k) as [key|]; [|discriminate]. cbn [bind] in *. exact (K _ _ _ _ X). }
  rewrite Eb', Ev', Ef'. cbn [bind]. unfold lview. cbn [l_deg l_vert l_edge l_bubb l_nums l_centroid l_area]. rewrite !map_length. reflexivity.
Qed.

(** ** Interior points are not read *)
Section Int.
Variables (H : heap) (c : cell) (o : option (list pt)).
Lemma int_kedges : kedges H (put_int c o) = kedges H c.
Proof. reflexivity. Qed.
Lemma int_solver gmres s p : NystromModel.mk_solver gmres H (put_int c o) s p = NystromModel.mk_solver gmres H c s p.
Proof. reflexivity. Qed.
Lemma int_nyst gmres V : to_nyst gmres H (put_int c o) V = to_nyst gmres H c V.
Proof. reflexivity. Qed.
Lemma int_lpois N f t : mk_lpois N H (put_int c o) f t false false = mk_lpois N H c f t false false.
Proof. reflexivity. Qed.
Lemma int_row B l i : form_row B H (put_int c o) l i = form_row B H c l i.
Proof. reflexivity. Qed.
End Int.

(** ** A step *)
Lemma cell_int contains qd bv b X c X1 c1 : (b = true -> bv = true) -> param_cell contains qd bv X c = Ok (X1, c1) -> exists c0, param_cell contains qd b X c = Ok (X1, c0) /\ (c0 = c1 \/ b = false /\ c0 = put_int c1 (c_int c0)).
Proof.
  intros W E. destruct (Bool.bool_dec b bv) as [->|N]; [exists c1; auto|]. assert (b = false /\ bv = true) as [-> ->] by (destruct b, bv; try congruence; [discriminate (W eq_refl)|auto]).
  unfold param_cell in *. destruct (param_comps contains qd X (c_comps c)) as [[X2 ks]|]; [|discriminate]. cbn [bind] in *. destruct (cell_num_pts X2 _) as [c2|]; [|discriminate]. cbn [bind] in *. destruct (find_outer contains X2 c2) as [c3|]; [|discriminate]. cbn [bind] in *. destruct (cell_start_idx X2 c3) as [c4|]; [|discriminate]. cbn [bind] in *. destruct (cell_closest X2 c4) as [c5|]; [|discriminate]. cbn [bind] in *.
  destruct (interior_points contains X2 c5) as [c6|] eqn:I; [|discriminate]. cbn [bind] in E. apply Ok_inj in E. injection E as -> ->. exists c5. split; [reflexivity|]. right. split; [reflexivity|].
  unfold interior_points in I. destruct (c_mesh c5) eqn:M. repeat match type of I with bind ?r _ = _ => destruct r as [?x|]; [cbn [bind] in I|discriminate I] | (let '(_, _) := ?q in _) = _ => destruct q end. apply Ok_inj in I. subst c6. destruct c5. cbn in *. subst. reflexivity.
Qed.
Section Run.
Variable contains : R -> list pt -> pt -> bool.
Variable low_rank : nat -> matrix -> matrix.
Variable gmres : (list R -> res (list R)) -> list R -> (list R -> res (list R)) -> res (list R).
Variable set_iter : list Z -> list Z.
Variable qd : quad * quad.
Variable B : bform.
Notation step := (run_step contains low_rank gmres set_iter qd B).
Notation local := (build_local contains low_rank gmres set_iter qd).
Notation run := (run_solver contains low_rank gmres set_iter qd B).

Lemma int_lspace H c o sp d : mk_lspace low_rank gmres set_iter H (put_int c o) sp d false false = mk_lspace low_rank gmres set_iter H c sp d false false.
Proof. reflexivity. Qed.
Lemma local_view X p all z iv gv i g X1 c L : weaker i g iv gv -> local X p all z iv gv = Ok (X1, c, L) -> exists c0, local X p all z i g = Ok (X1, c0, lview i g L) /\ forall l k, form_row B X1 c0 l k = form_row B X1 c l k.
Proof.
  intros W E. unfold build_local in *. destruct (get_cell X _ z) as [k|]; [|discriminate]. cbn [bind] in *. destruct (param_cell contains qd (orb iv gv) X k) as [[X2 c2]|] eqn:P; [|discriminate]. cbn [bind] in E.
  destruct (cell_int contains qd (orb iv gv) (orb i g) X k X2 c2) as (c0 & P0 & C0); [|exact P|]. { intros T. apply orb_true_iff in T. apply orb_true_iff. destruct W as [Wi Wg], T as [T|T]; auto. }
  rewrite P0. cbn [bind]. destruct (kedges X2 c2) as [es|] eqn:Ke; [|discriminate]. cbn [bind] in E. destruct (cell_spaces all es) as [sp|] eqn:Cs; [|discriminate]. cbn [bind] in E. destruct (mk_lspace _ _ _ X2 c2 _ _ iv gv) as [L2|] eqn:Ls; [|discriminate]. cbn [bind] in E. apply Ok_inj in E. injection E as -> -> ->.
  apply (lspace_view _ _ _ _ _ _ _ _ _ i g _ W) in Ls. destruct C0 as [->|[F C0]].
  - exists c2. rewrite Ke. cbn [bind]. rewrite Cs. cbn [bind]. rewrite Ls. auto.
  - apply orb_false_iff in F. destruct F as [-> ->]. exists c0. rewrite C0, int_kedges, Ke. cbn [bind]. rewrite Cs. cbn [bind]. rewrite int_lspace, Ls. split; [reflexivity|]. intros l k0. apply int_row.
Qed.
Lemma row_view H c i g l k : form_row B H c (map (kview i g) l) k = form_row B H c l k.
Proof.
  unfold form_row. rewrite geti_map, map_length. destruct (geti l k) as [v|]; [|reflexivity]. cbn [bind kview fst snd]. replace (AsmModel.eval_rhs B (view i g (snd v)) H c) with (AsmModel.eval_rhs B (snd v) H c) by reflexivity.
  destruct (AsmModel.eval_rhs B (snd v) H c); [|reflexivity]. cbn [bind]. destruct (glob (fst v)); [|reflexivity]. cbn [bind]. f_equal. generalize (seq k (List.length l - k)). intros js. induction js as [|j js IH]; [reflexivity|]. cbn [map_res]. rewrite geti_map, IH. destruct (geti l j); reflexivity.
Qed.
Lemma basis_view i g L : get_basis (lview i g L) = map (kview i g) (get_basis L).
Proof. unfold get_basis, lview. cbn [l_vert l_edge l_bubb]. rewrite !map_app. reflexivity. Qed.
Lemma hset_map {A D} (h : A -> D) l k x : map h (hset l k x) = hset (map h l) k (h x).
Proof. unfold hset. rewrite map_app, firstn_map. cbn [map]. rewrite skipn_map. reflexivity. Qed.

(** The state of a run as it would be with the flags [i] and [g] *)
Definition locals (i g : bool) (n : nat) (l : list (option (list lpois))) : list (option (list lpois)) := if i then map (option_map (map (view i g))) l else repeat None n.
Definition wview (i g : bool) (n : nat) (w : @work lpois) : @work lpois := Work (w_space w) (w_entries w) (w_rhs w) (locals i g n (w_local w)).
Lemma step_view all iv gv i g n X w k X1 w1 : weaker i g iv gv -> step all iv gv (X, w) k = Ok (X1, w1) -> step all i g (X, wview i g n w) k = Ok (X1, wview i g n w1).
Proof.
  intros W E. unfold run_step in *. cbn [wview w_space w_entries w_rhs w_local] in *. destruct (geti _ k) as [z|]; [|discriminate]. cbn [bind] in *. destruct (get_abs_cell_idx _ z) as [abs|]; [|discriminate]. cbn [bind] in *. destruct (local X _ all z iv gv) as [[[X2 c] L]|] eqn:El; [|discriminate]. cbn [bind] in E.
  destruct (local_view _ _ _ _ _ _ i g _ _ _ W El) as (c0 & El0 & Rw). rewrite El0. cbn [bind]. rewrite !basis_view. rewrite (map_map (kview i g) key_of). change (map (fun x => key_of (kview i g x)) (get_basis L)) with (map key_of (get_basis L)). destruct (register X2 _ _ _) as [r|]; [|discriminate]. cbn [bind] in *.
  rewrite (map_map (kview i g) snd). change (map (fun x => snd (kview i g x)) (get_basis L)) with (map (fun x => view i g (snd x)) (get_basis L)). rewrite <- (map_map snd (view i g)), combine_map_r. change (fun x : gkey * lpois => (fst x, view i g (snd x))) with (kview i g).
  match goal with |- bind (map_res ?f ?js) _ = _ => replace (map_res f js) with (map_res (form_row B X2 c (combine (snd r) (map snd (get_basis L)))) js) end.
  2:{ match goal with |- map_res _ ?l = _ => generalize l end. intros js. induction js as [|j js IH]; [reflexivity|]. cbn [map_res]. rewrite IH, Rw, row_view. reflexivity. }
  cbn [lview l_nums]. destruct (map_res _ _) as [rows|]; [|discriminate]. cbn [bind] in *. apply Ok_inj in E. injection E as -> ->. cbn [w_space w_entries w_rhs w_local]. unfold wview, locals. cbn [w_space w_entries w_rhs w_local]. destruct i; [|reflexivity]. rewrite (proj1 W eq_refl), hset_map. reflexivity.
Qed.
Lemma fold_view all iv gv i g n ks : weaker i g iv gv -> forall X w X1 w1, fold_res (step all iv gv) ks (X, w) = Ok (X1, w1) -> fold_res (step all i g) ks (X, wview i g n w) = Ok (X1, wview i g n w1).
Proof.
  intros W. induction ks as [|k ks IH]; intros X w X1 w1 E; [apply Ok_inj in E; injection E as -> ->; reflexivity|]. cbn [fold_res] in *. destruct (step all iv gv (X, w) k) as [[X2 w2]|] eqn:Es; [|discriminate]. cbn [bind] in E. rewrite (step_view _ _ _ _ _ n _ _ _ _ _ W Es). cbn [bind]. exact (IH _ _ _ _ E).
Qed.
Lemma run_view X p all iv gv i g X1 v : weaker i g iv gv -> run X p all iv gv = Ok (X1, v) ->
  run X p all i g = Ok (X1, Solv (v_space v) (v_entries v) (v_rhs v) (v_num v) (locals i g (Z.to_nat (m_ncells (p_mesh p))) (v_local v)) (v_soln v)).
Proof.
  intros W E. unfold run_solver in *. cbv zeta in *. set (n := Z.to_nat (m_ncells (p_mesh p))) in *. destruct (fold_res _ _ _) as [[X2 w]|] eqn:F; [|discriminate]. cbn [bind] in E. apply (fold_view _ _ _ i g n _ W) in F. unfold wview at 1 in F. cbn [w_space w_entries w_rhs w_local] in F.
  assert (L : locals i g n (repeat None n) = repeat None n). { unfold locals. destruct i; [|reflexivity]. clear. induction n as [|n IH]; [reflexivity|]. cbn [repeat map option_map]. rewrite IH. reflexivity. }
  rewrite L in F. rewrite F. cbn [bind wview w_space w_entries w_rhs w_local]. destruct (impose_bc _ _) as [sys|]; [|discriminate]. cbn [bind] in *. repeat match type of E with context [check_indices ?a ?b] => destruct (check_indices a b); [cbn [bind] in *|discriminate] end. apply Ok_inj in E. injection E as -> ->. reflexivity.
Qed.
End Run.
