(** C66: plots of global functions. *)
From Coq Require Import List ZArith Reals Lia Lra Bool String Ascii Permutation.
From Verif Require Import PyBase PolyModel BaryModel QuadModel VertModel EdgeModel EdgeSpec EdgeProps2 EdgeProps4 ContourModel CellModel CellSpec CellProofs CellProps ContourProofs2 ContourProofs4 MeshModel MeshSpec MeshProofs MeshProps CellProps2 TraceModel LocalModel LocalProofs2 NystromModel EdgeSpaceModel GlobModel GlobProofs GlobProps SolverModel SolverProofs LocSpaceModel LocSpaceProofs2 LocSpaceProps4 AsmModel AsmSpec AsmProofs AsmProofs2 AsmProofs3 AsmProps AsmProps3 EdgeProps EdgeProps3 PolySpec Annulus DiscCell TriCell NystromSpec SolverSpec CellProps3 LocSpaceSpec LocSpaceProps5 PlotModel PlotSpec PlotProps.
Import List ListNotations.
Open Scope R_scope.

(** ** Coefficients *)
(** An array of the right length is taken as it is, another is rejected; without one, the plot takes
    the solution, and raises if there is none. *)
Theorem C66_coefficients soln num coef :
  (forall c, coef = Some c -> set_coefficients soln num coef = if Z.eqb (Z.of_nat (List.length c)) num then Ok c else Err ValueError) /\
  (coef = None -> soln = None -> set_coefficients soln num coef = Err AttributeError) /\
  (forall x, coef = None -> soln = Some x -> set_coefficients soln num coef = if Z.eqb (Z.of_nat (List.length x)) num then Ok x else Err ValueError).
Proof. split; [|split]; [intros c ->|intros -> ->|intros x -> ->]; reflexivity. Qed.
Print Assumptions C66_coefficients.

(** ** Ranges *)
Definition spans (ls : list (list R)) (r : range) : Prop := match r with None => ls = [] | Some (a, b) => encloses ls a b end.
Lemma range_ok l ls r : l <> [] -> spans ls r -> exists r', range_on_cell (Some l) r = Ok r' /\ spans (ls ++ [l]) r' /\ r' <> None.
Proof.
  intros Ne Sp. unfold range_on_cell. destruct (pymin_ok l Ne) as (a & -> & Ia & Ba). destruct (pymax_ok l Ne) as (b & -> & Ib & Bb). cbn [bind]. eexists. split; [reflexivity|]. split; [|discriminate]. destruct r as [[x y]|]; cbn [spans] in *.
  - destruct Sp as (A & (l1 & I1 & J1) & (l2 & I2 & J2)). split; [|split].
    + intros k z Ik Iz. apply in_app_or in Ik. pose proof (Rmin_l x a). pose proof (Rmin_r x a). pose proof (Rmax_l y b). pose proof (Rmax_r y b). destruct Ik as [Ik|[<-|[]]]; [specialize (A k z Ik Iz)|specialize (Ba z Iz); specialize (Bb z Iz)]; lra.
    + unfold Rmin. destruct (Rle_dec x a); [exists l1|exists l]; (split; [apply in_or_app; cbn; auto|assumption]).
    + unfold Rmax. destruct (Rle_dec y b); [exists l|exists l2]; (split; [apply in_or_app; cbn; auto|assumption]).
  - subst ls. cbn [app]. split; [|split]; [intros k z [<-|[]] Iz; specialize (Ba z Iz); specialize (Bb z Iz); lra|exists l; cbn; auto|exists l; cbn; auto].
Qed.
(** The values of a plotted function *)
Definition carries_plot (u : lpois) (v a b : list R) : Prop := u_vals u = Some v /\ u_g1 u = Some a /\ u_g2 u = Some b /\ v <> [] /\ a <> [] /\ List.length a = List.length b.
Lemma norms_ne a b : a <> [] -> List.length a = List.length b -> grad_norms a b <> [].
Proof. destruct a as [|x a], b as [|y b]; try discriminate; congruence. Qed.
Lemma cell_step_ok st u v a b vs g1 g2 ns : carries_plot u v a b -> spans vs (gp_range st) -> spans g1 (gp_range1 st) -> spans g2 (gp_range2 st) -> spans ns (gp_norm st) ->
  exists st', plot_cell st u = Ok st' /\ gp_funs st' = gp_funs st ++ [u] /\ spans (vs ++ [v]) (gp_range st') /\ spans (g1 ++ [a]) (gp_range1 st') /\ spans (g2 ++ [b]) (gp_range2 st') /\ spans (ns ++ [grad_norms a b]) (gp_norm st').
Proof.
  intros (Ev & Ea & Eb & Nv & Na & L) S0 S1 S2 S3. assert (Nb : b <> []) by (destruct a, b; discriminate || congruence). unfold plot_cell. rewrite Ev, Ea, Eb.
  destruct (range_ok v vs _ Nv S0) as (r & -> & T0 & _). destruct (range_ok a g1 _ Na S1) as (r1 & -> & T1 & _). destruct (range_ok b g2 _ Nb S2) as (r2 & -> & T2 & _). destruct (range_ok _ ns _ (norms_ne a b Na L) S3) as (r3 & E3 & T3 & _). cbn [bind]. rewrite L, Nat.eqb_refl, E3. cbn [bind]. eexists. split; [reflexivity|]. auto.
Qed.
Record drawn : Type := Drawn { dr_fun : lpois; dr_vals : list R; dr_g1 : list R; dr_g2 : list R }.
Lemma build_gen (combo : Z -> res lpois) cells : forall ds, Forall2 (fun z d => combo z = Ok (dr_fun d) /\ carries_plot (dr_fun d) (dr_vals d) (dr_g1 d) (dr_g2 d)) cells ds -> forall st vs g1 g2 ns,
  spans vs (gp_range st) -> spans g1 (gp_range1 st) -> spans g2 (gp_range2 st) -> spans ns (gp_norm st) ->
  exists st', fold_res (fun st z => do u <- combo z; plot_cell st u) cells st = Ok st' /\ gp_funs st' = gp_funs st ++ map dr_fun ds /\ spans (vs ++ map dr_vals ds) (gp_range st') /\ spans (g1 ++ map dr_g1 ds) (gp_range1 st') /\ spans (g2 ++ map dr_g2 ds) (gp_range2 st') /\ spans (ns ++ map (fun d => grad_norms (dr_g1 d) (dr_g2 d)) ds) (gp_norm st').
Proof.
  induction 1 as [|z d cells ds [Ez Cd] F IH]; intros st vs g1 g2 ns S0 S1 S2 S3; cbn [fold_res map].
  - exists st. rewrite !app_nil_r. auto 10.
  - rewrite Ez. cbn [bind]. destruct (cell_step_ok st _ _ _ _ vs g1 g2 ns Cd S0 S1 S2 S3) as (st1 & -> & Ef & T0 & T1 & T2 & T3). cbn [bind]. destruct (IH st1 _ _ _ _ T0 T1 T2 T3) as (st' & E & F' & U0 & U1 & U2 & U3). exists st'. split; [exact E|]. rewrite F', Ef, <- !app_assoc in *. cbn [app] in *. auto 10.
Qed.
(** If every cell has values and gradients, the plot holds one function per cell, in the order of
    the cells; each range is the smallest interval with the values of all cells. *)
Theorem C66_ranges combo cells ds : cells <> [] -> Forall2 (fun z d => combo z = Ok (dr_fun d) /\ carries_plot (dr_fun d) (dr_vals d) (dr_g1 d) (dr_g2 d)) cells ds ->
  exists st r r1 r2 n, build_global combo cells = Ok st /\ gp_funs st = map dr_fun ds /\
  color_range st "values" = Ok (Some r) /\ encloses (map dr_vals ds) (fst r) (snd r) /\
  color_range st "grad_x1" = Ok (Some r1) /\ encloses (map dr_g1 ds) (fst r1) (snd r1) /\
  color_range st "grad_x2" = Ok (Some r2) /\ encloses (map dr_g2 ds) (fst r2) (snd r2) /\
  color_range st "grad_norm" = Ok (Some n) /\ encloses (map (fun d => map (fun z => sqrt (fst z ^ 2 + snd z ^ 2)) (combine (dr_g1 d) (dr_g2 d))) ds) (fst n) (snd n).
Proof.
  intros Ne F. destruct (build_gen combo cells ds F (GPlot [] None None None None) [] [] [] [] eq_refl eq_refl eq_refl eq_refl) as (st & E & Ef & S0 & S1 & S2 & S3). cbn [app gp_funs] in *. assert (Nd : ds <> []) by (intros ->; inversion F; subst; congruence).
  exists st. unfold color_range. cbn [String.eqb Ascii.eqb Bool.eqb]. destruct (gp_range st) as [r|]; [|destruct ds; [congruence|discriminate]]. destruct (gp_range1 st) as [r1|]; [|destruct ds; [congruence|discriminate]]. destruct (gp_range2 st) as [r2|]; [|destruct ds; [congruence|discriminate]]. destruct (gp_norm st) as [n|]; [|destruct ds; [congruence|discriminate]].
  exists r, r1, r2, n. split; [exact E|]. split; [exact Ef|]. destruct r, r1, r2, n. auto 12.
Qed.
Print Assumptions C66_ranges.
(** A cell whose function has no interior values, or no gradient, stops the plot; no other kind of
    plot is known. *)
Theorem C66_missing combo z cells ds zs u : Forall2 (fun z d => combo z = Ok (dr_fun d) /\ carries_plot (dr_fun d) (dr_vals d) (dr_g1 d) (dr_g2 d)) cells ds -> combo z = Ok u -> u_vals u = None \/ u_g1 u = None \/ u_g2 u = None -> (forall l, u_vals u = Some l \/ u_g1 u = Some l -> l <> []) ->
  build_global combo (cells ++ z :: zs) = Err ValueError.
Proof.
  intros F Ez M Ne. destruct (build_gen combo cells ds F (GPlot [] None None None None) [] [] [] [] eq_refl eq_refl eq_refl eq_refl) as (st & E & _). unfold build_global.
  assert (App : forall (f : gplot -> Z -> res gplot) l1 l2 s, fold_res f (l1 ++ l2) s = do s <- fold_res f l1 s; fold_res f l2 s). { intros f l1 l2. induction l1 as [|x l1 IH]; intros s; [reflexivity|]. cbn [fold_res app]. destruct (f s x); [cbn [bind]; apply IH|reflexivity]. }
  rewrite App, E. cbn [bind fold_res]. rewrite Ez. cbn [bind]. unfold plot_cell. destruct (u_vals u) as [[|x v]|]; [destruct (Ne [] (or_introl eq_refl) eq_refl)| |reflexivity]. cbn [range_on_cell pymin pymax bind]. destruct (u_g1 u) as [[|y a]|]; [destruct (Ne [] (or_intror eq_refl) eq_refl)| |reflexivity]. cbn [range_on_cell pymin pymax bind]. destruct (u_g2 u) as [b|]; [destruct M as [?|[?|?]]; discriminate|reflexivity].
Qed.
Print Assumptions C66_missing.
Theorem C66_kinds st s : (forall r, color_range st s <> Ok r) <-> s <> "values"%string /\ s <> "grad_x1"%string /\ s <> "grad_x2"%string /\ s <> "grad_norm"%string.
Proof.
  unfold color_range. destruct (String.eqb_spec s "values"), (String.eqb_spec s "grad_x1"), (String.eqb_spec s "grad_x2"), (String.eqb_spec s "grad_norm"); split; try (intros X; exfalso; eapply X; reflexivity); try tauto; intros _; try discriminate; repeat split; assumption.
Qed.
Print Assumptions C66_kinds.

(** ** What a run leaves behind *)
Section Window.
Variable contains : R -> list pt -> pt -> bool.
Variable low_rank : nat -> matrix -> matrix.
Variable gmres : (list R -> res (list R)) -> list R -> (list R -> res (list R)) -> res (list R).
Variable set_iter : list Z -> list Z.
Variable qd : quad * quad.
Variable n : pyint.
Variable q : Z.
Hypothesis Q : get_quad_dict n q = Ok qd.

Lemma F2_left {A C} (P : A -> C -> Prop) l l' k a : Forall2 P l l' -> nth_error l k = Some a -> exists b, nth_error l' k = Some b /\ P a b.
Proof. intros F. revert k. induction F as [|x y l l' H F IH]; intros [|k] E; try discriminate; [injection E as ->; exists y; auto|apply IH, E]. Qed.
Lemma sorted_lt l : increasing l -> forall i j a b, (i < j)%nat -> nth_error l i = Some a -> nth_error l j = Some b -> (a < b)%Z.
Proof.
  intros S. induction S as [|x l S IH F]; intros i j a b L Ea Eb; [destruct i; discriminate|]. destruct j as [|j]; [lia|]. cbn in Eb. destruct i as [|i]; [injection Ea as ->; rewrite Forall_forall in F; apply F, (nth_error_In _ _ Eb)|]. apply (IH i j); [lia|exact Ea|exact Eb].
Qed.
Lemma deparam_cells e : e_pos (deparameterize e) = e_pos e /\ e_neg (deparameterize e) = e_neg e.
Proof. split; reflexivity. Qed.
(** A cell samples its edges along its own direction, and no others. *)
Theorem C66_cell_edges H0 is H m X z c b X' c' : Forall new_edge H -> mk_mesh H0 is = Ok (H, m) -> map deparameterize X = H -> get_cell X m z = Ok c -> param_cell contains qd b X c = Ok (X', c') ->
  map deparameterize X' = H /\ forall j e, In j (m_edges m) -> nth_error H j = Some e ->
    (borders z e -> exists e1, parameterize qd e = Ok e1 /\ nth_error X' j = Some (along z e e1)) /\ (~ borders z e -> nth_error X' j = nth_error X j).
Proof.
  intros Nw M Dx Gc P. destruct (get_cell_built _ _ _ _ Gc) as (ids0 & Mk0 & _). pose proof (built_wf _ _ _ _ _ _ _ Mk0) as W. clear ids0 Mk0. assert (Nk : Forall new_edge (map deparameterize X)) by (rewrite Dx; exact Nw).
  destruct (cell_bare contains n q qd b X c X' c' Q W Nk P) as [Kb _]. split; [rewrite Kb; exact Dx|]. destruct (C44_tables _ _ _ _ M) as (_ & _ & _ & _ & T & _). assert (Lx : List.length X = List.length H) by (rewrite <- Dx, map_length; reflexivity).
  assert (Fl : Forall (fun i => (i < List.length X)%nat) (m_edges m)). { apply Forall_forall. intros i I. apply In_nth_error in I. destruct I as (k & Ek). destruct (T k i Ek) as (e0 & _ & _ & E1). rewrite Lx. apply nth_error_Some. congruence. }
  destruct (C45_get_cell X m z Fl) as (Out & Inn). destruct (in_dec Z.eq_dec z (m_cells m)) as [Iz|Nz]; [|rewrite (Out Nz) in Gc; discriminate]. destruct (Inn Iz) as (ids & _ & Ids & Mk & Pm). specialize (Pm c Gc). rewrite Mk in Gc. destruct (C36_contours _ _ _ _ _ _ _ Gc) as (_ & _ & _ & _ & Fc).
  intros j e Ij Ej. assert (exists ex, nth_error X j = Some ex /\ deparameterize ex = e) as (ex & Ex & De). { rewrite <- Dx, nth_error_map in Ej. destruct (nth_error X j) as [ex|]; [|discriminate]. exists ex. split; [reflexivity|]. cbn in Ej. congruence. }
  assert (Bx : borders z ex <-> borders z e) by (subst e; reflexivity). split; intros Bz.
  - assert (Ic : In j (cell_edges c)) by (eapply Permutation_in; [symmetry; exact Pm|]; apply Ids; split; [exact Ij|]; exists ex; split; [exact Ex|apply Bx, Bz]).
    unfold cell_edges in Ic. apply in_concat in Ic. destruct Ic as (l & Il & Ic). apply in_map_iff in Il. destruct Il as (k & <- & Ik). apply In_nth_error in Ic. destruct Ic as (mm & Em). rewrite Forall_forall in Fc. destruct (Fc k Ik) as (_ & F2). destruct (F2_left _ _ _ mm j F2 Em) as (o & Eo & e0 & E0 & _ & So).
    destruct (param_edge contains n q qd b X c X' c' k mm j o Q W P Ik Em Eo) as (ey & e' & Ey & E' & (e1 & P1 & R1)). assert (ey = ex) by congruence. assert (e0 = ex) by congruence. subst ey e0. exists e1. rewrite param_bare, De in P1. split; [exact P1|]. rewrite E'. f_equal. subst e' o. unfold along. subst e. change (e_pos (deparameterize ex)) with (e_pos ex). rewrite (Z.eqb_sym (e_pos ex) z). destruct (Z.eqb z (e_pos ex)); reflexivity.
  - destruct (param_cell_ok contains (fun _ _ => True) (fun _ _ _ _ _ _ => Logic.I) qd n q b X c X' c' Q W P) as (ess & ess' & Pr). apply (p_frame _ _ _ _ _ _ _ _ _ Pr). intros I. apply (Permutation_in _ Pm), Ids in I. destruct I as (_ & ey & Ey & By). apply Bz, Bx. congruence.
Qed.

Variable B : bform.
(** The state of the edges after the first [k] cells: each is left as the last of its cells made it *)
Definition left_by (H : heap) (m : mesh) (k : nat) (X : heap) : Prop :=
  map deparameterize X = H /\ forall j e i z, In j (m_edges m) -> nth_error H j = Some e -> (i < k)%nat -> nth_error (m_cells m) i = Some z -> borders z e -> (forall i' z', (i < i' < k)%nat -> nth_error (m_cells m) i' = Some z' -> ~ borders z' e) ->
    exists e1, parameterize qd e = Ok e1 /\ nth_error X j = Some (along z e e1).
Lemma run_left H0 is (H : heap) m all interior gradient w0 : Forall new_edge H -> Forall settled H -> mk_mesh H0 is = Ok (H, m) -> p_mesh (w_space w0) = m -> forall k X w,
  fold_res (run_step contains low_rank gmres set_iter qd B all interior gradient) (seq 0 k) (H, w0) = Ok (X, w) -> left_by H m k X /\ p_mesh (w_space w) = m.
Proof.
  intros Nw St M Pm0. destruct (C44_tables _ _ _ _ M) as (_ & _ & _ & _ & _ & _ & Ic & _). induction k as [|k IH]; intros X w E.
  - cbn in E. apply Ok_inj in E. injection E as -> ->. split; [|exact Pm0]. split; [|intros; lia]. rewrite <- (map_id H) at 2. apply map_ext_in. intros e Ie. apply new_bare. rewrite Forall_forall in Nw. apply Nw, Ie.
  - rewrite seq_S, fold_res_snoc in E. destruct (fold_res (run_step contains low_rank gmres set_iter qd B all interior gradient) (seq 0 k) (H, w0)) as [[X3 w3]|] eqn:E3; [|discriminate]. cbn [bind] in E. destruct (IH X3 w3 eq_refl) as ((Dx & L) & Pm). change (0 + k)%nat with k in E. clear E3 IH.
    unfold run_step in E. rewrite Pm in E. unfold geti at 1 in E. destruct (nth_error (m_cells m) k) as [z|] eqn:Ez; [|discriminate]. cbn [bind] in E. unfold get_abs_cell_idx in E. rewrite (index_of_nth _ (increasing_nodup _ Ic) _ _ Ez) in E. cbn [bind] in E.
    destruct (build_local contains low_rank gmres set_iter qd X3 (w_space w3) all z interior gradient) as [[[H1 c] L1]|] eqn:EL; [|discriminate]. cbn [bind] in E. destruct (register H1 (w_space w3) _ _) as [r|] eqn:Er; [|discriminate]. cbn [bind] in E.
    match type of E with bind (map_res ?F ?S) _ = _ => destruct (map_res F S) as [rows|] eqn:Ew; [|discriminate] end. cbn [bind] in E. apply Ok_inj in E. injection E as -> ->. cbn [w_space]. split; [|rewrite (proj1 (register_mesh _ _ _ _ _ Er)); exact Pm].
    destruct (build_inv _ _ _ _ _ _ _ _ _ _ _ _ _ _ EL) as (c0 & es & sp & G & P & _). rewrite Pm in G. destruct (C66_cell_edges H0 is H m X3 z c0 _ H1 c Nw M Dx G P) as (D' & Ed). split; [exact D'|].
    intros j e i zi Ij Ej Li Ezi Bi Lst. destruct (Ed j e Ij Ej) as (E1 & E2). destruct (Nat.eq_dec i k) as [->|Ni]; [assert (zi = z) by congruence; subst zi; apply E1, Bi|].
    rewrite E2 by (apply (Lst k z); [lia|exact Ez]). apply (L j e i zi Ij Ej); [lia|exact Ezi|exact Bi|]. intros i' z' Li' Ei'. apply (Lst i' z'); [lia|exact Ei'].
Qed.
(** After a run each edge of the mesh is sampled along the last of its cells, that is the one with the
    larger number. *)
Theorem C66_final H0 is deg interior gradient H2 v : Forall new_edge H0 -> script contains low_rank gmres set_iter qd B H0 is deg interior gradient = Ok (H2, v) ->
  exists H m, mk_mesh H0 is = Ok (H, m) /\ p_mesh (v_space v) = m /\ map deparameterize H2 = H /\
  forall j e, In j (m_edges m) -> nth_error H j = Some e -> exists e1, parameterize qd e = Ok e1 /\ nth_error H2 j = Some (if Z.ltb (e_pos e) (e_neg e) then reverse_orientation e1 else e1).
Proof.
  intros Nw E. unfold script in E. destruct (mk_mesh H0 is) as [[H m]|] eqn:M; [|discriminate]. cbn [bind] in E. pose proof (mesh_new _ _ _ _ Nw M) as Nm. destruct (mk_gfs low_rank qd H m deg) as [[[H1 p] all]|] eqn:G; [|discriminate]. cbn [bind] in E.
  assert (Sp : H1 = H /\ p_mesh p = m). { unfold mk_gfs in G. destruct (set_deg deg) as [d|] eqn:Ed; [|discriminate]. cbn [bind] in G. destruct (build_edge_spaces low_rank qd H (m_edges m) (PInt d)) as [[H3 all3]|] eqn:Es; [|discriminate]. cbn [bind] in G. destruct (mk_space _ _ _) as [p3|] eqn:Ep; [|discriminate]. cbn [bind] in G. apply Ok_inj in G. injection G as -> -> ->. destruct (spaces_new _ _ _ _ _ _ Q _ _ _ _ Nm Es) as (-> & _). split; [reflexivity|]. destruct (mk_space_fields _ _ _ _ Ep) as (d' & _ & _ & Pm & _). exact Pm. }
  destruct Sp as [-> Pm]. destruct (C44_tables _ _ _ _ M) as (_ & _ & _ & _ & T & _ & Ic & Cl & _ & _ & Nc & _). unfold run_solver in E. cbv zeta in E. rewrite Pm, Nc, Nat2Z.id in E.
  destruct (fold_res _ (seq 0 (List.length (m_cells m))) _) as [[H4 w]|] eqn:Ef; [|discriminate]. cbn [bind] in E. destruct (run_left H0 is H m all interior gradient (Work p [] [] (repeat None (List.length (m_cells m)))) Nm (proj2 (Forall_forall _ _) (fun e I => new_settled e (proj1 (Forall_forall _ _) Nm e I))) M Pm _ _ _ Ef) as ((D & L) & Pw).
  destruct (impose_bc (w_space w) (w_entries w, w_rhs w)) as [sys|]; [|discriminate]. cbn [bind] in *. destruct (check_indices _ (map fst (snd sys))); [|discriminate]. cbn [bind] in *. destruct (check_indices _ (map t_row (fst sys))); [|discriminate]. cbn [bind] in *. destruct (check_indices _ (map t_col (fst sys))); [|discriminate]. cbn [bind] in *. apply Ok_inj in E. injection E as -> ->.
  exists H, m. split; [reflexivity|]. split; [exact Pw|]. split; [exact D|]. intros j e Ij Ej. pose proof Ij as Ij'. apply In_nth_error in Ij. destruct Ij as (k & Ek). destruct (T k j Ek) as (e0 & E0 & Em & E1). assert (e = with_idx e0 (Some (Z.of_nat k))) by congruence.
  assert (Pe : e_pos e = e_pos e0) by (subst e; reflexivity). assert (Ne : e_neg e = e_neg e0) by (subst e; reflexivity). set (z := Z.max (e_pos e) (e_neg e)). assert (Iz : In z (m_cells m)). { apply Cl. split; [unfold embedded in Em; lia|]. exists j, e0. split; [destruct (C44_tables _ _ _ _ M) as (_ & _ & I2 & _); apply I2, Ij'|]. split; [exact E0|]. unfold borders. lia. }
  apply In_nth_error in Iz. destruct Iz as (i & Ei). destruct (L j e i z Ij' Ej) as (e1 & P1 & X1).
  - apply nth_error_Some. congruence.
  - exact Ei.
  - unfold borders. lia.
  - intros i' z' Li Ei' Bz. assert (z < z')%Z by (eapply sorted_lt; [exact Ic| |exact Ei|exact Ei']; lia). unfold borders in Bz. lia.
  - exists e1. split; [exact P1|]. rewrite X1. f_equal. unfold along. destruct (Z.ltb_spec (e_pos e) (e_neg e)); destruct (Z.eqb_spec (e_pos e) z); try reflexivity; lia.
Qed.
(** So the window of the plot of a solution can be computed, and holds every edge. *)
Theorem C66_window H0 is deg interior gradient H2 v pad : Forall new_edge H0 -> is <> [] -> script contains low_rank gmres set_iter qd B H0 is deg interior gradient = Ok (H2, v) ->
  exists es x0 x1 y0 y1, map_res (deref H2) (m_edges (p_mesh (v_space v))) = Ok es /\ get_axis_limits es pad = Ok (Lims (Some x0) (Some x1) (Some y0) (Some y1)) /\ forall z, sampled es z -> x0 <= fst z <= x1 /\ y0 <= snd z <= y1.
Proof.
  intros Nw Ni E. destruct (C66_final H0 is deg interior gradient H2 v Nw E) as (H & m & M & Pv & D & F). rewrite Pv. destruct (C44_tables _ _ _ _ M) as (_ & _ & I & _ & T & _).
  assert (X : exists es, map_res (deref H2) (m_edges m) = Ok es /\ Forall drawable es /\ List.length es = List.length (m_edges m)).
  { assert (A : forall j, In j (m_edges m) -> exists e, nth_error H2 j = Some e /\ drawable e).
    { intros j Ij. pose proof Ij as Ij'. apply In_nth_error in Ij'. destruct Ij' as (k & Ek). destruct (T k j Ek) as (e0 & _ & _ & Ej). destruct (F j _ Ij Ej) as (e1 & P1 & E2). destruct (C33_well_sampled n q qd _ e1 Q P1) as (W1 & W2 & _). eexists. split; [exact E2|]. assert (W : forall e, well_sampled e -> drawable e) by (intros e (A1 & A2 & A3 & _); split; [exact A1|intros Z0; rewrite Z0 in A2; cbn in A2; lia]). destruct (Z.ltb _ _); apply W; assumption. }
    clear -A. induction (m_edges m) as [|j l IH]; [exists []; auto|]. destruct (A j (or_introl eq_refl)) as (e & Ej & De). destruct IH as (es & Es & Fs & Ls); [intros i Ii; apply A; right; exact Ii|]. exists (e :: es). cbn [map_res]. unfold deref at 1. rewrite Ej. cbn [bind]. rewrite Es. cbn [bind List.length]. auto. }
  destruct X as (es & Es & Fd & Ls). assert (Ne : es <> []). { intros ->. destruct is as [|i is]; [congruence|]. destruct (m_edges m) as [|x l] eqn:Em; [|discriminate]. apply (proj2 (I i)). left. reflexivity. }
  destruct (C65_limits es pad Ne Fd) as (a & b & c & d & _ & _ & Lm). cbv zeta in Lm. destruct (C65_contains es pad _ Ne Fd Lm) as (x0 & x1 & y0 & y1 & Eb & Cn). exists es, x0, x1, y0, y1. split; [exact Es|]. split; [rewrite Lm, Eb; reflexivity|exact Cn].
Qed.
(** An edge between two cells is left along the second. The first, which still holds functions and
    their normal derivatives, finds it reversed. *)
Theorem C66_stale H0 is deg interior gradient H2 v : Forall new_edge H0 -> script contains low_rank gmres set_iter qd B H0 is deg interior gradient = Ok (H2, v) ->
  exists H m, mk_mesh H0 is = Ok (H, m) /\ forall j e z X c b X' c', In j (m_edges m) -> nth_error H j = Some e -> borders z e -> (z < Z.max (e_pos e) (e_neg e))%Z -> map deparameterize X = H -> get_cell X m z = Ok c -> param_cell contains qd b X c = Ok (X', c') ->
    exists e1, nth_error X' j = Some e1 /\ nth_error H2 j = Some (reverse_orientation e1) /\ well_sampled e1.
Proof.
  intros Nw E. destruct (C66_final H0 is deg interior gradient H2 v Nw E) as (H & m & M & _ & D & F). exists H, m. split; [exact M|]. intros j e z X c b X' c' Ij Ej Bz Lt Dx G P. destruct (C66_cell_edges H0 is H m X z c b X' c' (mesh_new _ _ _ _ Nw M) M Dx G P) as (_ & Ed). destruct (Ed j e Ij Ej) as (E1 & _). destruct (E1 Bz) as (e1 & P1 & X1). destruct (F j e Ij Ej) as (e2 & P2 & X2). assert (e2 = e1) by congruence. subst e2. destruct (C33_well_sampled n q qd e e1 Q P1) as (W1 & W2 & _).
  unfold along in X1. unfold borders in Bz. destruct (Z.eqb_spec (e_pos e) z); destruct (Z.ltb_spec (e_pos e) (e_neg e)); try lia; eexists; (split; [exact X1|]); (split; [|assumption]); [exact X2|rewrite C27_involution; exact X2].
Qed.
End Window.
Print Assumptions C66_cell_edges.
Print Assumptions C66_final.
Print Assumptions C66_window.
Print Assumptions C66_stale.
(** Two cells: the annulus between two circles, then the disc inside it. Sampling the disc turns the
    edge that they share. *)
Theorem C66_stale_refuted : exists c1 c2 H1 c1' H2 c2' e1, mk_cell rings 1 [0; 1]%nat (5, 5)%Z 1 1 = Ok c1 /\ mk_cell rings 2 [0]%nat (5, 5)%Z 1 1 = Ok c2 /\
  param_cell disc dict4 false rings c1 = Ok (H1, c1') /\ param_cell disc dict4 false H1 c2 = Ok (H2, c2') /\ In 0%nat (cell_edges c1') /\
  nth_error H1 0 = Some e1 /\ nth_error H2 0 = Some (reverse_orientation e1) /\ reverse_orientation e1 <> e1.
Proof.
  pose proof (ring_cell_inner (5, 5)%Z 1 ltac:(lra)) as B1. pose proof (disc_cell (5, 5)%Z 1 ltac:(lra)) as B2. set (c1 := made 1 _ _ _ _) in B1. set (c2 := made 2 _ _ _ _) in B2.
  assert (C1 : circles c1) by (exists 1%Z, [-1; 1]%Z, (5, 5)%Z, 1; left; reflexivity). assert (C2 : circles c2) by (exists 2%Z, [1]%Z, (5, 5)%Z, 1; right; right; reflexivity).
  destruct (circles_param rings c1 rings_like C1) as (H1 & c1' & P1). pose proof (circles_wf _ C1) as W1. pose proof (circles_wf _ C2) as W2.
  destruct (param_edge _ _ _ _ _ _ _ _ _ (unset 1 0 (-1)) O O (-1)%Z dict4_ok W1 P1 (or_introl eq_refl) eq_refl eq_refl) as (a0 & e0 & A0 & E0 & R0). cbn [rings nth_error] in A0. injection A0 as <-.
  destruct (param_edge _ _ _ _ _ _ _ _ _ (unset 1 1 1) O 1%nat 1%Z dict4_ok W1 P1 (or_intror (or_introl eq_refl)) eq_refl eq_refl) as (a1 & e1 & A1 & E1 & R1). cbn [rings nth_error] in A1. injection A1 as <-.
  assert (L : like_rings H1) by (exists e0, e1; split; [exact E0|]; split; [exact E1|]; split; [exact (like_after _ _ _ _ _ _ _ eq_refl R0)|exact (like_after _ _ _ _ _ _ _ eq_refl R1)]).
  destruct (circles_param H1 c2 L C2) as (H2 & c2' & P2). destruct (param_edge _ _ _ _ _ _ _ _ _ (unset 2 0 1) O O 1%Z dict4_ok W2 P2 (or_introl eq_refl) eq_refl eq_refl) as (b0 & f0 & G0 & F0 & S0). assert (b0 = e0) by congruence. subst b0.
  destruct R0 as (x & X & X'). cbn [Z.eqb Pos.eqb] in X'. destruct S0 as (y & Y & Y'). cbn [Z.eqb Pos.eqb] in Y'. subst f0. destruct (ring_again _ _ _ _ _ X) as (_ & Ag). rewrite <- X' in Ag. assert (y = x) by congruence. subst y.
  exists c1, c2, H1, c1', H2, c2', e0. split; [exact B1|]. split; [exact B2|]. split; [exact P1|]. split; [exact P2|]. split; [|split; [exact E0|split; [rewrite X', C27_involution; exact F0|]]].
  - destruct (param_cell_ok disc (fun _ _ => True) (fun _ _ _ _ _ _ => I) dict4 _ _ _ _ _ _ _ dict4_ok W1 P1) as (ess0 & ess' & Pr). pose proof (Permutation_map fst (p_edges _ _ _ _ _ _ _ _ _ Pr)) as PE. rewrite !map_map in PE. cbn [fst] in PE. unfold cell_edges. apply in_concat. exists [0%nat]. split; [|left; reflexivity]. eapply Permutation_in; [symmetry; exact PE|]. left. reflexivity.
  - rewrite X', C27_involution. intros Eq. destruct (unit_ring _ _ _ X) as (P & N & S). unfold reverse_orientation in Eq. rewrite P in Eq. pose proof (f_equal (fun e => nth 0 (map (fun s => snd (sT s)) (e_smp e)) 0) Eq) as Q. cbn [with_smp e_smp] in Q. rewrite S in Q. cbn [seq map rev app nth sT disc_smp snd] in Q. unfold angle in Q. cbn [INR] in Q. rewrite Rmult_0_l, cos_0 in Q. replace ((1 + 1 + 1 + 1 + 1 + 1 + 1 + 1) * (PI / 4)) with (2 * PI) in Q by field. unfold reverse_sample in Q. cbn [disc_smp sT snd] in Q. rewrite cos_2PI in Q. lra.
Qed.
Print Assumptions C66_stale_refuted.
(** Two cells with values 0, 2 and 3, 2: the colours span 0 to 3. *)
Example C66_example h p : let u z := LPois h p (Some [IZR z; 2]) (Some [0; 1]) (Some [1; 1]) in
  exists st r, build_global (fun z => Ok (u z)) [0; 3]%Z = Ok st /\ gp_funs st = [u 0%Z; u 3%Z] /\ color_range st "values" = Ok (Some r) /\ r = (0, 3).
Proof.
  intros u. destruct (C66_ranges (fun z => Ok (u z)) [0; 3]%Z [Drawn (u 0%Z) [0; 2] [0; 1] [1; 1]; Drawn (u 3%Z) [3; 2] [0; 1] [1; 1]]) as (st & r & r1 & r2 & n & E & F & C & T & _).
  - discriminate.
  - repeat constructor; cbn; try discriminate.
  - exists st, r. split; [exact E|]. split; [exact F|]. split; [exact C|]. destruct r as [a b]. cbn [fst snd] in T. destruct T as (A & (l & [<-|[<-|[]]] & I) & (l' & [<-|[<-|[]]] & J)); cbn [map dr_vals] in *; pose proof (A [0; 2] 0 ltac:(left; reflexivity) ltac:(cbn; auto)); pose proof (A [3; 2] 3 ltac:(right; left; reflexivity) ltac:(cbn; auto)); cbn in I, J; destruct I as [<-|[<-|[]]]; destruct J as [<-|[<-|[]]]; try (apply f_equal2; lra); exfalso; lra.
Qed.
(** The run on the triangle: its window exists. *)
Example C66_window_example low_rank gm set_iter B d pad : solves_sizes gm -> (forall l, Permutation (set_iter l) l) -> canonical (bf_rhs B) -> (1 <= d)%Z ->
  exists H2 v es b, script (in_tri 1) low_rank gm set_iter dict4 B (sides 1 0 1 2) [0; 1; 2]%nat (PInt d) false false = Ok (H2, v) /\ map_res (deref H2) (m_edges (p_mesh (v_space v))) = Ok es /\ get_axis_limits es pad = Ok b.
Proof.
  intros G Or Cn Hd. destruct (C64_example low_rank gm set_iter B d G Or Cn Hd) as (H2 & v & all & E & _). assert (Ni : [0; 1; 2]%nat <> []) by discriminate. destruct (C66_window _ _ _ _ _ _ _ dict4_ok B _ _ _ _ _ _ _ pad (proj2 (Forall_forall _ _) (sides_new 1 0 1 2 (Rle_refl 1))) Ni E) as (es & x0 & x1 & y0 & y1 & A & C & _). do 4 eexists. eauto.
Qed.
