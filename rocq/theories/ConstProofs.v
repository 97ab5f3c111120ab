(** Lemmas for C86: how a run depends on the bilinear form. *)
From Coq Require Import List ZArith Reals Lia Bool String.
From Verif Require Import PyBase PolyModel BaryModel QuadModel VertModel EdgeModel ContourModel CellModel MeshModel TraceModel LocalModel NystromModel EdgeSpaceModel GlobModel SolverModel LocSpaceModel AsmModel.
Import List ListNotations.
Open Scope R_scope.

(** The value of an entry that the form [B] gives *)
Definition formed (B : bform) (t : entry) : R := bf_diffusion B * t_stiff t + bf_reaction B * t_mass t.
Definition recalc (B : bform) (t : entry) : entry := Entry (t_row t) (t_col t) (formed B t) (t_stiff t) (t_mass t).
Definition on_entries {A} (f : entry -> entry) (r : A * list entry) : A * list entry := (fst r, map f (snd r)).
Definition wcalc (B : bform) (s : heap * @work lpois) : heap * @work lpois := let w := snd s in (fst s, Work (w_space w) (map (recalc B) (w_entries w)) (w_rhs w) (w_local w)).

Lemma map_res_after {A B D} (f : A -> res B) (f' : A -> res D) (h : B -> D) l : (forall a, f' a = bind (f a) (fun b => Ok (h b))) -> map_res f' l = bind (map_res f l) (fun r => Ok (map h r)).
Proof. intros E. induction l as [|a l IH]; [reflexivity|]. cbn [map_res]. rewrite E, IH. destruct (f a); [|reflexivity]. cbn [bind]. destruct (map_res f l); reflexivity. Qed.

(** ** The rows *)
Lemma values_calc B B' H c v w s : form_values B' H c v w s = bind (form_values B H c v w s) (fun es => Ok (map (recalc B') es)).
Proof. unfold form_values. destruct (eval_h1 _ _ H c); [|reflexivity]. cbn [bind]. destruct (eval_l2 _ _ H c); [|reflexivity]. cbn [bind]. destruct (glob (fst v)); [|reflexivity]. cbn [bind]. destruct (glob (fst w)); [|reflexivity]. cbn [bind]. destruct s; reflexivity. Qed.
Lemma inner_calc B B' H c l v i js : map_res (fun j => do w <- geti l j; form_values B' H c v w (Nat.ltb i j)) js = bind (map_res (fun j => do w <- geti l j; form_values B H c v w (Nat.ltb i j)) js) (fun r => Ok (map (map (recalc B')) r)).
Proof. apply map_res_after. intros j. destruct (geti l j); [|reflexivity]. cbn [bind]. apply values_calc. Qed.
Lemma row_calc B B' H c l i : bf_rhs B' = bf_rhs B -> form_row B' H c l i = bind (form_row B H c l i) (fun r => Ok (on_entries (recalc B') r)).
Proof.
  intros F. unfold form_row. destruct (geti l i) as [v|]; [|reflexivity]. cbn [bind]. replace (AsmModel.eval_rhs B' (snd v) H c) with (AsmModel.eval_rhs B (snd v) H c) by (unfold AsmModel.eval_rhs; rewrite F; reflexivity).
  destruct (AsmModel.eval_rhs B (snd v) H c); [|reflexivity]. cbn [bind]. destruct (glob (fst v)); [|reflexivity]. cbn [bind]. rewrite (inner_calc B B'). destruct (map_res _ _) as [es|]; [|reflexivity]. cbn [bind]. unfold on_entries. cbn [fst snd]. rewrite concat_map. reflexivity.
Qed.
(** Rows of forms that differ in the right-hand side *)
Definition same_place (x y : (Z * R) * list entry) : Prop := fst (fst y) = fst (fst x) /\ snd y = snd x.
Lemma row_load B B' H c l i r r' : bf_diffusion B' = bf_diffusion B -> bf_reaction B' = bf_reaction B -> form_row B H c l i = Ok r -> form_row B' H c l i = Ok r' -> same_place r r'.
Proof.
  intros D Rc. unfold form_row. destruct (geti l i) as [v|]; [|discriminate]. cbn [bind]. destruct (AsmModel.eval_rhs B (snd v) H c); [|discriminate]. destruct (AsmModel.eval_rhs B' (snd v) H c); [|discriminate]. cbn [bind]. destruct (glob (fst v)); [|discriminate]. cbn [bind].
  replace (map_res (fun j => do w <- geti l j; form_values B' H c v w (Nat.ltb i j))) with (map_res (fun j => do w <- geti l j; form_values B H c v w (Nat.ltb i j))) by (unfold form_values; rewrite D, Rc; reflexivity).
  destruct (map_res _ _) as [es|]; [|discriminate]. cbn [bind]. intros E E'. apply Ok_inj in E, E'. subst. split; reflexivity.
Qed.
Lemma rows_load B B' H c l js : bf_diffusion B' = bf_diffusion B -> bf_reaction B' = bf_reaction B -> forall r r', map_res (form_row B H c l) js = Ok r -> map_res (form_row B' H c l) js = Ok r' -> Forall2 same_place r r'.
Proof.
  intros D Rc. induction js as [|j js IH]; intros r r' E E'; [apply Ok_inj in E, E'; subst; constructor|]. cbn [map_res] in *. destruct (form_row B H c l j) eqn:F; [|discriminate]. destruct (form_row B' H c l j) eqn:F'; [|discriminate]. cbn [bind] in *.
  destruct (map_res (form_row B H c l) js); [|discriminate]. destruct (map_res (form_row B' H c l) js); [|discriminate]. cbn [bind] in *. apply Ok_inj in E, E'. subst. constructor; [exact (row_load _ _ _ _ _ _ _ _ D Rc F F')|apply IH; reflexivity].
Qed.

(** ** Boundary rows *)
Definition struck (zs : list Z) (i : Z) : bool := existsb (Z.eqb i) zs.
Definition strike (zs : list Z) (t : entry) : entry := if struck zs (t_row t) then Entry (t_row t) (t_col t) (if Z.eqb (t_col t) (t_row t) then 1 else 0) (t_stiff t) (t_mass t) else t.
Definition strike_rhs (zs : list Z) (t : Z * R) : Z * R := if struck zs (fst t) then (fst t, 0) else t.
Definition bdry_glob (k : gkey) : res (list Z) := do b <- on_boundary k; if b then do g <- glob k; Ok [g] else Ok [].
Lemma struck_app zs g i : struck (zs ++ [g]) i = orb (struck zs i) (Z.eqb i g).
Proof. unfold struck. rewrite existsb_app. cbn [existsb]. rewrite orb_false_r. reflexivity. Qed.
Lemma strike_more zs g es : zero_mat_row g (map (strike zs) es) = map (strike (zs ++ [g])) es.
Proof.
  unfold zero_mat_row. rewrite map_map. apply map_ext. intros [r c a h l]. unfold strike. cbn [t_row t_col t_stiff t_mass]. rewrite struck_app. destruct (struck zs r); cbn [orb t_row t_col t_stiff t_mass]; destruct (Z.eqb_spec r g) as [->|]; reflexivity.
Qed.
Lemma strike_rhs_more zs g rs : set_rhs_from_key g 0 (map (strike_rhs zs) rs) = map (strike_rhs (zs ++ [g])) rs.
Proof.
  unfold set_rhs_from_key. rewrite map_map. apply map_ext. intros [r a]. unfold strike_rhs. cbn [fst]. rewrite struck_app. destruct (struck zs r); cbn [orb fst]; destruct (Z.eqb r g); reflexivity.
Qed.
Lemma impose_strike ks : forall zs es rs, fold_res impose_key ks (map (strike zs) es, map (strike_rhs zs) rs) = bind (map_res bdry_glob ks) (fun l => Ok (map (strike (zs ++ concat l)) es, map (strike_rhs (zs ++ concat l)) rs)).
Proof.
  induction ks as [|k ks IH]; intros zs es rs; [cbn; rewrite app_nil_r; reflexivity|]. cbn [fold_res map_res]. unfold impose_key, bdry_glob at 1. destruct (on_boundary k) as [[|]|]; [| |reflexivity]; cbn [bind].
  - destruct (glob k) as [g|]; [|reflexivity]. cbn [bind fst snd]. rewrite strike_more, strike_rhs_more, IH. destruct (map_res bdry_glob ks) as [l|]; [|reflexivity]. cbn [bind concat app]. rewrite <- !app_assoc. reflexivity.
  - rewrite IH. destruct (map_res bdry_glob ks) as [l|]; reflexivity.
Qed.
Definition bdry_globs (p : gspace) : res (list Z) := do ls <- map_res (geti (p_dofs p)) (seq 0 (Z.to_nat (m_ncells (p_mesh p)))); do l <- map_res bdry_glob (concat ls); Ok (concat l).
Lemma impose_globs p es rs : impose_bc p (es, rs) = bind (bdry_globs p) (fun zs => Ok (map (strike zs) es, map (strike_rhs zs) rs)).
Proof.
  unfold impose_bc, bdry_globs. destruct (map_res (geti (p_dofs p)) _) as [ls|]; [|reflexivity]. cbn [bind]. pose proof (impose_strike (concat ls) [] es rs) as I. replace (map (strike []) es) with es in I by (symmetry; rewrite <- (map_id es) at 2; apply map_ext; reflexivity). replace (map (strike_rhs []) rs) with rs in I by (symmetry; rewrite <- (map_id rs) at 2; apply map_ext; intros []; reflexivity).
  rewrite I. destruct (map_res bdry_glob (concat ls)); reflexivity.
Qed.
Lemma map_res_In {A D} (f : A -> res D) l : forall r, map_res f l = Ok r -> forall y, In y r <-> exists x, In x l /\ f x = Ok y.
Proof.
  induction l as [|a l IH]; intros r E y; [apply Ok_inj in E; subst; split; [intros []|intros (? & [] & _)]|]. cbn [map_res] in E. destruct (f a) as [b|] eqn:F; [|discriminate]. cbn [bind] in E. destruct (map_res f l) as [r'|]; [|discriminate]. cbn [bind] in E. apply Ok_inj in E. subst r. split.
  - intros [<-|I]; [exists a; split; [left; reflexivity|exact F]|]. apply (IH r' eq_refl) in I. destruct I as (x & I & X). exists x. split; [right; exact I|exact X].
  - intros (x & [->|I] & X); [left; congruence|right]. apply (IH r' eq_refl). exists x. auto.
Qed.
Lemma globs_spec p zs : bdry_globs p = Ok zs -> forall i, struck zs i = true <-> exists c ks k, (c < Z.to_nat (m_ncells (p_mesh p)))%nat /\ nth_error (p_dofs p) c = Some ks /\ In k ks /\ g_glob k = Some i /\ g_bdry k = Some true.
Proof.
  unfold bdry_globs. destruct (map_res (geti (p_dofs p)) _) as [ls|] eqn:M; [|discriminate]. cbn [bind]. destruct (map_res bdry_glob _) as [l|] eqn:G; [|discriminate]. cbn [bind]. intros E i. apply Ok_inj in E. subst zs. unfold struck. rewrite existsb_exists. split.
  - intros (j & I & J). apply Z.eqb_eq in J. subst j. apply in_concat in I. destruct I as (g & I & J). apply (map_res_In _ _ _ G) in I. destruct I as (k & I & K). apply in_concat in I. destruct I as (ks & I & Ik). apply (map_res_In _ _ _ M) in I. destruct I as (c & I & C). apply in_seq in I.
    exists c, ks, k. split; [lia|]. split; [unfold geti in C; destruct (nth_error (p_dofs p) c); [apply Ok_inj in C; congruence|discriminate]|]. split; [exact Ik|]. unfold bdry_glob, on_boundary, glob in K. destruct (g_bdry k) as [[|]|]; [| |discriminate]; cbn [bind] in K; [|apply Ok_inj in K; subst; destruct J]. destruct (g_glob k); [|discriminate]. apply Ok_inj in K. subst g. destruct J as [->|[]]. auto.
  - intros (c & ks & k & C & D & I & K & Bk). exists i. split; [|apply Z.eqb_refl]. apply in_concat. exists [i]. split; [|left; reflexivity]. apply (map_res_In _ _ _ G). exists k. split; [|unfold bdry_glob, on_boundary, glob; rewrite Bk, K; reflexivity]. apply in_concat. exists ks. split; [|exact I]. apply (map_res_In _ _ _ M). exists c. split; [apply in_seq; lia|]. unfold geti. rewrite D. reflexivity.
Qed.
Lemma strike_rows zs es : map t_row (map (strike zs) es) = map t_row es.
Proof. rewrite map_map. apply map_ext. intros t. unfold strike. destruct (struck zs (t_row t)); reflexivity. Qed.
Lemma strike_cols zs es : map t_col (map (strike zs) es) = map t_col es.
Proof. rewrite map_map. apply map_ext. intros t. unfold strike. destruct (struck zs (t_row t)); reflexivity. Qed.
Lemma calc_rows B es : map t_row (map (recalc B) es) = map t_row es.
Proof. rewrite map_map. reflexivity. Qed.
Lemma calc_cols B es : map t_col (map (recalc B) es) = map t_col es.
Proof. rewrite map_map. reflexivity. Qed.
Lemma strike_idx zs (rs : list (Z * R)) : map fst (map (strike_rhs zs) rs) = map fst rs.
Proof. rewrite map_map. apply map_ext. intros t. unfold strike_rhs. destruct (struck zs (fst t)); reflexivity. Qed.

(** ** The run *)
Section Run.
Variable contains : R -> list pt -> pt -> bool.
Variable low_rank : nat -> matrix -> matrix.
Variable gmres : (list R -> res (list R)) -> list R -> (list R -> res (list R)) -> res (list R).
Variable set_iter : list Z -> list Z.
Variable qd : quad * quad.
Notation step := (run_step contains low_rank gmres set_iter qd).

Lemma step_calc B B' all iv gv s k : bf_rhs B' = bf_rhs B -> step B' all iv gv (wcalc B' s) k = bind (step B all iv gv s k) (fun r => Ok (wcalc B' r)).
Proof.
  intros F. destruct s as [X w]. unfold run_step, wcalc. cbn [fst snd w_space w_entries w_rhs w_local]. destruct (geti _ k) as [z|]; [|reflexivity]. cbn [bind]. destruct (get_abs_cell_idx _ z) as [abs|]; [|reflexivity]. cbn [bind]. destruct (build_local _ _ _ _ _ X _ all z iv gv) as [[[X2 c] L]|]; [|reflexivity]. cbn [bind]. destruct (register X2 _ _ _) as [r|]; [|reflexivity]. cbn [bind].
  match goal with |- bind (map_res (form_row B' X2 c ?l) ?js) _ = _ => rewrite (map_res_after (form_row B X2 c l) (form_row B' X2 c l) (on_entries (recalc B')) js) by (intros i; apply row_calc, F) end.
  destruct (map_res _ _) as [rows|]; [|reflexivity]. cbn [bind fst snd w_space w_entries w_rhs w_local]. do 3 f_equal; [rewrite map_app, concat_map, !map_map; reflexivity|]. rewrite map_map. reflexivity.
Qed.
Lemma fold_calc B B' all iv gv ks : bf_rhs B' = bf_rhs B -> forall s, fold_res (step B' all iv gv) ks (wcalc B' s) = bind (fold_res (step B all iv gv) ks s) (fun r => Ok (wcalc B' r)).
Proof. intros F. induction ks as [|k ks IH]; intros s; [reflexivity|]. cbn [fold_res]. rewrite (step_calc B B') by exact F. destruct (step B all iv gv s k); [|reflexivity]. cbn [bind]. apply IH. Qed.
(** Entries have the values of the form until the boundary rows are struck. *)
Lemma fold_formed B all iv gv ks s r : map (recalc B) (w_entries (snd s)) = w_entries (snd s) -> fold_res (step B all iv gv) ks s = Ok r -> map (recalc B) (w_entries (snd r)) = w_entries (snd r).
Proof.
  intros F E. pose proof (fold_calc B B all iv gv ks eq_refl s) as C. replace (wcalc B s) with s in C. 2:{ destruct s as [X [p es rs lo]]. unfold wcalc. cbn [fst snd w_space w_entries w_rhs w_local] in *. rewrite F. reflexivity. }
  rewrite E in C. cbn [bind] in C. apply Ok_inj in C. apply (f_equal (fun x => w_entries (snd x))) in C. exact C.
Qed.
Lemma step_load B B' all iv gv X w rs' k r r' : bf_diffusion B' = bf_diffusion B -> bf_reaction B' = bf_reaction B -> map fst rs' = map fst (w_rhs w) -> step B all iv gv (X, w) k = Ok r -> step B' all iv gv (X, Work (w_space w) (w_entries w) rs' (w_local w)) k = Ok r' ->
  exists rs, r' = (fst r, Work (w_space (snd r)) (w_entries (snd r)) rs (w_local (snd r))) /\ map fst rs = map fst (w_rhs (snd r)).
Proof.
  intros D Rc M E E'. unfold run_step in *. cbn [w_space w_entries w_rhs w_local] in *. destruct (geti _ k) as [z|]; [|discriminate]. cbn [bind] in *. destruct (get_abs_cell_idx _ z) as [abs|]; [|discriminate]. cbn [bind] in *. destruct (build_local _ _ _ _ _ X _ all z iv gv) as [[[X2 c] L]|]; [|discriminate]. cbn [bind] in *. destruct (register X2 _ _ _) as [q|]; [|discriminate]. cbn [bind] in *.
  destruct (map_res (form_row B X2 c _) _) as [rows|] eqn:R1; [|discriminate]. destruct (map_res (form_row B' X2 c _) _) as [rows'|] eqn:R2; [|discriminate]. cbn [bind] in *. pose proof (rows_load _ _ _ _ _ _ D Rc _ _ R1 R2) as P. apply Ok_inj in E, E'. subst r r'. cbn [fst snd w_space w_entries w_rhs w_local].
  exists (rs' ++ map fst rows'). split; [|rewrite !map_app, M; f_equal; clear - P; induction P as [|x y l l' [E _] _ IH]; [reflexivity|cbn [map]; rewrite E, IH; reflexivity]].
  do 3 f_equal. f_equal. clear - P. induction P as [|x y l l' [_ E] _ IH]; [reflexivity|cbn [map]; rewrite E, IH; reflexivity].
Qed.
Lemma fold_load B B' all iv gv ks : bf_diffusion B' = bf_diffusion B -> bf_reaction B' = bf_reaction B -> forall X w rs' r r', map fst rs' = map fst (w_rhs w) -> fold_res (step B all iv gv) ks (X, w) = Ok r -> fold_res (step B' all iv gv) ks (X, Work (w_space w) (w_entries w) rs' (w_local w)) = Ok r' ->
  exists rs, r' = (fst r, Work (w_space (snd r)) (w_entries (snd r)) rs (w_local (snd r))) /\ map fst rs = map fst (w_rhs (snd r)).
Proof.
  intros D Rc. induction ks as [|k ks IH]; intros X w rs' r r' M E E'; [apply Ok_inj in E, E'; subst; exists rs'; auto|]. cbn [fold_res] in *. destruct (step B all iv gv (X, w) k) as [[X1 w1]|] eqn:S1; [|discriminate]. destruct (step B' all iv gv _ k) as [s|] eqn:S2; [|discriminate]. cbn [bind] in *.
  destruct (step_load _ _ _ _ _ _ _ _ _ _ _ D Rc M S1 S2) as (rs & -> & M1). cbn [fst snd] in *. exact (IH _ _ _ _ _ M1 E E').
Qed.
End Run.
