(** Integration over boundaries (C40). *)
From Coq Require Import List ZArith Reals Lia Lra Bool Permutation String.
From Verif Require Import PyBase PolyModel BaryModel BBoxModel QuadModel QuadSpec QuadProofs QuadProps CurveModel VertModel EdgeModel EdgeSpec EdgeProofs EdgeProofs2 EdgeProps EdgeProps3 ContourModel CellModel CellSpec CellProofs CellProps ContourProofs ContourProofs2 ContourProofs3 InteriorProofs ContourProofs4 VertProps EdgeProps4 ContourProps CellProofs2 Annulus CellProps2.
Import List ListNotations.
Open Scope R_scope.

(** The edges of the boundary of a cell, component by component, as they are now *)
Definition boundary_edges (H : heap) (c : cell) (ess : list (list edge)) : Prop := Forall2 (fun k es => refs H (k_edges k) es) (c_comps c) ess.
(** The quadrature sum of [g] over the non-repeated samples of an edge *)
Definition edge_int (g : R -> R -> R) (e : edge) : R := 2 * PI / IZR (e_npts e - 1) * sum_list (map (fun s => at_smp g s * sw s) (removelast (e_smp e))).
(** The weighted values of [g] at the two ends of the edge agree. *)
Definition closes (g : R -> R -> R) (e : edge) : Prop := forall s t l, e_smp e = s :: l ++ [t] -> at_smp g s * sw s = at_smp g t * sw t.

Lemma refs_unique H ids es es' : refs H ids es -> refs H ids es' -> es = es'.
Proof. unfold refs. intros R. revert es'. induction R as [|i e ids es E R IH]; intros es' R'; inversion R'; subst; [reflexivity|]. f_equal; [congruence|apply IH; assumption]. Qed.
Lemma edges_unique H c ess ess' : cell_fresh H c ess -> boundary_edges H c ess' -> ess' = ess.
Proof. unfold boundary_edges. intros (F & _). revert ess'. induction F as [|k es ks ess (R & _) F IH]; intros ess' B; inversion B; subst; [reflexivity|]. f_equal; [eapply refs_unique; eassumption|apply IH; assumption]. Qed.

(** All edges of a parameterized cell have the same number of samples. *)
Lemma dict_npts n p qd : get_quad_dict n p = Ok qd -> exists N, forall e o e', resampled qd o e e' -> e_npts e' = N.
Proof.
  intros Q. destruct qd as [a b]. assert (AB : q_n a = q_n b).
  { pose proof Q as Q'. unfold get_quad_dict in Q'. destruct (mk_quad "trap" n 7) as [qa|] eqn:Ea; [|discriminate]. destruct (mk_quad "kress" n p) as [qb|] eqn:Eb; [|discriminate]. cbn [bind] in Q'. apply Ok_inj in Q'. injection Q' as -> ->. destruct n as [n|]; [|discriminate]. rewrite quad_trap in Ea. rewrite quad_kress in Eb. destruct (Z.ltb_spec n 4); [discriminate|]. destruct (Z.ltb_spec p 2); [discriminate|]. cbv zeta in Ea, Eb. apply Ok_inj in Ea, Eb. subst qa qb. reflexivity. }
  exists (2 * Z.of_nat (q_n a) + 1)%Z. intros e o e' (e1 & P & ->). destruct (parameterize_frame _ _ _ _ _ Q P) as (q & Hq & E). assert (X : e_npts e1 = (2 * Z.of_nat (q_n a) + 1)%Z).
  { rewrite E. assert (Y : q_n q = q_n a) by (unfold EdgeProofs2.pick in Hq; destruct (String.eqb _ _); [apply Ok_inj in Hq; subst; reflexivity|]; destruct (String.eqb _ _); [|discriminate]; apply Ok_inj in Hq; subst; symmetry; exact AB). rewrite <- Y. clear. unfold after_diary. destruct (last_join _) as [[u v]|]; reflexivity. }
  destruct (Z.eqb o (-1)); [|exact X]. unfold reverse_orientation. destruct (e_param e1); exact X.
Qed.
Lemma ready_uniform contains H c ess : ready contains H c -> boundary_edges H c ess -> cell_fresh H c ess /\ Forall (fun es => es <> []) ess /\ exists N, Forall (Forall (fun e => e_npts e = N)) ess.
Proof.
  intros (H0 & z & ids & mesh & rtol & atol & c0 & n & p & qd & w & H1 & B & Q & P) BE. destruct (param_cell_ok contains (fun _ _ => True) (fun _ _ _ _ _ _ => I) qd n p w H1 c0 H c Q (built_wf _ _ _ _ _ _ _ B) P) as (ess0 & ess' & X). assert (ess = ess') by (eapply edges_unique; [apply X|exact BE]). subst ess'.
  split; [apply X|]. split; [apply X|]. destruct (dict_npts _ _ _ Q) as (N & HN). exists N. pose proof (p_new _ _ _ _ _ _ _ _ _ X) as Y. clear -Y HN. revert Y. generalize (combine (c_comps c) ess0) as l. induction 1 as [|ke es l ess Y F IH]; constructor; [|exact IH]. clear -Y HN. revert Y. generalize (combine (k_orients (fst ke)) (snd ke)) as l. induction 1 as [|oe e l es R F IH]; constructor; [eapply HN, R|exact IH].
Qed.

(** The integral over the boundary of a cell is the sum over its edges. *)
Lemma uniform_sum N es vs : (2 <= N)%Z -> Forall (fun e => e_npts e = N) es -> es <> [] -> cut es vs -> Forall well_sampled es ->
  2 * PI * INR (List.length es) / IZR (csize es) * sum_list (zip_with Rmult (concat vs) (map sw (contour_smp es))) = sum_list (map (fun ev => edge_sum (fst ev) (snd ev)) (combine es vs)).
Proof.
  intros HN U NE C W. assert (E : 2 * PI * INR (List.length es) / IZR (csize es) = 2 * PI / IZR (N - 1)).
  { assert (X : csize es = (Z.of_nat (List.length es) * (N - 1))%Z). { clear -U. induction U as [|e es E U IH]; [reflexivity|]. unfold csize in *. cbn [map List.length]. change (total (open_num e :: map open_num es)) with (open_num e + total (map open_num es))%Z. rewrite IH. unfold open_num. rewrite E. lia. }
    rewrite X, mult_IZR, INR_IZR_INZ. assert (0 < IZR (Z.of_nat (List.length es))) by (apply IZR_lt; destruct es; [congruence|cbn [List.length]; lia]). assert (0 < IZR (N - 1)) by (apply IZR_lt; lia). field. lra. }
  rewrite E. clear E NE. revert W U. unfold cut in C. induction C as [|e v es vs Hv C IH]; intros W U; [unfold contour_smp, sum_list, zip_with; cbn; ring|]. inversion W; inversion U; subst. cbn [combine map fst snd]. unfold contour_smp. cbn [map concat]. rewrite map_app, zip_app by (rewrite map_length; pose proof (open_pos e ltac:(assumption)); lia). rewrite sum_app, Rmult_plus_distr_l. fold (contour_smp es). rewrite IH by assumption. reflexivity.
Qed.

Lemma cut_concat es vs : cut es vs -> Z.of_nat (List.length (concat vs)) = csize es.
Proof. intros C. unfold cut, csize in *. induction C as [|e v es vs E C IH]; [reflexivity|]. cbn [map concat]. change (total (open_num e :: map open_num es)) with (open_num e + total (map open_num es))%Z. rewrite app_length. lia. Qed.
Lemma cut_ccut ess vss : Forall2 cut ess vss -> ccut ess (map (@concat R) vss).
Proof. unfold ccut. induction 1 as [|es vs ess vss C F IH]; constructor; [apply cut_concat, C|exact IH]. Qed.
Lemma cell_integrate_ok contains H c ess vss : ready contains H c -> boundary_edges H c ess -> Forall2 cut ess vss ->
  cell_integrate (concat (map (@concat R) vss)) H c = Ok (sum_list (map (fun ev => sum_list (map (fun ev => edge_sum (fst ev) (snd ev)) (combine (fst ev) (snd ev)))) (combine ess vss))).
Proof.
  intros Rd B C. destruct (ready_uniform _ _ _ _ Rd B) as (F & NE & N & U). pose proof (fresh_all _ _ _ (proj1 F)) as W. pose proof (cut_ccut _ _ C) as CC. unfold cell_integrate. rewrite (comps_guard _ _ _ (proj1 F)). cbn [bind]. rewrite (cell_dx_ok H c ess) by (exact F || apply ccut_total, CC). cbn [bind].
  assert (X : zip_with Rmult (concat (map (@concat R) vss)) (map sw (cell_smp ess)) = concat (map (fun ev => zip_with Rmult (concat (snd ev)) (map sw (contour_smp (fst ev)))) (combine ess vss))).
  { clear -C W. unfold cell_smp. revert W. induction C as [|es vs ess vss Hc C IH]; intros W; [reflexivity|]. inversion W; subst. cbn [map concat combine fst snd]. rewrite map_app, zip_app; [rewrite IH by assumption; reflexivity|]. rewrite map_length. pose proof (contour_smp_length es ltac:(assumption)). pose proof (cut_concat es vs Hc). lia. }
  rewrite X. rewrite (cell_integrate_pre_ok H c ess _ F NE).
  - do 2 f_equal. clear -C U W NE. revert U W NE. induction C as [|es vs ess vss Hc C IH]; intros U W NE; [reflexivity|]. inversion U; inversion W; inversion NE; subst. cbn [combine map fst snd]. f_equal; [|apply IH; assumption]. destruct es as [|e es]; [congruence|]. apply (uniform_sum N); try assumption. match goal with U : Forall (fun e => e_npts e = N) (e :: es), A : Forall well_sampled (e :: es) |- _ => apply Forall_inv in U; apply Forall_inv in A; destruct A as (_ & _ & N3 & _); lia end.
  - clear -C W. revert W. unfold ccut. induction C as [|es vs ess vss Hc C IH]; intros W; [constructor|]. inversion W; subst. cbn [combine map fst snd]. pose proof (contour_smp_length es ltac:(assumption)). pose proof (cut_concat es vs Hc). constructor; [|apply IH; assumption]. rewrite zip_length; rewrite ?map_length; lia.
Qed.

Lemma edge_sum_int g e : edge_sum e (map (at_smp g) (open_smp e)) = edge_int g e.
Proof. unfold edge_sum, edge_int, open_smp. f_equal. generalize (removelast (e_smp e)). induction l as [|s l IH]; [reflexivity|]. unfold zip_with in *. cbn [map combine sum_list fold_right fst snd] in *. unfold sum_list in *. rewrite <- IH. reflexivity. Qed.
Lemma zip_int g : forall es, map (fun ev => edge_sum (fst ev) (snd ev)) (combine es (map (fun e => map (at_smp g) (open_smp e)) es)) = map (edge_int g) es.
Proof. induction es as [|e es IH]; [reflexivity|]. cbn [map combine fst snd]. rewrite edge_sum_int, IH. reflexivity. Qed.
Lemma map_cut g es : Forall well_sampled es -> cut es (map (fun e => map (at_smp g) (open_smp e)) es).
Proof. unfold cut. induction 1 as [|e es We W IH]; constructor; [rewrite map_length; apply (open_pos e We)|exact IH]. Qed.

Theorem C40_sum_of_edges contains H c ess : ready contains H c -> boundary_edges H c ess ->
  (forall g, exists y, eval_on_boundary g H c = Ok y /\ cell_integrate y H c = Ok (sum_list (map (edge_int g) (concat ess)))) /\
  (forall v vss, v = concat (map (@concat R) vss) -> Forall2 cut ess vss -> cell_integrate v H c = Ok (sum_list (map (fun ev => edge_sum (fst ev) (snd ev)) (combine (concat ess) (concat vss))))) /\
  (forall v, Z.of_nat (List.length v) = total (map csize ess) -> exists vss, v = concat (map (@concat R) vss) /\ Forall2 cut ess vss) /\
  (forall v, Z.of_nat (List.length v) <> total (map csize ess) -> cell_integrate v H c = Err SizeMismatchError).
Proof.
  intros Rd B. destruct (ready_uniform _ _ _ _ Rd B) as (F & NE & N & U). pose proof (fresh_all _ _ _ (proj1 F)) as W. split; [|split; [|split]].
  - intros g. eexists. split; [apply eval_boundary_ok, F|]. assert (X : map (at_smp g) (cell_smp ess) = concat (map (@concat R) (map (fun es => map (fun e => map (at_smp g) (open_smp e)) es) ess))). { unfold cell_smp. rewrite concat_map, !map_map. f_equal. apply map_ext. intros es. unfold contour_smp. rewrite concat_map, map_map. reflexivity. }
    rewrite X. rewrite (cell_integrate_ok contains H c ess _ Rd B). 2:{ clear -W. induction W as [|es ess We W IH]; constructor; [apply map_cut, We|exact IH]. }
    f_equal. clear. induction ess as [|es ess IH]; [reflexivity|]. cbn [map combine concat fst snd]. rewrite map_app, sum_app, zip_int. change (sum_list (?a :: ?l)) with (a + sum_list l). rewrite IH. reflexivity.
  - intros v vss -> C. rewrite (cell_integrate_ok contains H c ess vss Rd B C). f_equal. clear -C. induction C as [|es vs ess vss Hc C IH]; [reflexivity|]. cbn [map combine concat fst snd]. change (sum_list (?a :: ?l)) with (a + sum_list l). rewrite IH.
    assert (X : combine (es ++ concat ess) (vs ++ concat vss) = combine es vs ++ combine (concat ess) (concat vss)) by (clear -Hc; unfold cut in Hc; induction Hc as [|? ? ? ? ? ? IH]; [reflexivity|]; cbn; f_equal; exact IH). rewrite X, map_app, sum_app. reflexivity.
  - intros v L. destruct (ccut_exists ess v W L) as (vs & -> & C). clear -C W. unfold ccut in C. revert vs C. induction W as [|es ess We W IH]; intros vs C; inversion C; subst; [exists []; split; [reflexivity|constructor]|]. match goal with C : Forall2 _ (map csize ess) ?l |- _ => destruct (IH l C) as (vss & E & F) end. match goal with L : Z.of_nat (List.length ?y) = csize es |- _ => destruct (cut_exists es y We L) as (b & -> & Cb) end. exists (b :: vss). split; [cbn [map concat]; rewrite <- E; reflexivity|constructor; assumption].
  - intros v L. unfold cell_integrate. rewrite (comps_guard _ _ _ (proj1 F)). cbn [bind]. unfold cell_dx_norm. rewrite (comps_guard _ _ _ (proj1 F)). cbn [bind]. destruct F as (_ & _ & EN & _). rewrite EN. cbn [attr bind]. rewrite (proj2 (Z.eqb_neq _ _) L). reflexivity.
Qed.
Print Assumptions C40_sum_of_edges.

(** ** The trapezoid rule on the edges *)

Lemma ends_form {A} (l : list A) : (2 <= List.length l)%nat -> exists s m t, l = s :: m ++ [t].
Proof. intros L. destruct l as [|s l]; [cbn in L; lia|]. destruct (exists_last (l := l)) as (m & t & ->); [intros ->; cbn in L; lia|]. exists s, m, t. reflexivity. Qed.

(** On one edge the trapezoid rule with the end point and the sum without it differ by the
    weighted end values. *)
Theorem C40_endpoint_gap g e s m t : well_sampled e -> e_smp e = s :: m ++ [t] ->
  integrate_over_edge (map (at_smp g) (e_smp e)) false e = Ok (edge_int g e + 2 * PI / IZR (e_npts e - 1) * (at_smp g t * sw t - at_smp g s * sw s) / 2).
Proof.
  intros W E. rewrite C33_trapezoid by (rewrite ?map_length; apply W). f_equal.
  assert (Z1 : forall l : list sample, zip_with Rmult (map (at_smp g) l) (map sw l) = map (fun s => at_smp g s * sw s) l) by (induction l as [|x l IH]; [reflexivity|]; unfold zip_with in *; cbn [map combine fst snd]; rewrite IH; reflexivity).
  rewrite Z1. unfold edge_int. rewrite E. change (s :: m ++ [t]) with ((s :: m) ++ [t]). rewrite removelast_last. rewrite map_app. cbn [map app]. rewrite trapezoid_sum. change (at_smp g s * sw s :: map (fun s => at_smp g s * sw s) m ++ [at_smp g t * sw t]) with ((at_smp g s * sw s :: map (fun s => at_smp g s * sw s) m) ++ [at_smp g t * sw t]). rewrite last_last, sum_app. unfold sum_list. cbn [fold_right]. field. apply not_0_IZR. destruct W as (_ & _ & N & _). lia.
Qed.
Print Assumptions C40_endpoint_gap.

Lemma edge_trapezoid g e : well_sampled e -> closes g e -> integrate_over_edge (map (at_smp g) (e_smp e)) false e = Ok (edge_int g e).
Proof.
  intros W C. destruct (ends_form (e_smp e)) as (s & m & t & E); [destruct W as (_ & L & N & _); lia|]. rewrite (C40_endpoint_gap g e s m t W E). f_equal. rewrite (C s t m E). field. apply not_0_IZR. destruct W as (_ & _ & N & _). lia.
Qed.

(** Where the weighted end values of each edge agree, the boundary integral is the sum of the
    edge trapezoid sums. *)
Theorem C40_trapezoid_partial contains H c ess g : ready contains H c -> boundary_edges H c ess -> Forall (closes g) (concat ess) ->
  exists y Is, eval_on_boundary g H c = Ok y /\ Forall2 (fun e I => integrate_over_edge (map (at_smp g) (e_smp e)) false e = Ok I) (concat ess) Is /\ cell_integrate y H c = Ok (sum_list Is).
Proof.
  intros Rd B C. destruct (ready_uniform _ _ _ _ Rd B) as (F & _ & _). pose proof (fresh_all _ _ _ (proj1 F)) as W. destruct (C40_sum_of_edges contains H c ess Rd B) as (X & _). destruct (X g) as (y & Y & Z). exists y, (map (edge_int g) (concat ess)). split; [exact Y|]. split; [|exact Z].
  apply Forall_concat in W. clear -W C. revert W C. generalize (concat ess) as l. induction l as [|e l IH]; intros W C; [constructor|]. inversion W; inversion C; subst. constructor; [apply edge_trapezoid; assumption|apply IH; assumption].
Qed.
Print Assumptions C40_trapezoid_partial.

(** Kress sampling: the weights vanish at both ends, so every function closes. *)
Definition ends0 (e : edge) : Prop := e_param e = true /\ hd 0 (map sw (e_smp e)) = 0 /\ last (map sw (e_smp e)) 0 = 0.
Lemma last_map {A B} (f : A -> B) (l : list A) d : last (map f l) (f d) = f (last l d).
Proof. induction l as [|a [|b l] IH]; [reflexivity|reflexivity|exact IH]. Qed.
Lemma on_smp_e0 f e : (exists a, forall s, sw (f s) = a * sw s) -> ends0 e -> ends0 (on_smp f e).
Proof.
  intros (a & Hf) (P & A & B). unfold on_smp. rewrite P. unfold ends0. cbn [e_param e_smp with_smp]. rewrite map_map, (map_ext _ (fun s => a * sw s) Hf), <- (map_map sw (fun x => a * x)). split; [exact P|]. split.
  - destruct (map sw (e_smp e)) as [|x l]; [reflexivity|]. cbn in *. rewrite A. ring.
  - pose proof (last_map (fun x => a * x) (map sw (e_smp e)) 0) as L. cbn beta in L. replace (a * 0) with 0 in L by ring. rewrite L, B. ring.
Qed.
Lemma log_e0 w s e : ends0 e -> ends0 (log w s e).
Proof. unfold ends0. rewrite log_param, log_smp. tauto. Qed.
Lemma ortho_e0 w A e e' : ends0 e -> apply_ortho w A e = Ok e' -> ends0 e'.
Proof.
  intros W. unfold apply_ortho. destruct A as [M|]; [|discriminate]. destruct (Rltb _ _); [discriminate|]. intros H. apply Ok_inj in H. subst e'. apply on_smp_e0; [|apply log_e0, W].
  exists 1. intros s. unfold ortho_sample. destruct M as [[a b] [c d]]. cbn [sw]. ring.
Qed.
Lemma translate_e0 w a e : ends0 e -> ends0 (translate w a e).
Proof. intros W. apply on_smp_e0; [exists 1; intros s; cbn [sw]; ring|apply log_e0, W]. Qed.
Lemma dilate_e0 w al e e' : ends0 e -> dilate w al e = Ok e' -> ends0 e'.
Proof.
  intros W. unfold dilate. destruct (Rltb _ _); [discriminate|]. intros H. apply Ok_inj in H. subst e'. apply on_smp_e0; [|apply log_e0, W].
  exists (Rabs al). intros s. cbn [sw]. ring.
Qed.
Lemma rotate_e0 w th e e' : ends0 e -> rotate w th e = Ok e' -> ends0 e'.
Proof. intros W. unfold rotate. rewrite log_param. destruct (e_param e) eqn:P; [|destruct W; congruence]. apply ortho_e0, log_e0, W. Qed.
Lemma step_e0 w s e e' : ends0 e -> apply_step w s e = Ok e' -> ends0 e'.
Proof.
  intros W. destruct s as [a|a b|th| | |al|A]; cbn [apply_step].
  - intros H. apply Ok_inj in H. subst e'. apply translate_e0, W.
  - unfold join_points. destruct (Rltb _ _); [discriminate|]. rewrite log_param. destruct (e_param e) eqn:P; [|destruct W; congruence]. cbv zeta. rewrite log_smp, log_npts.
    destruct (nth_error (e_smp e) 0) as [s0|]; [|discriminate]. destruct (nth_error (e_smp e) _) as [s1|]; [|discriminate]. destruct (Rltb _ _); [discriminate|].
    match goal with |- bind (rotate ?w ?th ?x) _ = _ -> _ => destruct (rotate w th x) as [x1|] eqn:E1; [|discriminate]; assert (W1 : ends0 x1) by (eapply rotate_e0; [|exact E1]; apply translate_e0, log_e0, W) end.
    cbn [bind]. match goal with |- bind (dilate ?w ?th ?x) _ = _ -> _ => destruct (dilate w th x) as [x2|] eqn:E2; [|discriminate]; assert (W2 : ends0 x2) by (eapply dilate_e0; [exact W1|exact E2]) end.
    cbn [bind]. intros H. apply Ok_inj in H. subst e'. exact (translate_e0 false a x2 W2).
  - apply rotate_e0, W.
  - unfold reflect_x. rewrite log_param. destruct (e_param e) eqn:P; [|destruct W; congruence]. apply ortho_e0, log_e0, W.
  - unfold reflect_y. rewrite log_param. destruct (e_param e) eqn:P; [|destruct W; congruence]. apply ortho_e0, log_e0, W.
  - apply dilate_e0, W.
  - apply ortho_e0, W.
Qed.
Lemma fold_e0 l : forall e e', ends0 e -> fold_res (fun e s => apply_step false s e) l e = Ok e' -> ends0 e'.
Proof.
  induction l as [|s l IH]; intros e e' W H; cbn [fold_res] in H; [apply Ok_inj in H; subst; exact W|].
  destruct (apply_step false s e) as [e1|] eqn:E; [|discriminate]. cbn [bind] in H. apply (IH e1); [eapply step_e0; eassumption|exact H].
Qed.
Lemma combine_app {A B} (a a' : list A) (b b' : list B) : List.length a = List.length b -> combine (a ++ a') (b ++ b') = combine a b ++ combine a' b'.
Proof. revert b. induction a as [|x a IH]; intros [|y b] L; try discriminate; [reflexivity|]. cbn. f_equal. apply IH. cbn in L. lia. Qed.
Theorem C40_kress_closes n p qd e o e' g : get_quad_dict n p = Ok qd -> e_qtype e = "kress"%string -> resampled qd o e e' -> closes g e'.
Proof.
  intros HD K (e1 & H & ->). assert (W : ends0 e1).
  { unfold parameterize in H. rewrite K in H. cbn [String.eqb Ascii.eqb Bool.eqb bind] in H. destruct qd as [qa qb]. cbn [snd] in H.
    destruct (e_tb e) as [ta tb]. destruct (cX _ _) as [X|]; [|discriminate]. destruct (cDX _ _) as [DX|]; [|discriminate]. destruct (cDDX _ _) as [DDX|]; [|discriminate]. cbn [bind] in H.
    match type of H with context [run_diary ?x] => set (e0 := x) in H end. destruct (run_diary e0) as [e2|] eqn:E1; [|discriminate]. cbn [bind] in H. apply Ok_inj in H. subst e1.
    assert (W0 : ends0 e0); [|exact (fold_e0 _ _ _ W0 E1)].
    unfold get_quad_dict in HD. destruct (mk_quad "trap" n 7) as [xa|] eqn:Ea; [|discriminate]. destruct (mk_quad "kress" n p) as [xb|] eqn:Eb; [|discriminate]. cbn [bind] in HD. apply Ok_inj in HD. injection HD as -> ->. destruct n as [n|]; [|discriminate]. rewrite quad_kress in Eb. destruct (Z.ltb_spec n 4); [discriminate|]. destruct (Z.ltb_spec p 2); [discriminate|]. cbv zeta in Eb. apply Ok_inj in Eb. subst xb. unfold e0, ends0. cbn [e_param e_smp with_param q_t q_wgt].
    rewrite map_map. assert (P2 : (2 <= Z.to_nat p)%nat) by lia.
    assert (L : exists m, linspace 0 (2 * PI) (2 * Z.to_nat n) = 0 :: m ++ [2 * PI]).
    { unfold linspace. destruct (Z.to_nat n) as [|k] eqn:En; [lia|]. replace (2 * S k)%nat with (S (2 * k + 1)) by lia. rewrite seq_S. rewrite map_app. cbn [seq map app Nat.add]. eexists. f_equal; [cbn [INR]; unfold Rdiv; ring|]. f_equal. f_equal. field. apply not_0_INR. lia. }
    destruct L as (m & ->). split; [reflexivity|]. split.
    - cbn [map combine hd raw_sample sw snd]. rewrite kress_wgt_0 by exact P2. ring.
    - change (0 :: m ++ [2 * PI]) with ((0 :: m) ++ [2 * PI]). rewrite !map_app. rewrite combine_app by (rewrite !map_length; reflexivity). rewrite map_app. cbn [map combine]. rewrite last_last. cbn [raw_sample sw snd]. assert (K0 : kress_wgt (Z.to_nat p) (2 * PI) = 0) by (replace (2 * PI) with (2 * PI - 0) by ring; rewrite kress_wgt_sym; apply kress_wgt_0, P2). rewrite K0. ring. }
  assert (G : forall e, ends0 e -> closes g e).
  { intros x (P & A & B) s t l E. rewrite E in A, B. cbn [map hd] in A. change (map sw (s :: l ++ [t])) with (map sw ((s :: l) ++ [t])) in B. rewrite map_app in B. cbn [map] in B. rewrite last_last in B. rewrite A, B. ring. }
  destruct (Z.eqb o (-1)); [|apply G, W]. pose proof (G e1 W) as C. unfold reverse_orientation. destruct (e_param e1); [|exact C]. intros s t l E. cbn [with_smp e_smp] in E. apply (f_equal (@rev sample)) in E. rewrite rev_involutive in E. cbn [rev] in E. rewrite rev_app_distr in E. cbn [rev app] in E.
  destruct (e_smp e1) as [|a q] eqn:Q; [discriminate|]. cbn [map] in E. injection E as Ea Eq. destruct (exists_last (l := q)) as (q' & b & ->); [intros ->; destruct (rev l); discriminate|]. rewrite map_app in Eq. cbn [map] in Eq. apply app_inj_tail in Eq. destruct Eq as [_ Eb]. specialize (C a b q' Q). rewrite <- Ea, <- Eb. unfold at_smp, reverse_sample in *. cbn [sx sw]. symmetry. exact C.
Qed.
Print Assumptions C40_kress_closes.

(** ** Linearity, order and direction *)

Lemma flat_sum N es vs : Forall (fun e => e_npts e = N) es -> cut es vs -> Forall well_sampled es ->
  sum_list (map (fun ev => edge_sum (fst ev) (snd ev)) (combine es vs)) = 2 * PI / IZR (N - 1) * sum_list (zip_with Rmult (concat vs) (map sw (contour_smp es))).
Proof.
  intros U C W. revert U W. unfold cut in C. induction C as [|e v es vs Hv C IH]; intros U W; [unfold contour_smp, sum_list, zip_with; cbn; ring|]. inversion W; inversion U; subst. cbn [combine map fst snd]. unfold contour_smp. cbn [map concat]. rewrite map_app, zip_app by (rewrite map_length; pose proof (open_pos e ltac:(assumption)); lia). rewrite sum_app, Rmult_plus_distr_l. fold (contour_smp es). rewrite <- IH by assumption. reflexivity.
Qed.
Lemma cell_linear_form contains H c ess : ready contains H c -> boundary_edges H c ess -> exists h ws, Z.of_nat (List.length ws) = total (map csize ess) /\
  forall v, Z.of_nat (List.length v) = total (map csize ess) -> cell_integrate v H c = Ok (h * sum_list (zip_with Rmult v ws)).
Proof.
  intros Rd B. destruct (ready_uniform _ _ _ _ Rd B) as (F & NE & N & U). pose proof (fresh_all _ _ _ (proj1 F)) as W. destruct (C40_sum_of_edges contains H c ess Rd B) as (_ & S & X & _). apply Forall_concat in W. apply Forall_concat in U.
  assert (E : cell_smp ess = contour_smp (concat ess)) by (unfold cell_smp, contour_smp; clear; induction ess as [|es ess IH]; [reflexivity|]; cbn [map concat]; rewrite map_app, concat_app, IH; reflexivity).
  assert (T : total (map csize ess) = csize (concat ess)). { clear. induction ess as [|es ess IH]; [reflexivity|]. cbn [map concat]. change (total (csize es :: map csize ess)) with (csize es + total (map csize ess))%Z. rewrite IH. unfold csize. rewrite map_app. generalize (map open_num es) as a, (map open_num (concat ess)) as b. induction a as [|x a IHa]; intros b; [reflexivity|]. cbn [app]. change (total (x :: a)) with (x + total a)%Z. change (total (x :: a ++ b)) with (x + total (a ++ b))%Z. specialize (IHa b). lia. }
  exists (2 * PI / IZR (N - 1)), (map sw (contour_smp (concat ess))). split; [rewrite map_length, T; apply contour_smp_length, W|]. intros v L. destruct (X v L) as (vss & -> & C). rewrite (S _ vss eq_refl C). f_equal. assert (C' : cut (concat ess) (concat vss)) by (clear -C; unfold cut in *; induction C as [|es vs ess vss Hc C IH]; [constructor|]; cbn [concat]; apply Forall2_app; assumption).
  rewrite (flat_sum N) by assumption. do 3 f_equal. clear. induction vss as [|vs vss IH]; [reflexivity|]. cbn [map concat]. rewrite concat_app, IH. reflexivity.
Qed.
Theorem C40_linear contains H c a b u v I J : ready contains H c -> List.length u = List.length v -> cell_integrate u H c = Ok I -> cell_integrate v H c = Ok J ->
  cell_integrate (lincomb a b u v) H c = Ok (a * I + b * J).
Proof.
  intros Rd L EI EJ. destruct (ready_fresh _ _ _ Rd) as (ess & F & _). assert (B : boundary_edges H c ess) by (unfold boundary_edges; destruct F as (F & _); eapply Forall2_impl; [|exact F]; intros k es Fk; apply Fk).
  destruct (cell_linear_form contains H c ess Rd B) as (h & ws & Lw & X). destruct (C40_sum_of_edges contains H c ess Rd B) as (_ & _ & _ & Bad). destruct (Z.eq_dec (Z.of_nat (List.length u)) (total (map csize ess))) as [Lu|Nu]; [|rewrite (Bad u Nu) in EI; discriminate].
  rewrite X in EI, EJ by lia. apply Ok_inj in EI, EJ. subst I J. assert (Lc : List.length (lincomb a b u v) = List.length u) by (unfold lincomb; apply zip_length, L). rewrite X by lia. f_equal. rewrite lincomb_mul by lia. rewrite sum_lincomb; [ring|]. rewrite !zip_length; lia.
Qed.
Print Assumptions C40_linear.

Lemma reverse_int g e : well_sampled e -> closes g e -> edge_int g (reverse_orientation e) = edge_int g e.
Proof.
  intros W C. pose proof W as (P & L & N & _). destruct (ends_form (e_smp e)) as (s & m & t & E); [lia|]. specialize (C s t m E). unfold edge_int, reverse_orientation. rewrite P. cbn [with_smp e_npts e_smp]. f_equal. rewrite E. change (s :: m ++ [t]) with ((s :: m) ++ [t]) at 2. rewrite removelast_last. cbn [map]. rewrite map_app. cbn [map rev]. rewrite rev_app_distr. cbn [rev app]. change (reverse_sample t :: rev (map reverse_sample m) ++ [reverse_sample s]) with ((reverse_sample t :: rev (map reverse_sample m)) ++ [reverse_sample s]). rewrite removelast_last. cbn [map sum_list fold_right].
  assert (R : forall l, fold_right Rplus 0 (map (fun s => at_smp g s * sw s) (rev (map reverse_sample l))) = fold_right Rplus 0 (map (fun s => at_smp g s * sw s) l)).
  { induction l as [|x l IH]; [reflexivity|]. cbn [map rev]. rewrite map_app. pose proof (sum_app (map (fun s => at_smp g s * sw s) (rev (map reverse_sample l))) (map (fun s => at_smp g s * sw s) [reverse_sample x])) as S. unfold sum_list in S. rewrite S, IH. cbn [map fold_right]. unfold reverse_sample, at_smp. cbn [sx sw]. ring. }
  unfold sum_list. cbn [fold_right]. rewrite R. unfold reverse_sample, at_smp in *. cbn [sx sw]. rewrite C. reflexivity.
Qed.
Lemma sum_perm l l' : Permutation l l' -> sum_list l = sum_list l'.
Proof. induction 1; unfold sum_list in *; cbn [fold_right] in *; lra. Qed.
(** Two cells whose boundaries consist of the same edges, in any order, some of them reversed *)
Theorem C40_invariant contains H c ess contains' H' c' ess' l g : ready contains H c -> boundary_edges H c ess -> ready contains' H' c' -> boundary_edges H' c' ess' ->
  Permutation (concat ess) l -> Forall2 (fun e e' => e' = e \/ e' = reverse_orientation e /\ closes g e) l (concat ess') ->
  exists y y' I, eval_on_boundary g H c = Ok y /\ eval_on_boundary g H' c' = Ok y' /\ cell_integrate y H c = Ok I /\ cell_integrate y' H' c' = Ok I.
Proof.
  intros Rd B Rd' B' P F. destruct (proj1 (C40_sum_of_edges contains H c ess Rd B) g) as (y & Y & Z). destruct (proj1 (C40_sum_of_edges contains' H' c' ess' Rd' B') g) as (y' & Y' & Z'). exists y, y', (sum_list (map (edge_int g) (concat ess))). repeat (split; [assumption|]). rewrite Z'. f_equal. rewrite (sum_perm _ _ (Permutation_map (edge_int g) P)). symmetry.
  destruct (ready_uniform _ _ _ _ Rd B) as (Fr & _). pose proof (fresh_all _ _ _ (proj1 Fr)) as W. apply Forall_concat in W. rewrite Forall_forall in W. assert (W' : forall e, In e l -> well_sampled e) by (intros e I; apply W; eapply Permutation_in; [symmetry; exact P|exact I]). clear -F W'. induction F as [|e e' l l' E F IH]; [reflexivity|]. unfold sum_list in *. cbn [map fold_right]. rewrite IH by (intros; apply W'; right; assumption). f_equal. destruct E as [->|[-> C]]; [reflexivity|]. symmetry. apply reverse_int; [apply W'; left; reflexivity|exact C].
Qed.
Print Assumptions C40_invariant.

(** The same on one component *)
Theorem C40_contour contains H c i k es : ready contains H c -> nth_error (c_comps c) i = Some k -> refs H (k_edges k) es ->
  (forall g, exists y, eval_on_contour g H k = Ok y /\ contour_integrate y H k = Ok (sum_list (map (edge_int g) es))) /\
  (forall vs, cut es vs -> contour_integrate (concat vs) H k = Ok (sum_list (map (fun ev => edge_sum (fst ev) (snd ev)) (combine es vs)))) /\
  (forall v, Z.of_nat (List.length v) = csize es -> exists vs, v = concat vs /\ cut es vs).
Proof.
  intros Rd Ek R. destruct (ready_fresh _ _ _ Rd) as (ess & (F & _) & _). pose proof (Forall2_len _ _ _ F) as L. assert (Li : (i < List.length (c_comps c))%nat) by (apply nth_error_Some; congruence). destruct (nth_error ess i) as [es'|] eqn:Ee; [|apply nth_error_None in Ee; lia]. pose proof (Forall2_nth _ _ _ F _ _ _ Ek Ee) as Fk. assert (es' = es) by (eapply refs_unique; [apply Fk|exact R]). subst es'. pose proof (proj1 (proj2 Fk)) as W. split; [|split].
  - intros g. eexists. split; [apply eval_contour_ok, Fk|]. unfold contour_smp. rewrite concat_map, map_map. rewrite (integrate_contour_ok H k es _ Fk); [rewrite zip_int; reflexivity|apply map_cut, W].
  - intros vs C. apply integrate_contour_ok; assumption.
  - intros v Lv. apply cut_exists; assumption.
Qed.
Print Assumptions C40_contour.

(** ** Examples *)

Lemma ring_weights x r p n e : 0 < r -> parameterize dict4 (ring x r p n) = Ok e -> map sw (e_smp e) = repeat r 9.
Proof.
  intros R0 E. pose proof PI_RGT_0. unfold parameterize in E. cbn [ring e_qtype e_tb e_curve e_opts String.eqb Ascii.eqb Bool.eqb bind cX cDX cDDX] in E. apply Ok_inj in E. subst e. unfold translate, on_smp, log. ecbn. cbn [fst dict4 q_t q_wgt].
  unfold linspace. rewrite !map_map. cbn [seq map combine fst snd sx sw raw_sample repeat]. unfold circle_R. cbn [opt String.eqb Ascii.eqb Bool.eqb].
  assert (D : forall t, 1 / 2 * (2 * PI - 0) / PI * t + 0 = t) by (intros t; field; lra). rewrite !D.
  assert (G : forall t, sqrt ((1 / 2 * (2 * PI - 0) / PI * (- r * sin t)) ^ 2 + (1 / 2 * (2 * PI - 0) / PI * (r * cos t)) ^ 2) * 1 = r).
  { intros t. replace (1 / 2 * (2 * PI - 0) / PI) with 1 by (field; lra). replace ((1 * (- r * sin t)) ^ 2 + (1 * (r * cos t)) ^ 2) with (r * r * ((sin t)² + (cos t)²)) by (unfold Rsqr; ring). rewrite sin2_cos2. replace (r * r * 1) with (r * r) by ring. rewrite sqrt_square by lra. ring. }
  repeat (apply f_equal2; [apply G|]). reflexivity.
Qed.
Lemma ring_samples x r p n o e0 e : 0 < r -> like e0 x r p n -> resampled dict4 o e0 e -> e_npts e = 9%Z /\ map sw (e_smp e) = repeat r 9 /\ forall g, closes g e.
Proof.
  intros R0 L Rs. destruct (ring_resampled _ _ _ _ _ _ _ L Rs) as [N S]. destruct Rs as (e1 & E & ->). unfold like in L. rewrite L in E. pose proof (ring_weights _ _ _ _ _ R0 E) as W. destruct (ring_param x r p n) as (e2 & E2 & P & _ & _). assert (e2 = e1) by congruence. subst e2.
  assert (W' : map sw (e_smp (if Z.eqb o (-1) then reverse_orientation e1 else e1)) = repeat r 9). { destruct (Z.eqb o (-1)); [|exact W]. unfold reverse_orientation. rewrite P. cbn [with_smp e_smp]. rewrite map_rev, map_map. change (map (fun s => sw (reverse_sample s)) (e_smp e1)) with (map sw (e_smp e1)). rewrite W. reflexivity. }
  split; [exact N|]. split; [exact W'|]. intros g s t l El. rewrite El in S, W'. cbn [map] in S, W'. rewrite map_app in S, W'. cbn [map] in S, W'. cbn [repeat] in W'. injection W' as A B. unfold oct in S. injection S as S1 S2.
  change [r; r; r; r; r; r; r; r] with ([r; r; r; r; r; r; r] ++ [r]) in B. apply app_inj_tail in B. destruct B as [_ B].
  match type of S2 with _ = ?a :: ?b :: ?c :: ?d :: ?u :: ?v :: ?y :: ?z :: nil => change (a :: b :: c :: d :: u :: v :: y :: z :: nil) with ([a; b; c; d; u; v; y] ++ [z]) in S2 end. apply app_inj_tail in S2. destruct S2 as [_ S2]. unfold at_smp. rewrite A, B, S1, S2. reflexivity.
Qed.

(** Example: the annulus, where every function closes; the integral of 1 is the length 10 pi. *)
Example C40_example : exists H' c' ess y, ready disc H' c' /\ boundary_edges H' c' ess /\ (forall g, Forall (closes g) (concat ess)) /\ eval_on_boundary (fun _ _ => 1) H' c' = Ok y /\ cell_integrate y H' c' = Ok (10 * PI).
Proof.
  pose proof (ring_cell_outer (5, 5)%Z 1 ltac:(lra)) as B. set (c := made _ _ _ _ _) in B. assert (An : annulus c) by (exists 1%Z, [1; -1]%Z, (5, 5)%Z, 1; right; reflexivity). destruct (circles_param rings c rings_like (annulus_circles _ An)) as (H' & c' & P).
  assert (Rd : ready disc H' c') by (exists rings, 1%Z, [1; 0]%nat, (5, 5)%Z, 1, 1, c, (PInt 4), 7%Z, dict4, false, rings; split; [exact B|]; split; [exact dict4_ok|exact P]).
  destruct (ready_fresh _ _ _ Rd) as (ess & F & _). assert (BE : boundary_edges H' c' ess) by (unfold boundary_edges; destruct F as (F & _); eapply Forall2_impl; [|exact F]; intros k es Fk; apply Fk).
  pose proof (circles_wf _ (annulus_circles _ An)) as W.
  destruct (param_edge _ _ _ _ _ _ _ _ _ (unset 1 0 (-1)) O O (-1)%Z dict4_ok W P (or_intror (or_introl eq_refl)) eq_refl eq_refl) as (a0 & e0 & A0 & E0 & R0). destruct (param_edge _ _ _ _ _ _ _ _ _ (unset 1 1 1) O 1%nat 1%Z dict4_ok W P (or_introl eq_refl) eq_refl eq_refl) as (a1 & e1 & A1 & E1 & R1). cbn [rings nth_error] in A0, A1. injection A0 as <-. injection A1 as <-.
  destruct (ring_samples 1 1 2 1 _ _ _ Rlt_0_1 (like_self _ _ _ _) R0) as (N0 & W0 & C0). assert (L4 : 0 < 4) by lra. destruct (ring_samples 0 4 1 (-1) _ _ _ L4 (like_self _ _ _ _) R1) as (N1 & W1 & C1).
  assert (Pm : Permutation (concat ess) [e1; e0]).
  { destruct (param_cell_ok disc (fun _ _ => True) (fun _ _ _ _ _ _ => I) dict4 _ _ _ _ _ _ _ dict4_ok W P) as (ess0 & ess' & Pr). pose proof (Permutation_map fst (p_edges _ _ _ _ _ _ _ _ _ Pr)) as PE. rewrite !map_map in PE. cbn [fst] in PE. change (map (fun x => k_edges x) (c_comps c)) with [[1%nat]; [0%nat]] in PE. apply Permutation_sym, Permutation_length_2_inv in PE. unfold boundary_edges in BE. clear -PE BE E0 E1.
    destruct (c_comps c') as [|k0 [|k1 [|? ?]]]; destruct PE as [PE|PE]; try discriminate; injection PE as K0 K1; inversion BE as [|? x0 ? l0 X0 F0]; subst; inversion F0 as [|? x1 ? l1 X1 F1]; subst; inversion F1; subst; rewrite K0 in X0; rewrite K1 in X1; unfold refs in X0, X1; inversion X0 as [|? u0 ? v0 Y0 Z0]; subst; inversion Z0; subst; inversion X1 as [|? u1 ? v1 Y1 Z1]; subst; inversion Z1; subst; cbn [concat app]; [assert (u0 = e1) by congruence; assert (u1 = e0) by congruence; subst; reflexivity|assert (u0 = e0) by congruence; assert (u1 = e1) by congruence; subst; apply perm_swap]. }
  exists H', c', ess. destruct (proj1 (C40_sum_of_edges disc H' c' ess Rd BE) (fun _ _ => 1)) as (y & Y & Z). exists y. split; [exact Rd|]. split; [exact BE|]. split; [intros g; apply Forall_forall; intros e I; apply (Permutation_in _ Pm) in I; destruct I as [<-|[<-|[]]]; auto|]. split; [exact Y|]. rewrite Z. f_equal. rewrite (sum_perm _ _ (Permutation_map _ Pm)).
  assert (G : forall e r, e_npts e = 9%Z -> map sw (e_smp e) = repeat r 9 -> edge_int (fun _ _ => 1) e = 2 * PI * r).
  { intros e r N S. unfold edge_int, at_smp. rewrite N. rewrite (map_ext _ sw) by (intros; ring). rewrite map_removelast', S. cbn [repeat removelast]. unfold sum_list. cbn [fold_right]. simpl. field. }
  cbn [map]. unfold sum_list. cbn [fold_right]. rewrite (G e1 4 N1 W1), (G e0 1 N0 W0). ring.
Qed.

(** Straight edges sampled uniformly *)
Lemma segment_param a b : TOL <= pdist (coord a) (coord b) -> exists e', parameterize dict4 (line_edge a b) = Ok e' /\ well_sampled e' /\ e_npts e' = 9%Z /\ exists m s t, e_smp e' = s :: m ++ [t] /\ sx s = coord a /\ sx t = coord b /\ sw s = pdist (coord a) (coord b) / (2 * PI) /\ sw t = pdist (coord a) (coord b) / (2 * PI).
Proof.
  intros D. pose proof PI_RGT_0 as HP. assert (F : diary_fine (0, 0) (1, 0) [SJoin a b]) by (cbn [diary_fine step_fine]; rewrite dist01; unfold Rdiv; rewrite Rinv_1, Rmult_1_r; unfold TOL in *; repeat split; lra).
  pose proof (line_param a b _ F) as E. cbv zeta in E. change (with_diary (line_edge a b) [SJoin a b]) with (line_edge a b) in E. eexists. split; [exact E|]. destruct (C33_well_sampled _ _ _ _ _ dict4_ok E) as [W _]. split; [exact W|]. clear E.
  match goal with |- context [with_qtype (after_diary ?l ?e0 ?m) ?y] => destruct (after_diary_fields l e0 m y) as (_ & EN & ->) end. split; [rewrite EN; reflexivity|]. clear W EN.
  set (S := diary_sim _ _ _). assert (EL : forall u, lin S (u, 0) = (u * (vx b - vx a), u * (vy b - vy a)) /\ sapp S (u, 0) = (vx a + u * (vx b - vx a), vy a + u * (vy b - vy a))).
  { intros u. unfold S. cbn [diary_sim]. rewrite comp_lin, id_lin, comp_app, id_app. unfold step_sim, join_sim, sapp, lin, pt_div, coord. cbn [s_c s_d s_flip]. unfold norm2, pt_scale, pt_sub, pt_conj, pt_mul, pt_add. cbn [fst snd]. split; f_equal; field. }
  assert (NW : norm (lin S (1 / (2 * PI), 0)) = pdist (coord a) (coord b) / (2 * PI)).
  { rewrite (proj1 (EL _)). unfold norm, norm2, pdist, coord. cbn [fst snd]. replace (1 / (2 * PI) * (vx b - vx a) * (1 / (2 * PI) * (vx b - vx a)) + 1 / (2 * PI) * (vy b - vy a) * (1 / (2 * PI) * (vy b - vy a))) with (((vx a - vx b) * (vx a - vx b) + (vy a - vy b) * (vy a - vy b)) * (/ (2 * PI) * / (2 * PI))) by (field; lra). rewrite sqrt_mult_alt by (apply Rplus_le_le_0_compat; apply Rle_0_sqr). rewrite sqrt_square by (left; apply Rinv_0_lt_compat; lra). reflexivity. }
  exists (map EdgeSpec.sample_of (map (fun tw => Jet (sapp S (fst tw / (2 * PI), 0)) (lin S (1 / (2 * PI), 0)) (0, 0) (snd tw)) (combine (map (fun i => 0 + INR i * ((2 * PI - 0) / INR 8)) (seq 1 7)) (repeat 1 7)))). eexists. eexists. split; [reflexivity|]. cbn [EdgeSpec.sample_of sx sw jx jd jw fst snd]. rewrite !NW, !Rmult_1_r. split; [|split; [|split; reflexivity]].
  - replace ((0 + INR 0 * ((2 * PI - 0) / INR 8)) / (2 * PI)) with 0 by (cbn [INR]; field; lra). rewrite (proj2 (EL 0)). unfold coord. f_equal; ring.
  - replace ((0 + INR 8 * ((2 * PI - 0) / INR 8)) / (2 * PI)) with 1 by (cbn [INR]; field; lra). rewrite (proj2 (EL 1)). unfold coord. f_equal; ring.
Qed.

(** The sides of the triangle (0,0), (3,0), (0,4) sampled uniformly: for the function x the sum
    that the boundary integral takes differs from the sum of the trapezoid rules. *)
Theorem C40_trapezoid_refuted : exists e1 e2 e3 I1 I2 I3,
  parameterize dict4 (line_edge (mkvert 0 0) (mkvert 3 0)) = Ok e1 /\ parameterize dict4 (line_edge (mkvert 3 0) (mkvert 0 4)) = Ok e2 /\ parameterize dict4 (line_edge (mkvert 0 4) (mkvert 0 0)) = Ok e3 /\
  Forall2 (fun e I => integrate_over_edge (map (at_smp (fun x _ => x)) (e_smp e)) false e = Ok I) [e1; e2; e3] [I1; I2; I3] /\
  I1 + I2 + I3 <> edge_int (fun x _ => x) e1 + edge_int (fun x _ => x) e2 + edge_int (fun x _ => x) e3.
Proof.
  pose proof PI_RGT_0 as HP.
  assert (D : forall a b c d r, 0 <= r -> (a - c) * (a - c) + (b - d) * (b - d) = r * r -> pdist (coord (mkvert a b)) (coord (mkvert c d)) = r) by (intros a b c d r R0 E; unfold pdist, coord, mkvert; cbn [fst snd vx vy]; rewrite E; apply sqrt_square, R0).
  assert (D1 : pdist (coord (mkvert 0 0)) (coord (mkvert 3 0)) = 3) by (apply D; lra). assert (D2 : pdist (coord (mkvert 3 0)) (coord (mkvert 0 4)) = 5) by (apply D; lra). assert (D3 : pdist (coord (mkvert 0 4)) (coord (mkvert 0 0)) = 4) by (apply D; lra).
  destruct (segment_param (mkvert 0 0) (mkvert 3 0) ltac:(rewrite D1; unfold TOL; lra)) as (e1 & P1 & W1 & N1 & m1 & s1 & t1 & E1 & S1 & T1 & U1 & V1). destruct (segment_param (mkvert 3 0) (mkvert 0 4) ltac:(rewrite D2; unfold TOL; lra)) as (e2 & P2 & W2 & N2 & m2 & s2 & t2 & E2 & S2 & T2 & U2 & V2). destruct (segment_param (mkvert 0 4) (mkvert 0 0) ltac:(rewrite D3; unfold TOL; lra)) as (e3 & P3 & W3 & N3 & m3 & s3 & t3 & E3 & S3 & T3 & U3 & V3).
  exists e1, e2, e3. do 3 eexists. split; [exact P1|]. split; [exact P2|]. split; [exact P3|]. split; [constructor; [exact (C40_endpoint_gap _ _ _ _ _ W1 E1)|constructor; [exact (C40_endpoint_gap _ _ _ _ _ W2 E2)|constructor; [exact (C40_endpoint_gap _ _ _ _ _ W3 E3)|constructor]]]|].
  unfold at_smp. rewrite S1, T1, S2, T2, S3, T3, U1, V1, U2, V2, U3, V3, D1, D2, D3, N1, N2, N3. unfold coord, mkvert. cbn [vx vy fst snd]. simpl (9 - 1)%Z. intros X.
  assert (Y : 2 * PI / 8 * (3 * (3 / (2 * PI)) - 0 * (3 / (2 * PI))) / 2 + 2 * PI / 8 * (0 * (5 / (2 * PI)) - 3 * (5 / (2 * PI))) / 2 + 2 * PI / 8 * (0 * (4 / (2 * PI)) - 0 * (4 / (2 * PI))) / 2 = 0) by lra. assert (Z : - (6 / 16) = 0) by (rewrite <- Y; field; lra). lra.
Qed.
Print Assumptions C40_trapezoid_refuted.
