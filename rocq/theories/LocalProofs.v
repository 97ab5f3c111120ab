(** Lemmas on local functions. *)
From Coq Require Import List ZArith Reals Lia Lra Bool.
From Verif Require Import PyBase PolyModel PolySpec PolyProofs PolyProofs2 PolyProofs4 BaryModel VertModel EdgeModel EdgeSpec EdgeProps4 ContourModel CellModel CellSpec CellProofs CellProps ContourProofs ContourProofs2 ContourProofs3 ContourProps CellProps3 TraceModel TraceSpec TraceProofs IntPolyModel IntPolyProofs LocalModel LocalSpec.
Import List ListNotations.
Open Scope R_scope.

Lemma bind_ok {A B} (r : res A) (k : A -> res B) b : bind r k = Ok b -> exists a, r = Ok a /\ k a = Ok b.
Proof. destruct r; cbn; [eauto|discriminate]. Qed.
Ltac inv_ok H :=
  match type of H with
  | bind _ _ = Ok _ => let a := fresh "a" in let E := fresh "E" in apply bind_ok in H; destruct H as (a & E & H)
  end.
Lemma zip_map {A} f (a b : A -> R) l : zip_with f (map a l) (map b l) = map (fun s => f (a s) (b s)) l.
Proof. unfold zip_with. induction l as [|x l IH]; [reflexivity|]. cbn. f_equal. exact IH. Qed.
Lemma combine_map {A B C} (f : A -> B) (g : A -> C) l : combine (map f l) (map g l) = map (fun x => (f x, g x)) l.
Proof. induction l as [|x l IH]; [reflexivity|]. cbn. f_equal. exact IH. Qed.
Lemma np_mul_zip a b : List.length a = List.length b -> np_mul a b = Ok (zip_with Rmult a b).
Proof. intros L. unfold np_mul. rewrite L, Nat.eqb_refl. reflexivity. Qed.
Lemma np_iadd_zip a b : List.length a = List.length b -> np_iadd a b = Ok (zip_with Rplus a b).
Proof. intros L. unfold np_iadd. rewrite L, Nat.eqb_refl. reflexivity. Qed.
Lemma np_sub_zip a b : List.length a = List.length b -> np_sub a b = Ok (zip_with Rminus a b).
Proof.
  intros L. unfold np_sub. rewrite np_add_zip by (rewrite map_length; exact L). f_equal. unfold zip, zip_with. revert b L. induction a as [|x a IH]; intros [|y b] L; try discriminate; [reflexivity|]. cbn. f_equal. apply IH. cbn in L. lia.
Qed.

(** ** Arrays on a cell *)
Section Cell.
Context {H : heap} {c : cell} {ess : list (list edge)} {N : Z}.
Hypothesis F : cell_fresh H c ess.
Hypothesis NE : Forall (fun es => es <> []) ess.
Hypothesis U : Forall (Forall (fun e => e_npts e = N)) ess.
Local Notation es := (concat ess).
Local Notation smp := (contour_smp (concat ess)).

Lemma all_well : Forall well_sampled es.
Proof using F. apply Forall_concat. eapply fresh_all, F. Qed.
Lemma all_sampleable : Forall sampleable es.
Proof using F. apply well_ready, all_well. Qed.
Lemma smp_cell : cell_smp ess = smp.
Proof. unfold cell_smp, contour_smp. clear. induction ess as [|l ls IH]; [reflexivity|]. cbn [map concat]. rewrite map_app, concat_app, IH. reflexivity. Qed.
Lemma total_app a b : total (a ++ b) = (total a + total b)%Z.
Proof. induction a as [|x a IH]; [reflexivity|]. cbn [app]. change (total (x :: a)) with (x + total a)%Z. change (total (x :: a ++ b)) with (x + total (a ++ b))%Z. rewrite IH. lia. Qed.
Lemma total_cell : total (map csize ess) = csize es.
Proof. unfold csize. clear. induction ess as [|l ls IH]; [reflexivity|]. cbn [map concat]. rewrite map_app, total_app, <- IH. reflexivity. Qed.
Lemma smp_len : Z.of_nat (List.length smp) = csize es.
Proof using F. apply contour_smp_length, all_well. Qed.
Lemma npts_cell : c_npts c = Some (csize es).
Proof using F. destruct F as (_ & _ & E & _). rewrite E, total_cell. reflexivity. Qed.
Lemma samples_fit f : fitting es (samples_of es f).
Proof using F. unfold fitting, samples_of. rewrite map_length. exact smp_len. Qed.

Lemma kedges_ok : kedges H c = Ok es.
Proof using F.
  unfold kedges. apply refs_deref. unfold cell_edges. destruct F as (FK & _). clear -FK. unfold refs. induction FK as [|k l ks ls (R & _) FK IH]; [constructor|]. cbn [map concat]. apply Forall2_app; assumption.
Qed.
Lemma trace_arr v : fitting es v -> cell_trace H c (VArr v) = Ok (made es v None None).
Proof using F.
  intros L. unfold cell_trace. rewrite kedges_ok. cbn [bind]. unfold mk_trace. cbv zeta. rewrite (init_built es all_sampleable). unfold set_trace_values. rewrite (tfill_arr es) by (exact all_sampleable || apply blank_built || exact L). reflexivity.
Qed.
Lemma trace_arr_bad v : ~ fitting es v -> cell_trace H c (VArr v) = Err ValueError.
Proof using F.
  intros L. unfold cell_trace. rewrite kedges_ok. cbn [bind]. unfold mk_trace. cbv zeta. rewrite (init_built es all_sampleable). unfold set_trace_values, tfill. cbn [convert_values tr_npts attr bind]. destruct (Z.eqb_spec (Z.of_nat (List.length v)) (total (sizes es))) as [E|E]; [|reflexivity]. exfalso. exact (L E).
Qed.
Lemma trace_arr_inv v t : cell_trace H c (VArr v) = Ok t -> fitting es v /\ t = made es v None None.
Proof using F.
  intros E. destruct (Z.eq_dec (Z.of_nat (List.length v)) (csize es)) as [L|L]; [|rewrite (trace_arr_bad v L) in E; discriminate]. rewrite (trace_arr v L) in E. apply Ok_inj in E. auto.
Qed.
Lemma trace_scal k : exists v, cell_trace H c (VScal k) = Ok (made es v None None) /\ fitting es v /\ Forall (eq k) v.
Proof using F.
  unfold cell_trace. rewrite kedges_ok. cbn [bind]. unfold mk_trace. cbv zeta. rewrite (init_built es all_sampleable). unfold set_trace_values. destruct (tfill_spec es _ (One (VScal k)) all_sampleable (blank_built es) Logic.I) as (v & E & L & Hv). rewrite E. exists v. split; [reflexivity|]. split; [exact L|].
  assert (v = concat (map (fun e => repeat k (Z.to_nat (open_num e))) es)) as ->.
  { pose proof (tfill_ok es _ (One (VScal k)) (map (fun _ => VScal k) es) (map (fun e => repeat k (Z.to_nat (open_num e))) es) all_sampleable (blank_built es) eq_refl) as T. rewrite T in E; [apply Ok_inj in E; exact E|]. split; [apply map_length|]. intros i e b Ee Eb. exists (VScal k). rewrite nth_error_map, Ee in *. split; [reflexivity|]. injection Eb as <-. reflexivity. }
  apply Forall_concat. rewrite Forall_map. apply Forall_forall. intros e _. apply Forall_forall. intros x I. apply repeat_spec in I. auto.
Qed.
Lemma trace_other : cell_trace H c VOther = Err ValueError.
Proof using F. unfold cell_trace. rewrite kedges_ok. cbn [bind]. unfold mk_trace. cbv zeta. rewrite (init_built es all_sampleable). reflexivity. Qed.

Definition carries (t : trace) (v : list R) (n w : option (list R)) : Prop :=
  built es t /\ tr_vals t = Some v /\ tr_wnd t = n /\ tr_wtd t = w.
Lemma made_carries v n w : fitting es v -> sized es n -> sized es w -> carries (made es v n w) v n w.
Proof. intros A B C. split; [apply made_built; assumption|]. repeat split. Qed.
Lemma carries_len t v n w : carries t v n w -> fitting es v /\ sized es n /\ sized es w.
Proof. intros ((_ & _ & _ & A & B & C) & Ev & En & Ew). rewrite Ev in A. rewrite En in B. rewrite Ew in C. auto. Qed.
Lemma set_wnd_ok t v n w a : carries t v n w -> fitting es a -> exists t', set_wnd t (One (VArr a)) = Ok t' /\ carries t' v (Some a) w.
Proof using F.
  intros (B & Ev & En & Ew) L. unfold set_wnd. rewrite (tfill_arr es) by (exact all_sampleable || exact B || exact L). cbn [bind]. eexists. split; [reflexivity|]. destruct B as (B1 & B2 & B3 & B4 & B5 & B6). split; [repeat split; assumption|]. repeat split; assumption.
Qed.
Lemma set_wtd_ok t v n w a : carries t v n w -> fitting es a -> exists t', set_wtd t (One (VArr a)) = Ok t' /\ carries t' v n (Some a).
Proof using F.
  intros (B & Ev & En & Ew) L. unfold set_wtd. rewrite (tfill_arr es) by (exact all_sampleable || exact B || exact L). cbn [bind]. eexists. split; [reflexivity|]. destruct B as (B1 & B2 & B3 & B4 & B5 & B6). split; [repeat split; assumption|]. repeat split; assumption.
Qed.
Lemma set_wnd_inv t v n w a t' : carries t v n w -> set_wnd t (One (VArr a)) = Ok t' -> fitting es a /\ carries t' v (Some a) w.
Proof using F.
  intros C E. pose proof C as (B & _). assert (L : fitting es a). { unfold set_wnd in E. inv_ok E. exact (tfill_fits es t _ _ all_sampleable B E0). } destruct (set_wnd_ok t v n w a C L) as (t2 & E2 & C2). rewrite E in E2. apply Ok_inj in E2. subst. auto.
Qed.
Lemma set_wtd_inv t v n w a t' : carries t v n w -> set_wtd t (One (VArr a)) = Ok t' -> fitting es a /\ carries t' v n (Some a).
Proof using F.
  intros C E. pose proof C as (B & _). assert (L : fitting es a). { unfold set_wtd in E. inv_ok E. exact (tfill_fits es t _ _ all_sampleable B E0). } destruct (set_wtd_ok t v n w a C L) as (t2 & E2 & C2). rewrite E in E2. apply Ok_inj in E2. subst. auto.
Qed.

Lemma points_ok : boundary_points H c = Ok (map (fun s => fst (sx s)) smp, map (fun s => snd (sx s)) smp).
Proof using F. rewrite (boundary_points_ok H c ess F), smp_cell. reflexivity. Qed.
Lemma on_points_ok p : on_points p (map (fun s => fst (sx s)) smp) (map (fun s => snd (sx s)) smp) = samples_of es (at_smp (peval RS p)).
Proof. unfold on_points, samples_of. rewrite combine_map, map_map. reflexivity. Qed.
Lemma dot_ok V a b : cell_dot (dot_with V) (samples_of es a) (samples_of es b) H c = Ok (samples_of es (fun s => a s * fst (V s) + b s * snd (V s))).
Proof using F.
  rewrite (cell_dot_ok V H c ess _ _ F) by (rewrite total_cell; apply samples_fit). rewrite smp_cell. unfold zdot, samples_of. rewrite !zip_map. reflexivity.
Qed.
Lemma dx_ok a : cell_dx_norm (samples_of es a) H c = Ok (samples_of es (fun s => a s * sw s)).
Proof using F. rewrite (cell_dx_ok H c ess _ F) by (rewrite total_cell; apply samples_fit). rewrite smp_cell. unfold samples_of. rewrite zip_map. reflexivity. Qed.
Lemma deriv_ok V p : poly_deriv (dot_with V) p H c = Ok (samples_of es (weighted_deriv p V)).
Proof using F.
  unfold poly_deriv. rewrite points_ok. cbn [bind fst snd pgrad]. rewrite !on_points_ok, dot_ok. cbn [bind]. rewrite dx_ok. reflexivity.
Qed.

Definition hstep : R := 2 * PI * INR (List.length es) / IZR (csize es).
Lemma cell_nonempty : (2 <= csize es)%Z \/ es = [].
Proof using F. destruct es as [|e l] eqn:E; [right; reflexivity|left]. pose proof all_well as W. rewrite E in W. inversion W; subst. unfold csize. cbn [map]. change (total (open_num e :: map open_num l)) with (open_num e + csize l)%Z. pose proof (open_pos e ltac:(assumption)). pose proof (csize_nonneg l ltac:(assumption)). lia. Qed.
Lemma csize_uniform l : Forall (fun e => e_npts e = N) l -> csize l = (Z.of_nat (List.length l) * (N - 1))%Z.
Proof. induction 1 as [|e l E Ul IH]; [reflexivity|]. unfold csize in *. cbn [map List.length]. change (total (open_num e :: map open_num l)) with (open_num e + total (map open_num l))%Z. rewrite IH. unfold open_num. rewrite E. lia. Qed.
Lemma step_part l : l <> [] -> Forall well_sampled l -> Forall (fun e => e_npts e = N) l -> 2 * PI * INR (List.length l) / IZR (csize l) = 2 * PI / IZR (N - 1).
Proof.
  intros Nl W Ul. rewrite (csize_uniform l Ul), mult_IZR, INR_IZR_INZ. destruct l as [|e l]; [congruence|]. inversion W; inversion Ul; subst. match goal with A : well_sampled e |- _ => destruct A as (_ & _ & N3 & _) end.
  assert (0 < IZR (Z.of_nat (List.length (e :: l)))) by (apply IZR_lt; cbn [List.length]; lia). assert (0 < IZR (e_npts e - 1)) by (apply IZR_lt; lia). field. lra.
Qed.
Lemma hstep_uniform : es <> [] -> hstep = 2 * PI / IZR (N - 1).
Proof using F U. intros Ne. apply step_part; [exact Ne|exact all_well|apply Forall_concat, U]. Qed.
Lemma pre_ok v : fitting es v -> cell_integrate_preweighted v H c = Ok (hstep * sum_list v).
Proof using F NE U.
  intros L. destruct (ccut_exists ess v) as (vs & -> & C); [eapply fresh_all, F|rewrite total_cell; exact L|]. rewrite (cell_integrate_pre_ok H c ess vs F NE C). f_equal.
  assert (G : forall l, In l ess -> 2 * PI * INR (List.length l) / IZR (csize l) = hstep).
  { intros l I. pose proof NE as NE'. pose proof U as U'. rewrite Forall_forall in NE', U'. pose proof (fresh_all _ _ _ (proj1 F)) as W. rewrite Forall_forall in W. rewrite hstep_uniform; [apply step_part; auto|]. intros E. specialize (NE' l I). destruct l as [|e l]; [congruence|]. assert (In e es) by (apply in_concat; exists (e :: l); split; [exact I|left; reflexivity]). rewrite E in *. contradiction. }
  clear L. revert G. generalize hstep as h. intros h G. unfold ccut in C. clear -C G. revert vs C. induction ess as [|l ls IH]; intros vs C; inversion C; subst; cbn [combine map concat fst snd].
  - unfold sum_list. cbn. ring.
  - rewrite sum_app. change (sum_list (?a :: ?b)) with (a + sum_list b). rewrite IH by (intros; (apply G; right; assumption) || assumption). rewrite (G l) by (left; reflexivity). ring.
Qed.
Lemma int_ok a : cell_integrate (samples_of es a) H c = Ok (hstep * sum_list (samples_of es (fun s => a s * sw s))).
Proof using F NE U. unfold cell_integrate. rewrite (comps_guard _ _ _ (proj1 F)). cbn [bind]. rewrite dx_ok. cbn [bind]. apply pre_ok, samples_fit. Qed.

(** The samples in the form of IntPolyModel *)
Definition cell_bs : list bsample := map (fun s => BSample (fst (sx s)) (snd (sx s)) (fst (sN s)) (snd (sN s)) (hstep * sw s)) smp.
Lemma bsum_cell f : bsum cell_bs f = hstep * sum_list (map (fun s => f (BSample (fst (sx s)) (snd (sx s)) (fst (sN s)) (snd (sN s)) (hstep * sw s)) * sw s) smp).
Proof. unfold cell_bs. induction smp as [|s l IH]; [unfold sum_list; cbn; ring|]. cbn [map bsum]. rewrite IH. change (sum_list (?a :: ?b)) with (a + sum_list b). cbn [bs_w]. ring. Qed.
Lemma int_poly_ok p : int_poly p H c = Ok (integrate_poly_over_mesh_cell p cell_bs).
Proof using F NE U.
  unfold int_poly. rewrite points_ok. cbn [bind]. change dot_with_normal with (dot_with sN). change (map (fun s => fst (sx s)) smp) with (samples_of es (fun s => fst (sx s))). change (map (fun s => snd (sx s)) smp) with (samples_of es (fun s => snd (sx s))). rewrite dot_ok. cbn [bind]. unfold integrate_poly_over_mesh_cell. generalize 0 as a. induction p as [|m p IH]; intros a; [reflexivity|]. cbn [fold_res fold_left].
  unfold samples_of at 2 3. rewrite combine_map, map_map. cbn [fst snd]. rewrite np_mul_zip by (unfold samples_of; rewrite !map_length; reflexivity). cbn [bind]. unfold samples_of at 1. rewrite zip_map, map_map. fold (samples_of es (fun s => (fst (sx s) * fst (sN s) + snd (sx s) * snd (sN s)) * m_eval RS m (fst (sx s)) (snd (sx s)) / (2 + INR (morder (malpha m))))).
  rewrite int_ok. cbn [bind]. rewrite IH. do 2 f_equal. rewrite iob_bsum, bsum_cell. reflexivity.
Qed.
End Cell.
