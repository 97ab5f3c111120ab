(** Lemmas on the arrays of cells. *)
From Coq Require Import List ZArith Reals Lia Lra Bool Permutation String.
From Verif Require Import PyBase PolyModel BaryModel BBoxModel QuadModel VertModel EdgeModel EdgeSpec ContourModel CellModel CellSpec CellProofs CellProps ContourProofs ContourProofs2 EdgeProps4.
Import List ListNotations.
Open Scope R_scope.

(** A cell whose tables are up to date; [ess] are its sampled edges, contour by contour *)
Definition cell_fresh (H : heap) (c : cell) (ess : list (list edge)) : Prop :=
  Forall2 (fresh H) (c_comps c) ess /\ c_holes c = (Z.of_nat (List.length (c_comps c)) - 1)%Z /\
  c_npts c = Some (total (map csize ess)) /\ c_start c = Some (offsets (map csize ess)).

Lemma contour_smp_length es : Forall well_sampled es -> Z.of_nat (List.length (contour_smp es)) = csize es.
Proof. unfold contour_smp, csize. induction 1 as [|e es We W IH]; [reflexivity|]. cbn [map concat]. rewrite app_length, Nat2Z.inj_add, IH. rewrite (proj2 (open_pos e We)). unfold total. reflexivity. Qed.
Lemma csize_nonneg es : Forall well_sampled es -> (0 <= csize es)%Z.
Proof. intros W. rewrite <- (contour_smp_length es W). lia. Qed.
Lemma comps_guard H c ess : Forall2 (fresh H) (c_comps c) ess -> cell_guard H c = Ok tt.
Proof. intros F. unfold cell_guard. assert (E : forallb (all_param H) (c_comps c) = true); [|rewrite E; reflexivity]. induction F as [|k es ks ess Fk F IH]; [reflexivity|]. cbn. rewrite (fresh_guard _ _ _ Fk), IH. reflexivity. Qed.

Lemma cell_num_ok H c ess : Forall2 (fresh H) (c_comps c) ess -> cell_num_pts H c = Ok (with_tables c (Some (total (map csize ess))) (c_start c) (c_closest c)).
Proof.
  intros F. unfold cell_num_pts. rewrite (comps_guard _ _ _ F). cbn [bind].
  assert (G : forall a, fold_res (fun n k => do m <- attr (k_npts k); Ok (n + m)%Z) (c_comps c) a = Ok (a + total (map csize ess))%Z).
  { induction F as [|k es ks ess Fk F IH]; intros a; [cbn; f_equal; lia|]. cbn [fold_res map]. destruct Fk as (_ & _ & N & _). rewrite N. cbn [attr bind]. rewrite IH. f_equal. fold (csize es). change (total (csize es :: map csize ess)) with (csize es + total (map csize ess))%Z. lia. }
  rewrite G. reflexivity.
Qed.
Lemma cell_start_ok H c ess : Forall2 (fresh H) (c_comps c) ess -> cell_start_idx H c = Ok (with_tables c (c_npts c) (Some (offsets (map csize ess))) (c_closest c)).
Proof.
  intros F. unfold cell_start_idx. rewrite (comps_guard _ _ _ F). cbn [bind].
  assert (G : forall l a, fold_res (fun li k => do m <- attr (k_npts k); Ok (fst li ++ [snd li], (snd li + m)%Z)) (c_comps c) (l, a) = Ok (l ++ removelast (offsets_from a (map csize ess)), (a + total (map csize ess))%Z)).
  { induction F as [|k es ks ess Fk F IH]; intros l a; [cbn; rewrite app_nil_r, Z.add_0_r; reflexivity|]. cbn [fold_res map fst snd]. destruct Fk as (_ & _ & N & _). rewrite N. cbn [attr bind]. rewrite IH. cbn [offsets_from]. do 2 f_equal.
    - rewrite <- app_assoc. f_equal. cbn [app]. destruct (offsets_from (a + csize es) (map csize ess)) eqn:E; [pose proof (offsets_length (map csize ess) (a + csize es)) as L; rewrite E in L; discriminate|]. fold (csize es). rewrite E. reflexivity.
    - fold (csize es). change (total (csize es :: map csize ess)) with (csize es + total (map csize ess))%Z. lia. }
  rewrite G. cbn [bind app]. do 3 f_equal. rewrite Z.add_0_l. unfold offsets.
  assert (X : forall ns a, removelast (offsets_from a ns) ++ [(a + total ns)%Z] = offsets_from a ns).
  { induction ns as [|m ns IH]; intros a; [cbn; rewrite Z.add_0_r; reflexivity|]. cbn [offsets_from]. assert (RC : forall l, l <> [] -> removelast (a :: l) = a :: removelast l) by (intros [|? ?]; [congruence|reflexivity]). rewrite RC by (intros E; pose proof (offsets_length ns (a + m)) as L; rewrite E in L; discriminate). cbn [app]. f_equal. rewrite <- (IH (a + m)%Z) at 2. f_equal. f_equal. unfold total. cbn [fold_right]. lia. }
  specialize (X (map csize ess) 0%Z). rewrite Z.add_0_l in X. exact X.
Qed.

Lemma comp_range_ok c : c_holes c = (Z.of_nat (List.length (c_comps c)) - 1)%Z -> comp_range c = seq 0 (List.length (c_comps c)).
Proof. intros E. unfold comp_range. rewrite E. f_equal. lia. Qed.

Lemma comp_fill {A} (d : A) (f : contour -> Z -> Z -> res (list A)) H c ess vs : cell_fresh H c ess -> Forall2 (fun n v => Z.of_nat (List.length v) = n) (map csize ess) vs ->
  (forall i k es v, nth_error (c_comps c) i = Some k -> nth_error ess i = Some es -> fresh H k es -> nth_error vs i = Some v -> f k (total (firstn i (map csize ess))) (total (firstn (S i) (map csize ess))) = Ok v) ->
  fold_res (fun y i => do s <- attr (c_start c); do a <- geti s i; do b <- geti s (S i); do k <- geti (c_comps c) i; do v <- f k a b; set_slice y a b v) (comp_range c) (repeat d (Z.to_nat (total (map csize ess)))) = Ok (concat vs).
Proof.
  intros (F & EH & EN & ES) L Hf. rewrite (comp_range_ok c EH). pose proof (Forall2_len _ _ _ F) as L1. pose proof (Forall2_len _ _ _ L) as L2. rewrite map_length in L2.
  replace (Z.to_nat (total (map csize ess))) with (List.length (concat vs)) by (rewrite (nums_all _ _ L), Nat2Z.id; reflexivity). rewrite L1, L2. apply fill_all. intros i v p z r Ev Lp Lz. assert (Li : (i < List.length vs)%nat) by (apply nth_error_Some; congruence).
  destruct (nth_error ess i) as [es|] eqn:Ee; [|apply nth_error_None in Ee; lia]. destruct (nth_error (c_comps c) i) as [k|] eqn:Ek; [|apply nth_error_None in Ek; lia].
  rewrite ES. cbn [attr bind]. unfold geti, offsets. rewrite !offsets_nth by (rewrite map_length; lia). cbn [bind]. rewrite Ek. cbn [bind]. rewrite !Z.add_0_l. rewrite (Hf i k es v Ek Ee (Forall2_nth _ _ _ F _ _ _ Ek Ee) Ev). cbn [bind]. eapply nums_set; eassumption.
Qed.
Lemma cell_fill_ok f H c ess vs : cell_fresh H c ess -> Forall2 (fun n v => Z.of_nat (List.length v) = n) (map csize ess) vs ->
  (forall i k es v, nth_error (c_comps c) i = Some k -> nth_error ess i = Some es -> fresh H k es -> nth_error vs i = Some v -> f k (total (firstn i (map csize ess))) (total (firstn (S i) (map csize ess))) = Ok v) ->
  cell_fill c f = Ok (concat vs).
Proof. intros F L Hf. unfold cell_fill. pose proof F as (_ & _ & EN & _). rewrite EN. cbn [attr bind]. eapply comp_fill; eassumption. Qed.

Lemma fresh_all H ks ess : Forall2 (fresh H) ks ess -> Forall (Forall well_sampled) ess.
Proof. induction 1 as [|k es ks ess (_ & W & _) F IH]; constructor; assumption. Qed.
Lemma smp_lengths {B} (g : sample -> B) ess : Forall (Forall well_sampled) ess -> Forall2 (fun n v => Z.of_nat (List.length v) = n) (map csize ess) (map (fun es => map g (contour_smp es)) ess).
Proof. induction 1 as [|es ess W F IH]; constructor; [rewrite map_length; apply contour_smp_length, W|exact IH]. Qed.
Lemma concat_map_smp {B} (g : sample -> B) ess : concat (map (fun es => map g (contour_smp es)) ess) = map g (cell_smp ess).
Proof. unfold cell_smp. rewrite concat_map, map_map. reflexivity. Qed.

Lemma eval_boundary_ok g H c ess : cell_fresh H c ess -> eval_on_boundary g H c = Ok (map (at_smp g) (cell_smp ess)).
Proof.
  intros F. unfold eval_on_boundary. rewrite (comps_guard _ _ _ (proj1 F)). cbn [bind]. rewrite <- concat_map_smp. eapply cell_fill_ok; [exact F|apply smp_lengths; eapply fresh_all, F|]. intros i k es v Ek Ee Fk Ev. rewrite nth_error_map, Ee in Ev. injection Ev as <-. apply eval_contour_ok, Fk.
Qed.
Lemma boundary_points_ok H c ess : cell_fresh H c ess -> boundary_points H c = Ok (map (fun s => fst (sx s)) (cell_smp ess), map (fun s => snd (sx s)) (cell_smp ess)).
Proof.
  intros F. unfold boundary_points. rewrite (comps_guard _ _ _ (proj1 F)). cbn [bind].
  rewrite (cell_fill_ok _ H c ess (map (fun es => map (fun s => fst (sx s)) (contour_smp es)) ess) F); [|apply smp_lengths; eapply fresh_all, F|intros i k es v Ek Ee Fk Ev; rewrite nth_error_map, Ee in Ev; injection Ev as <-; rewrite (contour_points_ok _ _ _ Fk); reflexivity]. cbn [bind].
  rewrite (cell_fill_ok _ H c ess (map (fun es => map (fun s => snd (sx s)) (contour_smp es)) ess) F); [|apply smp_lengths; eapply fresh_all, F|intros i k es v Ek Ee Fk Ev; rewrite nth_error_map, Ee in Ev; injection Ev as <-; rewrite (contour_points_ok _ _ _ Fk); reflexivity]. cbn [bind].
  rewrite !concat_map_smp. reflexivity.
Qed.

Lemma zip_app f (a a' b b' : list R) : List.length a = List.length a' -> zip_with f (a ++ b) (a' ++ b') = zip_with f a a' ++ zip_with f b b'.
Proof. revert a'. unfold zip_with. induction a as [|x a IHa]; intros [|y a'] E; try discriminate; [reflexivity|]. cbn. f_equal. apply IHa. cbn in E. lia. Qed.

(** ** Arrays cut contour by contour *)
Definition zdot (v : sample -> pt) (c1 c2 : list R) (l : list sample) : list R :=
  zip_with Rplus (zip_with Rmult c1 (map (fun s => fst (v s)) l)) (zip_with Rmult c2 (map (fun s => snd (v s)) l)).

Lemma contour_dot_ok v H k es c1 c2 : fresh H k es -> Z.of_nat (List.length c1) = csize es -> Z.of_nat (List.length c2) = csize es -> contour_dot (dot_with v) c1 c2 H k = Ok (zdot v c1 c2 (contour_smp es)).
Proof. intros F L1 L2. pose proof F as (_ & W & _). destruct (cut_exists es c1 W L1) as (b1 & E1 & C1). destruct (cut_exists es c2 W L2) as (b2 & E2 & C2). exact (dot_contour_ok v H k es c1 c2 b1 b2 F E1 E2 C1 C2). Qed.
Lemma zip_concat es : forall vs, Forall well_sampled es -> cut es vs -> concat (map (fun ev => zip_with Rmult (snd ev) (map sw (open_smp (fst ev)))) (combine es vs)) = zip_with Rmult (concat vs) (map sw (contour_smp es)).
Proof.
  unfold contour_smp. intros vs W C. revert W. unfold cut in C. induction C as [|e v es vs Hv C IH]; intros W; [reflexivity|]. inversion W; subst. cbn [combine map concat fst snd]. rewrite IH by assumption. rewrite map_app, zip_app; [reflexivity|]. rewrite map_length. pose proof (open_pos e ltac:(assumption)). lia.
Qed.
Lemma contour_dx_ok H k es v : fresh H k es -> Z.of_nat (List.length v) = csize es -> contour_dx_norm v H k = Ok (zip_with Rmult v (map sw (contour_smp es))).
Proof. intros F L. pose proof F as (_ & W & _). destruct (cut_exists es v W L) as (b & -> & C). rewrite (dx_contour_ok H k es b F C). rewrite zip_concat by assumption. reflexivity. Qed.

Definition ccut (ess : list (list edge)) (vs : list (list R)) : Prop := Forall2 (fun n v => Z.of_nat (List.length v) = n) (map csize ess) vs.
Lemma ccut_nth ess vs i es v : ccut ess vs -> nth_error ess i = Some es -> nth_error vs i = Some v -> Z.of_nat (List.length v) = csize es.
Proof. intros C Ee Ev. refine (Forall2_nth _ _ _ C i _ _ _ Ev). rewrite nth_error_map, Ee. reflexivity. Qed.
Lemma ccut_exists ess l : Forall (Forall well_sampled) ess -> Z.of_nat (List.length l) = total (map csize ess) -> exists vs, l = concat vs /\ ccut ess vs.
Proof. intros W L. apply nums_cut; [|exact L]. apply Forall_map. eapply Forall_impl; [|exact W]. intros es. apply csize_nonneg. Qed.
Lemma ccut_total ess vs : ccut ess vs -> Z.of_nat (List.length (concat vs)) = total (map csize ess).
Proof. intros C. symmetry. apply nums_all, C. Qed.
Lemma zdot_length v c1 c2 l : List.length c1 = List.length l -> List.length c2 = List.length l -> List.length (zdot v c1 c2 l) = List.length l.
Proof. intros A B. unfold zdot. rewrite !zip_length; rewrite ?zip_length; rewrite ?map_length; congruence. Qed.
Lemma zdot_app v a1 a2 b1 b2 l m : List.length a1 = List.length l -> List.length a2 = List.length l -> zdot v (a1 ++ b1) (a2 ++ b2) (l ++ m) = zdot v a1 a2 l ++ zdot v b1 b2 m.
Proof. intros A B. unfold zdot. rewrite !map_app, !zip_app; rewrite ?zip_length; rewrite ?map_length; congruence. Qed.

Lemma cell_dot_ok v H c ess c1 c2 : cell_fresh H c ess -> Z.of_nat (List.length c1) = total (map csize ess) -> Z.of_nat (List.length c2) = total (map csize ess) -> cell_dot (dot_with v) c1 c2 H c = Ok (zdot v c1 c2 (cell_smp ess)).
Proof.
  intros F L1 L2. pose proof (fresh_all _ _ _ (proj1 F)) as W. unfold cell_dot. rewrite (comps_guard _ _ _ (proj1 F)). cbn [bind]. pose proof F as (_ & _ & EN & _). rewrite EN. cbn [attr bind]. rewrite L1, L2, Z.eqb_refl. cbn [andb].
  destruct (ccut_exists ess c1 W L1) as (b1 & -> & C1). destruct (ccut_exists ess c2 W L2) as (b2 & -> & C2).
  rewrite (cell_fill_ok _ H c ess (map (fun ev => zdot v (fst (snd ev)) (snd (snd ev)) (contour_smp (fst ev))) (combine ess (combine b1 b2))) F).
  - f_equal. unfold cell_smp. clear -W C1 C2. revert b1 b2 C1 C2. induction W as [|es ess We W IH]; intros b1 b2 C1 C2; inversion C1; inversion C2; subst; [reflexivity|]. cbn [combine map concat fst snd]. rewrite IH by assumption. rewrite zdot_app; [reflexivity| |]; pose proof (contour_smp_length es We); lia.
  - clear -W C1 C2. revert b1 b2 C1 C2. induction W as [|es ess We W IH]; intros b1 b2 C1 C2; inversion C1; inversion C2; subst; [constructor|]. cbn [combine map concat fst snd]. pose proof (contour_smp_length es We). constructor; [rewrite zdot_length; lia|apply IH; assumption].
  - intros i k es w Ek Ee Fk Ew. rewrite nth_error_map, nth_error_combine, Ee, nth_error_combine in Ew. destruct (nth_error b1 i) as [u1|] eqn:E1; [|discriminate]. destruct (nth_error b2 i) as [u2|] eqn:E2; [|discriminate]. injection Ew as <-. cbn [fst snd]. rewrite (nums_slice _ _ _ _ C1 E1), (nums_slice _ _ _ _ C2 E2). apply contour_dot_ok; [exact Fk|exact (ccut_nth _ _ _ _ _ C1 Ee E1)|exact (ccut_nth _ _ _ _ _ C2 Ee E2)].
Qed.
Lemma cell_dx_ok H c ess v : cell_fresh H c ess -> Z.of_nat (List.length v) = total (map csize ess) -> cell_dx_norm v H c = Ok (zip_with Rmult v (map sw (cell_smp ess))).
Proof.
  intros F L. pose proof (fresh_all _ _ _ (proj1 F)) as W. unfold cell_dx_norm. rewrite (comps_guard _ _ _ (proj1 F)). cbn [bind]. pose proof F as (_ & _ & EN & _). rewrite EN. cbn [attr bind]. rewrite L, Z.eqb_refl.
  destruct (ccut_exists ess v W L) as (b & -> & C).
  rewrite (cell_fill_ok _ H c ess (map (fun ev => zip_with Rmult (snd ev) (map sw (contour_smp (fst ev)))) (combine ess b)) F).
  - f_equal. unfold cell_smp. clear -W C. revert b C. induction W as [|es ess We W IH]; intros b C; inversion C; subst; [reflexivity|]. cbn [combine map concat fst snd]. rewrite IH by assumption. rewrite map_app, zip_app; [reflexivity|]. rewrite map_length. pose proof (contour_smp_length es We). lia.
  - clear -W C. revert b C. induction W as [|es ess We W IH]; intros b C; inversion C; subst; [constructor|]. cbn [combine map concat fst snd]. pose proof (contour_smp_length es We). constructor; [rewrite zip_length; rewrite ?map_length; lia|apply IH; assumption].
  - intros i k es w Ek Ee Fk Ew. rewrite nth_error_map, nth_error_combine, Ee in Ew. destruct (nth_error b i) as [u|] eqn:E1; [|discriminate]. injection Ew as <-. cbn [fst snd]. rewrite (nums_slice _ _ _ _ C E1). apply contour_dx_ok; [exact Fk|]. exact (ccut_nth _ _ _ _ _ C Ee E1).
Qed.
Lemma cell_integrate_pre_ok H c ess vs : cell_fresh H c ess -> Forall (fun es => es <> []) ess -> ccut ess vs ->
  cell_integrate_preweighted (concat vs) H c = Ok (sum_list (map (fun ev => 2 * PI * INR (List.length (fst ev)) / IZR (csize (fst ev)) * sum_list (snd ev)) (combine ess vs))).
Proof.
  intros F NE C. pose proof (fresh_all _ _ _ (proj1 F)) as W. unfold cell_integrate_preweighted. rewrite (comps_guard _ _ _ (proj1 F)). cbn [bind]. pose proof F as (FK & _ & EN & _). rewrite EN. cbn [attr bind]. rewrite (ccut_total _ _ C), Z.eqb_refl.
  rewrite (cell_fill_ok _ H c ess (map (fun ev => map (fun x => 2 * PI * INR (List.length (fst ev)) / IZR (csize (fst ev)) * x) (snd ev)) (combine ess vs)) F).
  - cbn [bind]. f_equal. change np_sum with sum_list. clear. revert vs. induction ess as [|es ess IH]; intros [|v vs]; try reflexivity. cbn [combine map concat fst snd]. rewrite sum_app, sum_scale, IH. reflexivity.
  - clear -C. unfold ccut in C. revert vs C. induction ess as [|es ess IH]; intros vs C; inversion C; subst; [constructor|]. cbn [combine map fst snd]. constructor; [rewrite map_length; assumption|apply IH; assumption].
  - intros i k es w Ek Ee Fk Ew. rewrite nth_error_map, nth_error_combine, Ee in Ew. destruct (nth_error vs i) as [u|] eqn:E1; [|discriminate]. injection Ew as <-. cbn [fst snd]. rewrite (nums_slice _ _ _ _ C E1). destruct Fk as (R & We & N & _). rewrite N. cbn [attr bind]. fold (csize es). unfold k_num. rewrite (Forall2_len _ _ _ R).
    destruct (Z.eqb_spec (csize es) 0) as [Z0|]; [|reflexivity]. exfalso. rewrite Forall_forall in NE. specialize (NE es (nth_error_In _ _ Ee)). destruct es as [|e es]; [congruence|]. inversion We; subst. unfold csize in Z0. cbn [map] in Z0. change (total (open_num e :: map open_num es)) with (open_num e + csize es)%Z in Z0. pose proof (open_pos e ltac:(assumption)). pose proof (csize_nonneg es ltac:(assumption)). lia.
Qed.
