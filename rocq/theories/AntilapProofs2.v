(** The arrays of antilap.py on cells. *)
From Coq Require Import List ZArith Reals Lia Lra Bool.
From Coquelicot Require Import Coquelicot.
From Verif Require Import PyBase PolyModel PolySpec BaryModel VertModel EdgeModel EdgeSpec EdgeProps4 ContourModel CellModel CellSpec CellProofs CellProps ContourProofs ContourProofs3 ContourProps CellProps3 TraceModel TraceSpec TraceProofs LocalProofs3 LocalModel LocalSpec LocalProofs LocalProofs2 LocalProofs5 FftModel FftSpec FftProofs FftProofs2 FftProofs3 FftProps AntilapModel AntilapSpec AntilapProofs.
Import List ListNotations.
Open Scope R_scope.

(** ** The antiderivative of resolved data *)
Lemma samples_nonneg L N (f g : R -> R) : (forall t, f t = g t) -> samples L N f = samples L N g.
Proof. intros E. unfold samples. apply map_ext. intros j. apply E. Qed.
Lemma resolved_anti es f d : es <> [] -> contour_smp es <> [] -> resolved_on es f d ->
  fft_antiderivative (samples_of es d) (2 * PI * INR (List.length es)) = Ok (samples_of es (fun s => f s - mean (samples_of es f))).
Proof.
  intros NE NS (T & dT & Rs & Ef & Dd & Ed). set (L := 2 * PI * INR (List.length es)) in *. set (N := List.length (contour_smp es)) in *.
  assert (LZ : L <> 0). { unfold L. pose proof PI_neq0. apply Rmult_integral_contrapositive_currified; [lra|]. apply not_0_INR. destruct es; [congruence|discriminate]. }
  assert (NP : (0 < N)%nat) by (unfold N; destruct (contour_smp es); [congruence|cbn; lia]). assert (Lf : List.length (samples_of es f) = N) by (unfold samples_of; apply map_length). assert (Nf : samples_of es f <> []) by (intros Z; rewrite Z in Lf; cbn in Lf; lia).
  assert (Rs' : resolved N T) by (eapply Forall_impl; [|exact Rs]; intros [m [a b]] Q; left; exact Q).
  destruct (C57_derivative (samples_of es f) L T Nf LZ) as (d' & D1 & D2); [rewrite Lf; exact Rs'|rewrite Lf; exact Ef|]. rewrite Lf in D2.
  assert (E : samples L N d' = samples_of es d). { rewrite Ed. apply samples_nonneg. intros t. eapply uniqueness_limite; [apply D1|apply Dd]. }
  rewrite E in D2. destruct (C57_inverse (samples_of es f) L Nf LZ) as [(df & E1 & E2) _]. rewrite D2 in E1. apply Ok_inj in E1. subst df. rewrite E2.
  assert (A : alternating (samples_of es f) = 0).
  { rewrite Ef, alternating_terms by assumption. clear -Rs. induction Rs as [|[m [a b]] T Q Rs IH]; [reflexivity|]. cbn [map fst snd]. rewrite sum_cons, IH. unfold lost. cbn [fst] in Q. destruct (Z.eqb_spec (2 * Z.abs m) (Z.of_nat N)); [lia|ring]. }
  rewrite A. f_equal. transitivity (map (fun x => x - mean (samples_of es f)) (map (fun j => nth j (samples_of es f) 0) (seq 0 (List.length (samples_of es f))))); [rewrite map_map; apply map_ext; intros j; ring|]. rewrite <- as_list. unfold samples_of at 2 3. rewrite map_map. reflexivity.
Qed.

(** ** Blocks *)
Lemma fold_blocks (step : list R -> nat * contour -> res (list R)) ks : forall a p vs ws, List.length vs = List.length ks -> List.length ws = List.length ks ->
  (forall i k v w r q, nth_error ks i = Some k -> nth_error vs i = Some v -> nth_error ws i = Some w -> List.length q = List.length (p ++ concat (firstn i vs)) -> step (q ++ v ++ r) ((a + i)%nat, k) = Ok (q ++ w ++ r)) ->
  Forall2 (fun v w : list R => List.length v = List.length w) vs ws ->
  fold_res step (combine (seq a (List.length ks)) ks) (p ++ concat vs) = Ok (p ++ concat ws).
Proof.
  induction ks as [|k ks IH]; intros a p [|v vs] [|w ws] Lv Lw Hs FL; try discriminate; [reflexivity|]. inversion FL as [|? ? ? ? L1 FL']; subst. cbn [List.length seq combine fold_res concat].
  rewrite <- (Nat.add_0_r a) at 1. rewrite (Hs 0%nat k v w (concat vs) p) by (reflexivity || (cbn [firstn concat]; rewrite app_nil_r; reflexivity)). cbn [bind].
  rewrite (app_assoc p w (concat vs)), (app_assoc p w (concat ws)). apply IH; [cbn in Lv; lia|cbn in Lw; lia| |exact FL'].
  intros i k' v' w' r q Ek Ev Ew Lq. replace (S a + i)%nat with (a + S i)%nat by lia. apply Hs; try assumption. rewrite Lq. cbn [firstn concat]. rewrite !app_length. lia.
Qed.

Lemma samples_concat ess f : samples_of (concat ess) f = concat (map (fun es => samples_of es f) ess).
Proof. unfold samples_of. induction ess as [|l ls IH]; [reflexivity|]. cbn [concat map]. rewrite <- IH. unfold contour_smp. rewrite map_app, concat_app, map_app. reflexivity. Qed.
Lemma samples_cut ess f : Forall (Forall well_sampled) ess -> ccut ess (map (fun es => samples_of es f) ess).
Proof. unfold ccut. induction 1 as [|l ls W F IH]; cbn [map]; constructor; [|exact IH]. unfold samples_of. rewrite map_length. apply contour_smp_length, W. Qed.

Section Cell.
Context {H : heap} {c : cell} {ess : list (list edge)} {N : Z}.
Hypothesis F : cell_fresh H c ess.
Hypothesis NE : Forall (fun es => es <> []) ess.
Hypothesis U : Forall (Forall (fun e => e_npts e = N)) ess.
Local Notation es := (concat ess).
Local Notation smp := (contour_smp (concat ess)).
Local Notation S_ := (samples_of (concat ess)).

Lemma s_mul a b : np_mul (S_ a) (S_ b) = Ok (S_ (fun s => a s * b s)).
Proof. unfold samples_of. rewrite LocalProofs.np_mul_zip by (rewrite !map_length; reflexivity). rewrite zip_map. reflexivity. Qed.
Lemma s_add a b : np_add (S_ a) (S_ b) = Ok (S_ (fun s => a s + b s)).
Proof. unfold samples_of. rewrite np_add_zip by (rewrite !map_length; reflexivity). change TraceProofs.zip with zip_with. rewrite zip_map. reflexivity. Qed.
Lemma s_sub a b : np_sub (S_ a) (S_ b) = Ok (S_ (fun s => a s - b s)).
Proof. unfold samples_of. rewrite np_sub_zip by (rewrite !map_length; reflexivity). rewrite zip_map. reflexivity. Qed.
Lemma s_iadd a b : np_iadd (S_ a) (S_ b) = Ok (S_ (fun s => a s + b s)).
Proof. unfold samples_of. rewrite np_iadd_zip by (rewrite !map_length; reflexivity). rewrite zip_map. reflexivity. Qed.
Lemma s_map g a : map g (S_ a) = S_ (fun s => g (a s)).
Proof. unfold samples_of. apply map_map. Qed.
Lemma s_ext a b : (forall s, a s = b s) -> S_ a = S_ b.
Proof. intros E. apply map_ext, E. Qed.
Lemma s_points : boundary_points H c = Ok (S_ (fun s => fst (sx s)), S_ (fun s => snd (sx s))).
Proof using F. exact (points_ok F). Qed.
Lemma s_tang a b : tang H c (S_ a) (S_ b) = Ok (S_ (fun s => (a s * fst (sT s) + b s * snd (sT s)) * sw s)).
Proof using F. unfold tang, dot_with_tangent. rewrite (dot_ok F). cbn [bind]. apply (dx_ok F). Qed.
Lemma s_norm a b : norm H c (S_ a) (S_ b) = Ok (S_ (fun s => (a s * fst (sN s) + b s * snd (sN s)) * sw s)).
Proof using F. unfold norm, dot_with_normal. rewrite (dot_ok F). cbn [bind]. apply (dx_ok F). Qed.

(** _antilap_from_components *)
Lemma components_ok r s u v : from_components H c (S_ (at_smp r)) (S_ (at_smp s)) (S_ (at_smp u)) (S_ (at_smp v)) = Ok (S_ (at_smp (four r s)), S_ (weighted_in sN (four1 r u v) (four2 s u v))).
Proof using F.
  unfold from_components. rewrite s_points. cbv zeta. cbn [bind]. repeat (first [rewrite s_mul | rewrite s_add | rewrite s_sub]; cbn [bind]). rewrite !s_map. unfold dot_with_normal. rewrite (dot_ok F). cbn [bind]. rewrite (dx_ok F). cbn [bind]. reflexivity.
Qed.

(** Integrals over one component *)
Lemma comp_int i k l f : nth_error (c_comps c) i = Some k -> nth_error ess i = Some l -> contour_integrate (samples_of l f) H k = Ok (contour_sum l (fun s => f s * sw s)).
Proof using F NE U.
  intros Ek El. pose proof (Forall2_nth _ _ _ (proj1 F) _ _ _ Ek El) as Fk. assert (W : Forall well_sampled l) by apply Fk. pose proof (nth_error_In _ _ El) as Il. pose proof NE as NE'. pose proof U as U'. rewrite Forall_forall in NE', U'. specialize (NE' l Il). specialize (U' l Il).
  destruct (cut_exists l (samples_of l f) W) as (vs & Ev & Cu); [unfold samples_of; rewrite map_length; exact (contour_smp_length l W)|]. rewrite Ev, (integrate_contour_ok H k l vs Fk Cu). f_equal. rewrite <- (uniform_sum N l vs); try assumption.
  - unfold contour_sum. f_equal. rewrite <- Ev. unfold samples_of. rewrite zip_map. reflexivity.
  - destruct l as [|e l]; [congruence|]. inversion W as [|? ? We]; inversion U'; subst. destruct We as (_ & _ & N3 & _). lia.
Qed.

(** ** The constants of integration *)
Lemma start_ok j : (j <= List.length ess)%nat -> exists s, c_start c = Some s /\ geti s j = Ok (total (firstn j (map csize ess))).
Proof using F.
  intros L. destruct F as (_ & _ & _ & ES). eexists. split; [exact ES|]. unfold geti, offsets. rewrite offsets_nth by (rewrite map_length; exact L). reflexivity.
Qed.
Definition eta_ok (eta : list trace) (f n : sample -> R) : Prop :=
  forall m l, nth_error ess (S m) = Some l -> exists t e, nth_error eta m = Some t /\ tr_vals t = Some e /\ fitting es e /\
  contour_sum l (fun s => f s * sw s) = hstep (ess := ess) * sum_list (zip_with Rmult e (S_ n)).
Lemma wells : Forall (Forall well_sampled) ess.
Proof using F. exact (fresh_all _ _ _ (proj1 F)). Qed.
Lemma smp_nonempty l : In l ess -> contour_smp l <> [].
Proof using F NE.
  intros I Z. pose proof wells as W. pose proof NE as NE'. rewrite Forall_forall in W, NE'. specialize (W l I). specialize (NE' l I). pose proof (contour_smp_length l W) as L. rewrite Z in L. cbn in L. destruct l as [|e l]; [congruence|]. inversion W as [|? ? We W']; subst. unfold csize, total in L. cbn [map fold_right] in L. pose proof (proj1 (open_pos e We)). pose proof (csize_nonneg l W') as Y. unfold csize, total in Y. lia.
Qed.
Lemma anti_comps f d : (forall l, In l ess -> resolved_on l f d) -> antiderivative_components c (S_ d) = Ok (concat (map (fun l => samples_of l (fun s => f s - mean (samples_of l f))) ess)).
Proof using F NE.
  intros Hr. unfold antiderivative_components. eapply cell_fill_ok; [exact F| |].
  - pose proof wells as W. clear -W. unfold ccut. induction W as [|l ls Wl W IH]; cbn [map]; constructor; [|exact IH]. unfold samples_of. rewrite map_length. apply contour_smp_length, Wl.
  - intros i k l v Ek El Fk Ev. rewrite nth_error_map, El in Ev. cbn [option_map] in Ev. injection Ev as <-. cbv beta. rewrite samples_concat, (nums_slice (map csize ess) _ i (samples_of l d) (samples_cut ess d wells)) by (rewrite nth_error_map, El; reflexivity). destruct Fk as (Rf & _). unfold k_num. rewrite (Forall2_len _ _ _ Rf). pose proof (nth_error_In _ _ El) as Il. pose proof NE as NE'. rewrite Forall_forall in NE'. apply resolved_anti; auto using smp_nonempty.
Qed.
Lemma contour_sum_shift l f k : contour_sum l (fun s => (f s - k) * sw s) = contour_sum l (fun s => f s * sw s) - k * contour_sum l sw.
Proof. unfold contour_sum, samples_of. induction (contour_smp l) as [|s t IH]; [unfold sum_list; cbn; ring|]. cbn [map]. rewrite !sum_cons. nra. Qed.
Lemma ones l : Forall well_sampled l -> repeat 1 (Z.to_nat (csize l)) = samples_of l (fun _ => 1).
Proof. intros W. rewrite <- (contour_smp_length l W), Nat2Z.id. unfold samples_of. induction (contour_smp l) as [|s t IH]; [reflexivity|]. cbn. f_equal. exact IH. Qed.

Lemma recover_ok Nn t v0 f n d eta : as_eta Nn = Some eta -> carries (ess := ess) t v0 (Some (S_ n)) (Some (S_ d)) ->
  (forall l, In l ess -> resolved_on l f d /\ contour_sum l sw <> 0) -> (forall l, nth_error ess 0 = Some l -> contour_sum l (fun s => f s * sw s) = 0) -> eta_ok eta f n ->
  exists t', recover Nn H c t = Ok t' /\ carries (ess := ess) t' (S_ f) (Some (S_ n)) (Some (S_ d)).
Proof using F NE U.
  intros Ee (B & _ & En & Ed) Hr H0 He. unfold recover. rewrite Ee, En, Ed. rewrite (anti_comps f d) by (intros l I; apply Hr, I). cbn [bind]. set (vs := map (fun l => samples_of l (fun s => f s - mean (samples_of l f))) ess). set (ws := map (fun l => samples_of l f) ess).
  assert (Cv : ccut ess vs). { unfold vs. pose proof (fresh_all _ _ _ (proj1 F)) as W. clear -W. unfold ccut. induction W as [|l ls Wl W IH]; cbn [map]; constructor; [|exact IH]. unfold samples_of. rewrite map_length. apply contour_smp_length, Wl. }
  assert (Fv : fitting es (concat vs)) by (unfold fitting; rewrite (ccut_total ess vs Cv); apply total_cell).
  unfold set_trace_values. rewrite (tfill_arr es) by (exact (all_sampleable F) || exact B || exact Fv). cbn [bind with_vals tr_vals attr].
  pose proof (Forall2_len _ _ _ (proj1 F)) as LF.
  match goal with |- context [fold_res ?st _ _] => assert (X : fold_res st (combine (seq 0 (List.length (c_comps c))) (c_comps c)) ([] ++ concat vs) = Ok ([] ++ concat ws)) end.
  { apply fold_blocks.
    - unfold vs. rewrite map_length. symmetry. exact LF.
    - unfold ws. rewrite map_length. symmetry. exact LF.
    - intros i k v w r q Ek Ev Ew Lq. cbn [app] in Lq. cbn [Nat.add]. assert (Li : (i < List.length ess)%nat) by (rewrite <- LF; apply nth_error_Some; congruence). destruct (nth_error ess i) as [l|] eqn:El; [|apply nth_error_None in El; lia].
      unfold vs in Ev. unfold ws in Ew. rewrite nth_error_map, El in Ev, Ew. cbn [option_map] in Ev, Ew. injection Ev as <-. injection Ew as <-. pose proof (nth_error_In _ _ El) as Il. pose proof wells as W. rewrite Forall_forall in W. specialize (W l Il). destruct (Hr l Il) as [_ Ha].
      pose proof (Forall2_nth _ _ _ (proj1 F) _ _ _ Ek El) as (_ & _ & Kn & _). rewrite Kn. cbn [attr bind]. change (total (map open_num l)) with (csize l). rewrite (ones l W), (comp_int i k l _ Ek El). cbn [bind].
      replace (contour_sum l (fun s => 1 * sw s)) with (contour_sum l sw) by (unfold contour_sum, samples_of; do 2 f_equal; apply map_ext; intros; ring). set (arc := contour_sum l sw) in *.
      destruct (start_ok i) as (st & Es & Eg); [lia|]. rewrite Es. cbn [attr bind]. rewrite Eg. cbn [bind].
      set (o := total (firstn i (map csize ess))).
      assert (Lo : Z.to_nat o = List.length q) by (unfold o; rewrite (nums_off _ vs Cv i), Nat2Z.id; symmetry; exact Lq). assert (Oo : (0 <= o)%Z) by (unfold o; rewrite (nums_off _ vs Cv i); lia).
      assert (Lc : forall g : sample -> R, Z.to_nat (o + csize l) = (List.length q + List.length (samples_of l g))%nat) by (intros g; unfold samples_of; rewrite map_length; pose proof (contour_smp_length l W); lia).
      rewrite (slice_block q _ r o (o + csize l) Lo (Lc _)). rewrite (comp_int i k l _ Ek El). cbn [bind]. rewrite (set_slice_block q _ r _ o (o + csize l) Lo (Lc _)) by (rewrite map_length; reflexivity). cbn [bind].
      rewrite contour_sum_shift. fold arc. assert (Y : map (fun x => x - (contour_sum l (fun s => f s * sw s) - mean (samples_of l f) * arc) / arc) (samples_of l (fun s => f s - mean (samples_of l f))) = samples_of l (fun s => f s - contour_sum l (fun s => f s * sw s) / arc)) by (unfold samples_of; rewrite map_map; apply map_ext; intros s; field; exact Ha).
      rewrite Y. destruct i as [|m].
      + rewrite (H0 l El). f_equal. f_equal. f_equal. unfold samples_of. apply map_ext. intros s. field. exact Ha.
      + destruct (He m l El) as (t1 & e & E1 & E2 & E3 & E4). rewrite (geti_nth _ _ _ E1). cbn [bind]. rewrite E2. cbn [attr bind]. rewrite LocalProofs.np_mul_zip by (unfold fitting in E3; pose proof (samples_fit F n) as Q; unfold fitting in Q; lia). cbn [bind]. rewrite (pre_ok F NE U) by (unfold fitting; rewrite EdgeProps4.zip_length by (unfold fitting in E3; pose proof (samples_fit F n) as Q; unfold fitting in Q; lia); exact E3). cbn [bind]. rewrite <- E4.
        rewrite (slice_block q _ r o (o + csize l) Lo (Lc _)), (set_slice_block q _ r _ o (o + csize l) Lo (Lc _)) by (rewrite map_length; reflexivity). f_equal. f_equal. f_equal. unfold samples_of. rewrite map_map. apply map_ext. intros s. field. exact Ha.
    - unfold vs, ws. clear. induction ess as [|l ls IH]; cbn [map]; constructor; [unfold samples_of; rewrite !map_length; reflexivity|exact IH]. }
  cbn [app] in X. cbn [attr with_vals tr_vals bind]. rewrite X. cbn [bind]. eexists. split; [reflexivity|]. unfold ws. rewrite <- samples_concat.
  destruct B as (B1 & B2 & B3 & B4 & B5 & B6). split; [|repeat split; assumption]. split; [exact B1|]. split; [exact B2|]. split; [exact B3|]. split; [cbn; apply (samples_fit F)|]. split; [exact B5|exact B6].
Qed.
End Cell.
