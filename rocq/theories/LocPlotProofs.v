(** Lemmas on plots of local functions. *)
From Coq Require Import List ZArith Reals Lia Lra Bool String.
From Verif Require Import PyBase PolyModel PolySpec PolyProofs PolyProofs2 PolyProofs3 PolyProofs4 PolyProps BaryModel VertModel EdgeModel EdgeSpec EdgeProps4 ContourModel CellModel CellSpec CellProofs CellProps ContourProofs ContourProofs2 ContourProofs3 ContourProps CellProps3 TraceModel TraceSpec TraceProofs IntPolyModel LocalModel LocalSpec LocalProofs LocalProofs2 LocalProofs3 PlotModel LocPlotModel LocPlotSpec.
Import List ListNotations.
Open Scope R_scope.

(** The four arrays of derivatives of a function *)
Definition derivs (es : list edge) (u : lpois) : Prop :=
  tr_wnd (lh_trace (u_harm u)) = Some (nd (lh_trace (u_harm u))) /\ tr_wtd (lh_trace (u_harm u)) = Some (td (lh_trace (u_harm u))) /\
  tr_wnd (lp_trace (u_poly u)) = Some (nd (lp_trace (u_poly u))) /\ tr_wtd (lp_trace (u_poly u)) = Some (td (lp_trace (u_poly u))) /\
  fitting es (nd (lh_trace (u_harm u))) /\ fitting es (td (lh_trace (u_harm u))) /\ fitting es (nd (lp_trace (u_poly u))) /\ fitting es (td (lp_trace (u_poly u))).
Lemma good_derivs c ess u : @u_good c ess u -> derivs (concat ess) u.
Proof.
  intros ((v & n & w & q & m & A1 & _) & (hv & hn & hw & hp & hq & hb & hd & B1 & _) & _).
  pose proof (carries_len _ _ _ _ A1) as (_ & L1 & L2). pose proof (carries_len _ _ _ _ B1) as (_ & L3 & L4).
  destruct A1 as (_ & _ & E1 & E2). destruct B1 as (_ & _ & E3 & E4). unfold derivs, nd, td. rewrite E1, E2, E3, E4. repeat (split; [reflexivity|]). repeat split; assumption.
Qed.

(** Resampling with as many points keeps the tables *)
Lemma resized_csize es es' : Forall2 (fun e e' => well_sampled e' /\ e_npts e' = e_npts e) es es' -> map open_num es' = map open_num es.
Proof. induction 1 as [|e e' es es' (_ & E) _ IH]; [reflexivity|]. cbn [map]. unfold open_num at 1 3. rewrite E, IH. reflexivity. Qed.
Lemma resized_sizes ess ess' : resized ess ess' -> map csize ess' = map csize ess.
Proof. induction 1 as [|es es' ess ess' E _ IH]; [reflexivity|]. cbn [map]. unfold csize at 1 3. rewrite (resized_csize _ _ E), IH. reflexivity. Qed.
Lemma resized_fresh H H' c ess ess' : cell_fresh H c ess -> boundary_edges H' c ess' -> resized ess ess' -> cell_fresh H' c ess'.
Proof.
  intros (F & E1 & E2 & E3) B Z. split; [|split; [exact E1|rewrite (resized_sizes _ _ Z); auto]]. unfold boundary_edges in B. clear -F B Z. revert ess' B Z. induction F as [|k es ks ess (R & W & N & V) F IH]; intros ess' B Z; inversion B; subst; inversion Z; subst; constructor; [|apply IH; assumption].
  split; [assumption|]. rewrite <- (resized_csize es y) in N, V by assumption. split; [|auto]. match goal with X : Forall2 _ es y |- _ => clear -X; induction X as [|? ? ? ? (? & _)]; constructor; assumption end.
Qed.
Lemma resized_total ess ess' : resized ess ess' -> csize (concat ess') = csize (concat ess).
Proof. intros Z. rewrite <- !total_cell, (resized_sizes _ _ Z). reflexivity. Qed.

Section Cell.
Context {H : heap} {c : cell} {ess : list (list edge)}.
Hypothesis F : cell_fresh H c ess.
Local Notation es := (concat ess).
Local Notation smp := (contour_smp (concat ess)).

Lemma repeat_samples (x : R) : repeat x (Z.to_nat (csize es)) = samples_of es (fun _ => x).
Proof using F. rewrite <- (smp_len F), Nat2Z.id. unfold samples_of. generalize smp. induction l as [|s l IH]; [reflexivity|]. cbn. f_equal. exact IH. Qed.
Lemma weights_ok : cell_weights H c = Ok (samples_of es sw).
Proof using F. unfold cell_weights. rewrite (npts_cell F). cbn [attr bind]. rewrite repeat_samples, (dx_ok F). f_equal. unfold samples_of. apply map_ext. intros s. ring. Qed.

Lemma zip_nth f a b i x y : nth_error a i = Some x -> nth_error b i = Some y -> nth_error (zip_with f a b) i = Some (f x y).
Proof using. clear. unfold zip_with. revert b i. induction a as [|x0 a IH]; intros [|y0 b] [|i]; cbn; try discriminate; [intros A B; injection A as ->; injection B as ->; reflexivity|apply IH]. Qed.
Lemma fit_len a : fitting es a -> List.length a = List.length smp.
Proof using F. unfold fitting. pose proof (smp_len F). lia. Qed.
Lemma zip_len f a b : List.length a = List.length b -> List.length (zip_with f a b) = List.length a.
Proof using. clear. unfold zip_with. rewrite map_length, combine_length. lia. Qed.

(** The component at each sample *)
Definition at_sample (dir : pt -> R) (u : lpois) (i : nat) (s : sample) (o : option R) : Prop :=
  exists a b d e, nth_error (nd (lh_trace (u_harm u))) i = Some a /\ nth_error (nd (lp_trace (u_poly u))) i = Some b /\
    nth_error (td (lh_trace (u_harm u))) i = Some d /\ nth_error (td (lp_trace (u_poly u))) i = Some e /\
    o = grad_entry (dir (sN s) * (a + b) + dir (sT s) * (d + e)) (sw s).
Lemma grad_ok u j dir : derivs es u -> component j dir -> exists g, grad_component u H c j = Ok g /\ List.length g = List.length smp /\
  forall i s, nth_error smp i = Some s -> exists o, nth_error g i = Some o /\ at_sample dir u i s o.
Proof using F.
  intros (E1 & E2 & E3 & E4 & L1 & L2 & L3 & L4) J. unfold grad_component. rewrite E1, E2, E3, E4. cbn [given bind]. rewrite (npts_cell F). cbn [attr bind]. cbv zeta. rewrite !repeat_samples.
  assert (B : exists x y, (if (j =? 1)%Z then Ok (samples_of es (fun _ => 1), samples_of es (fun _ => 0)) else if (j =? 2)%Z then Ok (samples_of es (fun _ => 0), samples_of es (fun _ => 1)) else Err ValueError) = Ok (samples_of es (fun _ => x), samples_of es (fun _ => y)) /\ forall z, x * fst z + y * snd z = dir z).
  { destruct J; [exists 1, 0|exists 0, 1]; (split; [reflexivity|intros z; ring]). }
  destruct B as (x & y & -> & D). cbn [bind]. change dot_with_normal with (dot_with sN). change dot_with_tangent with (dot_with sT). rewrite !(dot_ok F). cbn [bind].
  pose proof (fit_len _ L1) as K1. pose proof (fit_len _ L2) as K2. pose proof (fit_len _ L3) as K3. pose proof (fit_len _ L4) as K4.
  rewrite !np_add_zip by congruence. cbn [bind]. change (@zip) with zip_with.
  assert (LN : forall V, List.length (samples_of es V) = List.length smp) by (intros V; unfold samples_of; apply map_length).
  assert (ZL : forall f a b, List.length a = List.length smp -> List.length b = List.length smp -> List.length (zip_with f a b) = List.length smp) by (intros f a b La Lb; rewrite zip_len; congruence).
  assert (ZL' : forall a b, List.length a = List.length smp -> List.length b = List.length smp -> List.length (zip_with Rplus a b) = List.length smp) by (intros; apply ZL; assumption).
  rewrite !np_mul_zip by (rewrite LN; symmetry; auto). cbn [bind]. rewrite np_add_zip by (rewrite !ZL by auto; reflexivity). cbn [bind]. change (@zip) with zip_with. rewrite weights_ok. cbn [bind].
  rewrite (proj2 (Nat.eqb_eq _ _)) by (rewrite LN; auto 8). eexists. split; [reflexivity|]. split.
  { rewrite map_length, combine_length, LN, ZL by auto. lia. }
  intros i s Ei.
  assert (X : forall l : list R, List.length l = List.length smp -> exists v, nth_error l i = Some v) by (intros l L; destruct (nth_error l i) as [v|] eqn:E; [eauto|]; exfalso; apply nth_error_None in E; assert (i < List.length smp)%nat by (apply nth_error_Some; congruence); lia).
  destruct (X _ K1) as (a & A1). destruct (X _ K2) as (d & A2). destruct (X _ K3) as (b & A3). destruct (X _ K4) as (e & A4).
  exists (grad_entry (dir (sN s) * (a + b) + dir (sT s) * (d + e)) (sw s)). split; [|exists a, b, d, e; auto].
  rewrite nth_error_map. assert (Q : forall (p q : list R) k m, nth_error p i = Some k -> nth_error q i = Some m -> nth_error (combine p q) i = Some (k, m)).
  { clear. induction i as [|i IH]; intros [|p0 p] [|q0 q] k m; cbn; try discriminate; [congruence|apply IH]. }
  erewrite Q; [|apply zip_nth; apply zip_nth; [unfold samples_of; rewrite nth_error_map, Ei; reflexivity|apply zip_nth; eassumption|unfold samples_of; rewrite nth_error_map, Ei; reflexivity|apply zip_nth; eassumption]|unfold samples_of; rewrite nth_error_map, Ei; reflexivity].
  cbn [option_map fst snd]. rewrite !D. reflexivity.
Qed.
End Cell.

Lemma grad_entry_shown x w : shown w x (grad_entry (x * w) w).
Proof.
  unfold shown, grad_entry, plot_tol, max_grad. split.
  - intros L. destruct (Rlt_dec w (/ 10 ^ 8)); [reflexivity|contradiction].
  - intros L. destruct (Rlt_dec w (/ 10 ^ 8)); [lra|]. assert (P : 0 < / 10 ^ 8) by (apply Rinv_0_lt_compat, pow_lt; lra). replace (x * w / w) with x by (field; lra). split; intros; destruct (Rlt_dec 1000 x); (reflexivity || lra).
Qed.

(** ** Functions without harmonic part *)
Definition zeros (l : list R) : Prop := forall x, In x l -> x = 0.
Lemma zeros_repeat l : zeros l -> l = repeat 0 (List.length l).
Proof. induction l as [|x l IH]; intros Z; [reflexivity|]. cbn. rewrite (Z x (or_introl eq_refl)). f_equal. apply IH. intros y I. apply Z. right. exact I. Qed.
Lemma repeat_zeros n : zeros (repeat 0 n).
Proof. intros x I. apply repeat_spec in I. exact I. Qed.
Lemma minus_self (l : list R) : zip_with Rminus l l = repeat 0 (List.length l).
Proof. unfold zip_with. induction l as [|x l IH]; [reflexivity|]. cbn. f_equal; [ring|exact IH]. Qed.
Lemma iadd_zeros d u r : zeros d -> np_iadd d (map (Rmult 0) u) = Ok r -> zeros r.
Proof.
  intros Z. unfold np_iadd. destruct (Nat.eqb _ _).
  - intros E. apply Ok_inj in E. subst r. intros x I. apply in_map_iff in I. destruct I as ([p q] & <- & I). cbn. pose proof (in_combine_l _ _ _ _ I) as A. apply in_combine_r in I. apply in_map_iff in I. destruct I as (y & <- & _). rewrite (Z p A). ring.
  - destruct (map (Rmult 0) u) as [|c [|? ?]] eqn:E; try discriminate. intros X. apply Ok_inj in X. subst r. intros x I. apply in_map_iff in I. destruct I as (p & <- & I). rewrite (Z p I). destruct u as [|y [|? ?]]; try discriminate. injection E as <-. ring.
Qed.
Section Cell2.
Context {H : heap} {c : cell} {ess : list (list edge)}.
Hypothesis F : cell_fresh H c ess.
Local Notation es := (concat ess).
Lemma harm_wnd_zeros S w lc r m : rests S m -> zeros w -> zeros lc -> harm_wnd S c w lc = Ok r -> zeros r.
Proof using.
  intros (_ & Rw) Zw Zl E. unfold harm_wnd in E. rewrite (zeros_repeat w Zw), Rw in E. cbn [bind] in E. assert (Z0 : zeros (repeat 0 (List.length w))) by apply repeat_zeros. revert Z0 E. generalize (repeat 0 (List.length w)) as d. generalize (holes c). induction l as [|j l IH]; intros d Z0 E.
  - cbn in E. apply Ok_inj in E. subst r. exact Z0.
  - cbn [fold_res] in E. apply bind_ok in E. destruct E as (d' & E' & E). apply bind_ok in E'. destruct E' as (t & _ & E'). destruct (tr_wnd t) as [u|]; [|discriminate]. apply bind_ok in E'. destruct E' as (a & Ea & E'). apply (IH d'); [|exact E].
    unfold geti in Ea. destruct (nth_error lc j) as [a'|] eqn:Ej; [|discriminate]. apply Ok_inj in Ea. subst a'. rewrite (Zl a (nth_error_In _ _ Ej)) in E'. eapply iadd_zeros; eassumption.
Qed.
Lemma still_harm S v h m : rests S m -> zeros v -> fitting es v -> mk_lharm S H c (made es v None None) = Ok h -> zeros (nd (lh_trace h)) /\ zeros (td (lh_trace h)).
Proof using F.
  intros Rs Z L E. assert (V : exists k, v = repeat 0 k) by (exists (List.length v); apply zeros_repeat, Z). destruct V as (k & ->). unfold mk_lharm in E. cbn [tr_vals made attr bind] in E. pose proof Rs as (Rc & Rw). rewrite Rw in E. cbn [bind] in E.
  apply bind_ok in E. destruct E as (t1 & E1 & E). apply (set_wtd_inv F _ _ None None _ _ (made_carries _ None None L Logic.I Logic.I)) in E1. destruct E1 as [L1 C1].
  apply bind_ok in E. destruct E as ([ct lc] & E2 & E). unfold harm_conj in E2. destruct (Rc k) as (lc' & Ec & El). rewrite Ec in E2. cbn [bind] in E2. apply bind_ok in E2. destruct E2 as (ct' & E3 & E2). apply (trace_arr_inv F) in E3. destruct E3 as [L3 ->]. apply Ok_inj in E2. injection E2 as -> ->.
  apply bind_ok in E. destruct E as (psi & E4 & E). cbn [tr_vals made attr bind] in E. apply bind_ok in E. destruct E as (d2 & E5 & E). apply (harm_wnd_zeros _ _ _ _ _ Rs (repeat_zeros _)) in E5; [|rewrite El; apply repeat_zeros].
  apply bind_ok in E. destruct E as (t2 & E6 & E). apply (set_wnd_inv F _ _ _ _ _ _ C1) in E6. destruct E6 as [L5 C5]. apply bind_ok in E. destruct E as (p & _ & E). apply bind_ok in E. destruct E as (b & _ & E). apply Ok_inj in E. subst h. cbn [lh_trace]. destruct C5 as (_ & _ & N & W). unfold nd, td. rewrite N, W. split; [exact E5|apply repeat_zeros].
Qed.
(** The function whose trace is that of its polynomial part *)
Lemma poly_gradient S m f i d u : rests S m -> mk_lpois S H c f (TVal (VArr (samples_of es (at_smp (peval RS (panti_laplacian RS f)))))) i d = Ok u ->
  let p := panti_laplacian RS f in has_gradient u (contour_smp es) (fun s => (at_smp (peval RS (pdx RS p)) s, at_smp (peval RS (pdy RS p)) s)).
Proof using F.
  intros Rs E p. destruct (mk_lpois_inv F _ _ _ _ _ _ E) as (P & t & v & h & E1 & E2 & L & <- & <- & E3 & E4 & _). destruct (mk_lpoly_ok F p (panti_canonical _)) as (P' & E1' & _ & _ & _ & _ & G). fold p in E1. rewrite E1 in E1'. apply Ok_inj in E1'. subst P'. destruct G as (G & _).
  rewrite (trace_arr F) in E3 by apply (samples_fit F). apply Ok_inj in E3. subst t. destruct G as (_ & G1 & G2 & G3). cbn [tr_vals made attr bind] in E4. rewrite G1 in E4. cbn [attr bind] in E4. rewrite np_sub_zip in E4 by reflexivity. fold p in E4. rewrite minus_self in E4. apply Ok_inj in E4. subst v.
  destruct (still_harm _ _ _ _ Rs (repeat_zeros _) L E2) as (Z1 & Z2). pose proof (good_derivs _ _ _ (mk_lpois_good F _ _ _ _ _ _ E)) as (_ & _ & _ & _ & L1 & L2 & _ & _).
  intros k s Ek. cbn [fst snd]. unfold nd at 2, td at 2. rewrite G2, G3.
  assert (X : forall l, fitting es l -> zeros l -> nth_error l k = Some 0).
  { intros l Ll Zl. destruct (nth_error l k) as [y|] eqn:Ey; [rewrite (Zl y (nth_error_In _ _ Ey)); reflexivity|]. exfalso. apply nth_error_None in Ey. assert (k < List.length (contour_smp es))%nat by (apply nth_error_Some; congruence). pose proof (smp_len F). unfold fitting in Ll. lia. }
  exists 0, (weighted_deriv p sN s), 0, (weighted_deriv p sT s). split; [apply X; assumption|]. split; [unfold samples_of; rewrite nth_error_map, Ek; reflexivity|]. split; [unfold weighted_deriv; ring|]. split; [apply X; assumption|]. split; [unfold samples_of; rewrite nth_error_map, Ek; reflexivity|]. unfold weighted_deriv; ring.
Qed.
End Cell2.
