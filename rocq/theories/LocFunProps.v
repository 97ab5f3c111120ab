(** C63: the deprecated LocalFunction agrees with LocalPoissonFunction. *)
From Coq Require Import List ZArith Reals Lia Lra Bool.
From Verif Require Import PyBase PolyModel PolySpec PolyProofs PolyProofs2 PolyProofs3 PolyProofs4 BaryModel VertModel EdgeModel EdgeSpec EdgeProps4 ContourModel CellModel CellSpec CellProofs CellProps ContourProofs ContourProofs2 ContourProofs3 ContourProps CellProps3 TraceModel TraceSpec TraceProofs IntPolyModel IntPolyProofs LocalModel LocalSpec LocalProofs LocalProofs2 LocalProofs3 LocalProofs4 Annulus DiscCell LocalProps LocFunModel.
Import List ListNotations.
Open Scope R_scope.

(** The two objects hold the same polynomial, boundary arrays and logarithmic coefficients. *)
Definition mirrors (u : lpois) (v : lfun) : Prop :=
  f_poly v = lp_form (u_poly u) /\ f_anti v = lp_anti (u_poly u) /\
  tr_vals (f_ptrace v) = tr_vals (lp_trace (u_poly u)) /\ tr_wnd (f_ptrace v) = tr_wnd (lp_trace (u_poly u)) /\
  tr_vals (f_htrace v) = tr_vals (lh_trace (u_harm u)) /\ tr_wnd (f_htrace v) = tr_wnd (lh_trace (u_harm u)) /\
  tr_vals (f_conj v) = tr_vals (lh_conj (u_harm u)) /\ f_log v = lh_log (u_harm u).
Definition mirrors_bi (u : lpois) (v : lfun) : Prop :=
  exists b, f_bi v = Some b /\ tr_vals b = tr_vals (lh_bi (u_harm u)) /\ tr_wnd b = tr_wnd (lh_bi (u_harm u)).

Lemma fold_res_imp {A B} (f g : A -> B -> res A) l : (forall a b r, f a b = Ok r -> g a b = Ok r) -> forall a r, fold_res f l a = Ok r -> fold_res g l a = Ok r.
Proof. intros I. induction l as [|x l IH]; intros a r E; [exact E|]. cbn in *. inv_as E s Es. rewrite (I _ _ _ Es). cbn. apply IH, E. Qed.

Section Cell.
Context {H : heap} {c : cell} {ess : list (list edge)} {N : Z}.
Hypothesis F : cell_fresh H c ess.
Hypothesis NE : Forall (fun es => es <> []) ess.
Hypothesis U : Forall (Forall (fun e => e_npts e = N)) ess.
Local Notation es := (concat ess).

Lemma func_blocks f : exists fs, fs = map (fun _ : edge => f) es /\ forall t, built es t -> tr_funcs t = Some fs -> find_values t = Ok (with_vals t (samples_of es (at_smp f))).
Proof using F.
  eexists. split; [reflexivity|]. destruct (eval_blocks es (map (fun _ : edge => f) es) (all_well F) (map_length _ _)) as (bs & C & V & X). intros t B E. rewrite (V t B E). do 2 f_equal.
  enough (G : bs = map (fun e => map (at_smp f) (open_smp e)) es) by (rewrite G; unfold samples_of, contour_smp; generalize es; intros l; rewrite (concat_map (at_smp f)), map_map; reflexivity).
  apply list_ext. intros k. destruct (nth_error es k) as [e|] eqn:Ee.
  - rewrite (map_nth_error _ _ _ Ee). destruct (cut_nth es bs k e C Ee) as (b & Eb & Lb). rewrite Eb. f_equal.
    assert (We : well_sampled e) by (pose proof (all_well F) as W; rewrite Forall_forall in W; apply W; eapply nth_error_In; eauto). pose proof (proj2 (open_pos e We)) as Lo.
    apply list_ext. intros j. destruct (nth_error b j) as [x|] eqn:Ex.
    + destruct (X k b j x Eb Ex) as (e' & s & g & Ee' & Es & Eg & ->). rewrite Ee in Ee'. injection Ee' as <-. rewrite nth_error_map, Ee in Eg. injection Eg as <-.
      assert (Lj : (j < List.length (open_smp e))%nat) by (assert (j < List.length b)%nat by (apply nth_error_Some; congruence); lia).
      rewrite (map_nth_error (at_smp f) j (open_smp e) (d := s)); [reflexivity|]. unfold open_smp in *. rewrite removelast_firstn_len in *. rewrite <- (firstn_skipn (pred (List.length (e_smp e))) (e_smp e)), nth_error_app1 in Es by exact Lj. exact Es.
    + symmetry. apply nth_error_None. rewrite map_length. apply nth_error_None in Ex. lia.
  - apply nth_error_None in Ee. transitivity (@None (list R)); [|symmetry; apply nth_error_None; rewrite map_length; exact Ee]. apply nth_error_None. assert (LC : List.length es = List.length bs) by (clear -C; induction C; cbn; congruence). lia.
Qed.

Lemma poly_trace_ok p : exists t, poly_trace p H c = Ok t /\ @carries ess t (samples_of es (at_smp (peval RS p))) (Some (samples_of es (weighted_deriv p sN))) None.
Proof using F.
  unfold poly_trace. rewrite (kedges_ok F). cbn [bind]. unfold mk_trace. cbv zeta. rewrite (init_built es (all_sampleable F)).
  destruct (func_blocks (peval RS p)) as (fs & Efs & V).
  set (t0 := Trace es (Some (total (sizes es))) (Some (sampled_indices 0 es)) None None None None).
  assert (E : set_funcs t0 (FOne (FPoly p)) true = Ok (with_vals (with_funcs t0 fs) (samples_of es (at_smp (peval RS p))))).
  { unfold set_funcs, store_funcs. rewrite (proj2 (forallb_forall _ _)) by (intros f I; apply in_map_iff in I; destruct I as (_ & <- & _); reflexivity).
    cbn [tr_edges t0]. rewrite map_length, Nat.eqb_refl. cbv zeta. rewrite map_map. cbn [fcall]. rewrite <- Efs. unfold t0 at 1; cbn [with_funcs tr_edges andb]. rewrite (ready_param es (all_sampleable F)). apply V; [apply with_funcs_built, blank_built|reflexivity]. }
  rewrite E. cbn [bind]. change dot_with_normal with (dot_with sN). rewrite (deriv_ok F). cbn [bind].
  eapply (set_wnd_ok F); [|apply (samples_fit F)]. split; [|repeat split]. pose proof (blank_built es) as (B1 & B2 & B3 & _). repeat split; try assumption. cbn. apply (samples_fit F).
Qed.

Lemma bdy_ok u v : fitting es u -> fitting es v -> bdy_prod (Ok u) (Ok v) H c = Ok (flux es u v).
Proof using F NE U.
  intros Lu Lv. unfold bdy_prod. cbn [bind]. rewrite np_mul_zip by (unfold fitting in *; lia). cbn [bind]. rewrite (pre_ok F NE U); [reflexivity|]. unfold fitting, zip_with in *. rewrite map_length, combine_length. lia.
Qed.

(** Everything that mk_lpois does, mk_lfun does as well. *)
Lemma mk_lfun_mirrors S f g i d u b : mk_lpois S H c f g i d = Ok u ->
  exists v, mk_lfun S H c f g b false false = Ok v /\ mirrors u v /\ (if b then mirrors_bi u v else f_bi v = None) /\
  forall i' d', orb i' d' = true -> mk_lfun S H c f g b i' d' = Err AttributeError.
Proof using F.
  intros E. destruct (mk_lpois_inv F _ _ _ _ _ _ E) as (P & t & v & h & E1 & E2 & L & Eh & EP & Et & Ed & _). clear E. subst h P.
  destruct (mk_lpoly_ok F (panti_laplacian RS f) (panti_canonical _)) as (P' & E1' & Pf & _ & _ & Pa & (G & G' & _)). rewrite E1 in E1'. apply Ok_inj in E1'. subst P'.
  destruct (poly_trace_ok (panti_laplacian RS f)) as (pt & Ept & Cp). destruct G as (_ & Gv & Gn & _). pose proof Cp as (_ & Pv & Pn & _).
  unfold mk_lfun. cbv zeta. rewrite Ept. cbn [bind]. rewrite Et. cbn [bind]. inv_as Ed a Ea. rewrite Ea. cbn [bind]. rewrite Gv in Ed. cbn [attr bind] in Ed. rewrite Pv. cbn [attr bind]. rewrite Ed. cbn [bind]. rewrite (trace_arr F v L). cbn [bind tr_vals TraceProofs.made attr].
  unfold mk_lharm in E2. cbn [tr_vals TraceProofs.made attr bind] in E2.
  pose proof (made_carries (ess := ess) v None None L Logic.I Logic.I) as C0.
  inv_as E2 d1 F1. inv_as E2 t1 F2. apply (set_wtd_inv F _ _ _ _ _ _ C0) in F2. destruct F2 as [L1 C1].
  inv_as E2 cl F3. destruct cl as [ct lc0]. unfold harm_conj in F3. inv_as F3 cv F4. destruct cv as [cv lc]. inv_as F3 ct' F5. apply (trace_arr_inv F) in F5. destruct F5 as [L3 ->]. apply Ok_inj in F3. injection F3 as -> ->.
  rewrite F4. cbn [bind]. rewrite (trace_arr F cv L3). cbn [bind tr_vals TraceProofs.made attr].
  inv_as E2 psi F6. unfold conjugable in F6. inv_as F6 k F7. inv_as F6 lam F8. inv_as F6 pv F9. apply (trace_arr_inv F) in F6. destruct F6 as [L4 ->]. cbn [tr_vals TraceProofs.made attr bind] in E2.
  inv_as E2 d2 F10. inv_as E2 t2 F11. apply (set_wnd_inv F _ _ _ _ _ _ C1) in F11. destruct F11 as [L5 C5].
  inv_as E2 bi F12. unfold biharm in F12. inv_as F12 bb F13. destruct bb as [bv bd]. inv_as F12 bt F14. apply (trace_arr_inv F) in F14. destruct F14 as [L6 ->].
  apply (set_wnd_inv F _ bv None None _ _ (made_carries bv None None L6 Logic.I Logic.I)) in F12. destruct F12 as [L7 C7]. apply Ok_inj in E2.
  assert (W : fun_wnd S c cv lc = Ok d2).
  { unfold harm_wnd in F10. unfold fun_wnd. inv_as F10 d0 G0. rewrite G0. cbn [bind]. revert F10. apply fold_res_imp. intros x j r X. inv_as X tj Xj. destruct (tr_wnd tj) as [w|] eqn:Ew; [|discriminate]. inv_as X aj Xa. rewrite Xa, Xj. cbn [bind]. rewrite Ew. exact X. }
  rewrite W. cbn [bind]. destruct (set_wnd_ok F _ _ _ _ d2 C0 L5) as (ht & Eht & Ch). rewrite Eht. cbn [bind].
  assert (J : fun_conjugable S c v lc = Ok pv) by (unfold fun_conjugable; rewrite F7; cbn [bind]; rewrite F8; cbn [bind]; exact F9).
  destruct (set_wnd_ok F _ _ _ _ bd (made_carries bv None None L6 Logic.I Logic.I) L7) as (bt & Ebt & Cb).
  assert (M : forall bi', mirrors u (LFun (panti_laplacian RS f) (panti_laplacian RS (panti_laplacian RS f)) pt ht (TraceProofs.made es cv None None) lc bi')).
  { intros bi'. unfold mirrors. cbn [f_poly f_anti f_ptrace f_htrace f_conj f_log]. rewrite Pf, Pa, Pv, Pn, Gv, Gn. destruct Ch as (_ & Hv & Hn & _). destruct C5 as (_ & Iv & In' & _). rewrite E2. cbn [lh_trace lh_conj lh_log]. rewrite Hv, Hn, Iv, In'. repeat split. }
  destruct b.
  - rewrite J. cbn [bind]. rewrite F13. cbn [bind]. rewrite (trace_arr F bv L6). cbn [bind]. rewrite Ebt. cbn [bind orb]. eexists. split; [reflexivity|]. split; [apply M|]. split; [|intros i' d' ->; reflexivity].
    exists bt. split; [reflexivity|]. rewrite E2. cbn [lh_bi]. destruct Cb as (_ & -> & -> & _). destruct C7 as (_ & -> & -> & _). split; reflexivity.
  - cbn [bind orb]. eexists. split; [reflexivity|]. split; [apply M|]. split; [reflexivity|]. intros i' d' ->. reflexivity.
Qed.
End Cell.

(** Whenever a LocalPoissonFunction can be built, so can the LocalFunction with the same
    arguments, and it holds the same data; the biharmonic part only on request. *)
Theorem C63_agrees contains S H c ess f g i d u : ready contains H c -> boundary_edges H c ess -> mk_lpois S H c f g i d = Ok u ->
  (exists v, mk_lfun S H c f g true false false = Ok v /\ mirrors u v /\ mirrors_bi u v) /\
  (exists v, mk_lfun S H c f g false false false = Ok v /\ mirrors u v /\ f_bi v = None).
Proof.
  intros Rd B E. destruct (ready_uniform _ _ _ _ Rd B) as (F & NE & N & U). destruct (mk_lfun_mirrors F S f g i d u true E) as (v & Ev & M & K & _). destruct (mk_lfun_mirrors F S f g i d u false E) as (v' & Ev' & M' & K' & _). split; eauto.
Qed.
Print Assumptions C63_agrees.

(** The inner products agree. *)
Theorem C63_inner contains S S' H c ess f g i d u f' g' i' d' u' v v' b b' : ready contains H c -> boundary_edges H c ess ->
  mk_lpois S H c f g i d = Ok u -> mk_lpois S' H c f' g' i' d' = Ok u' ->
  mk_lfun S H c f g b false false = Ok v -> mk_lfun S' H c f' g' b' false false = Ok v' ->
  (exists r, fun_h1 v (FLoc v') H c = Ok r /\ h1_inner u (UPois u') H c = Ok r) /\
  (b = true -> b' = true -> exists r, fun_l2 v (FLoc v') H c = Ok r /\ l2_inner u (UPois u') H c = Ok r).
Proof.
  intros Rd B E E' Ev Ev'. destruct (ready_uniform _ _ _ _ Rd B) as (F & NE & N & U).
  pose proof (good_sides u (locfun_good F S u (lf_new _ _ _ _ _ _ _ _ E))) as Su. pose proof (good_sides u' (locfun_good F S' u' (lf_new _ _ _ _ _ _ _ _ E'))) as Su'.
  destruct (mk_lfun_mirrors F S f g i d u b E) as (v0 & Ev0 & (M1 & M2 & M3 & M4 & M5 & M6 & M7 & M8) & K & _). rewrite Ev in Ev0. apply Ok_inj in Ev0. subst v0.
  destruct (mk_lfun_mirrors F S' f' g' i' d' u' b' E') as (v0 & Ev0 & (M1' & M2' & M3' & M4' & M5' & M6' & M7' & M8') & K' & _). rewrite Ev' in Ev0. apply Ok_inj in Ev0. subst v0.
  destruct (mk_lpois_inv F _ _ _ _ _ _ E) as (P & _ & _ & _ & EP & _ & _ & _ & UP & _). destruct (mk_lpois_inv F _ _ _ _ _ _ E') as (P' & _ & _ & _ & EP' & _ & _ & _ & UP' & _). subst P P'.
  destruct (mk_lpoly_ok F (panti_laplacian RS f) (panti_canonical _)) as (P & X & Pf & P1 & P2 & Pa & (_ & G & _)). rewrite EP in X. apply Ok_inj in X. subst P.
  destruct (mk_lpoly_ok F (panti_laplacian RS f') (panti_canonical _)) as (P & X & Pf' & P1' & P2' & Pa' & (_ & G' & _)). rewrite EP' in X. apply Ok_inj in X. subst P.
  split.
  - rewrite (h1_value F NE U u u' Su Su'). unfold fun_h1. cbn [pgrad]. rewrite M1, M1', Pf, Pf', <- P1, <- P2, <- P1', <- P2'. rewrite (int_poly_ok F NE U), quad_cell. cbn [bind].
    rewrite M6, M3', M3, M6', M5', (s_hn u Su), (s_hn u' Su'), (s_pv u Su), (s_pv u' Su'), (s_hv u' Su'). cbn [arith attr].
    rewrite !(bdy_ok F NE U) by (apply (l_hn u Su) || apply (l_hn u' Su') || apply (l_pv u Su) || apply (l_pv u' Su') || apply (l_hv u' Su')). cbn [bind].
    eexists. split; [reflexivity|]. f_equal. unfold h1_hh, h1_hp, grad_dot. rewrite (flux_comm _ (vals (lp_trace (u_poly u)))). ring.
  - intros -> ->. destruct K as (s & Es & Sv & Sn). destruct K' as (s' & Es' & _). rewrite (l2_value F NE U u u' Su Su'). unfold fun_l2. rewrite Es, Es'. cbn [attr bind].
    rewrite (int_poly_ok F NE U), quad_cell. cbn [bind].
    assert (Q : forall x y p q, mk_lpoly p H c = Ok (u_poly y) -> canonical p -> @sides ess x -> @sides ess y -> tr_vals q = tr_vals (lh_trace (u_harm x)) -> tr_wnd q = tr_wnd (lh_trace (u_harm x)) ->
      fun_mixed q p H c = Ok (flux (concat ess) (vals (lh_trace (u_harm x))) (nd (lp_atrace (u_poly y))), flux (concat ess) (nd (lh_trace (u_harm x))) (vals (lp_atrace (u_poly y))))).
    { intros x y p q Ep Cp Sx Sy Qv Qn. destruct (mk_lpoly_ok F p Cp) as (Y & X & _ & _ & _ & _ & (_ & (_ & Gy1 & Gy2 & _) & _)). rewrite Ep in X. apply Ok_inj in X. subst Y.
      unfold fun_mixed. rewrite (points_ok F). cbn [bind]. cbv zeta. change dot_with_normal with (dot_with sN). rewrite (deriv_ok F). cbn [bind]. rewrite on_points_ok, Qv, Qn, (s_hv x Sx), (s_hn x Sx). cbn [attr arith].
      rewrite !(bdy_ok F NE U) by (apply (l_hv x Sx) || apply (l_hn x Sx) || apply (samples_fit F)). cbn [bind]. assert (V1 : vals (lp_atrace (u_poly y)) = samples_of (concat ess) (at_smp (peval RS (panti_laplacian RS p)))) by (unfold vals; rewrite Gy1; reflexivity). assert (V2 : nd (lp_atrace (u_poly y)) = samples_of (concat ess) (weighted_deriv (panti_laplacian RS p) sN)) by (unfold nd; rewrite Gy2; reflexivity). rewrite V1, V2. reflexivity. }
    rewrite M1, M1', Pf, Pf'. rewrite (Q u u' (panti_laplacian RS f') (f_htrace v) EP' (panti_canonical _) Su Su' M5 M6). cbn [bind]. rewrite (Q u' u (panti_laplacian RS f) (f_htrace v') EP (panti_canonical _) Su' Su M5' M6'). cbn [bind].
    rewrite Sn, Sv, M5', M6', (s_bn u Su), (s_bv u Su), (s_hv u' Su'), (s_hn u' Su'). cbn [attr arith]. rewrite !(bdy_ok F NE U) by (apply (l_bn u Su) || apply (l_bv u Su) || apply (l_hn u' Su') || apply (l_hv u' Su')). cbn [bind].
    eexists. split; [reflexivity|]. f_equal. unfold l2_hh_block, l2_hp_block, form_mul. rewrite Pf, Pf'. ring.
Qed.
Print Assumptions C63_inner.

(** Construction succeeds for every Laplacian and all boundary data that fit the cell. *)
Theorem C63_total contains S H c ess f g b : ready contains H c -> boundary_edges H c ess -> tame (concat ess) (Z.to_nat (c_holes c)) S -> (exists v, boundary_data (concat ess) g v) ->
  exists v, mk_lfun S H c f g b false false = Ok v.
Proof.
  intros Rd B T D. destruct (C53_total _ _ _ _ _ f g Rd B T D) as (u & E). destruct (ready_uniform _ _ _ _ Rd B) as (F & NE & N & U). destruct (mk_lfun_mirrors F S f g false false u b E) as (v & Ev & _). eauto.
Qed.
Print Assumptions C63_total.

(** A product with anything else is refused. *)
Theorem C63_other v H c : fun_h1 v FElse H c = Err TypeError /\ fun_l2 v FElse H c = Err TypeError.
Proof. split; reflexivity. Qed.
Print Assumptions C63_other.

(** Interior values cannot be had: asking for them always fails, on every cell, with any data
    for which the function could be built. *)
Theorem C63_interior_refuted contains S H c ess f g b i d : ready contains H c -> boundary_edges H c ess -> tame (concat ess) (Z.to_nat (c_holes c)) S -> (exists v, boundary_data (concat ess) g v) ->
  orb i d = true -> mk_lfun S H c f g b i d = Err AttributeError.
Proof.
  intros Rd B T D O. destruct (C53_total _ _ _ _ _ f g Rd B T D) as (u & E). destruct (ready_uniform _ _ _ _ Rd B) as (F & NE & N & U). destruct (mk_lfun_mirrors F S f g false false u b E) as (v & _ & _ & _ & A). exact (A i d O).
Qed.
Print Assumptions C63_interior_refuted.

(** Without the biharmonic part the L2 product does not raise the ValueError of its own check. *)
Theorem C63_unset_refuted contains S H c ess f g : ready contains H c -> boundary_edges H c ess -> tame (concat ess) (Z.to_nat (c_holes c)) S -> (exists v, boundary_data (concat ess) g v) ->
  exists v, mk_lfun S H c f g false false false = Ok v /\ (forall w, fun_l2 v (FLoc w) H c = Err AttributeError) /\ (forall w, fun_l2 w (FLoc v) H c = Err AttributeError).
Proof.
  intros Rd B T D. destruct (C53_total _ _ _ _ _ f g Rd B T D) as (u & E). destruct (ready_uniform _ _ _ _ Rd B) as (F & NE & N & U). destruct (mk_lfun_mirrors F S f g false false u false E) as (v & Ev & _ & Bv & _). exists v. split; [exact Ev|]. unfold fun_l2. rewrite Bv. split; intros w; [reflexivity|]. destruct (f_bi w); reflexivity.
Qed.
Print Assumptions C63_unset_refuted.

(** The unit disc *)
Example C63_example : exists H c e u v, unit_disc H c e /\ mk_lpois still H c [rmon 4 0 0] (TVal (VScal 3)) false false = Ok u /\ mk_lfun still H c [rmon 4 0 0] (TVal (VScal 3)) true false false = Ok v /\ mirrors u v /\ mirrors_bi u v /\
  (exists r, fun_l2 v (FLoc v) H c = Ok r /\ l2_inner u (UPois u) H c = Ok r) /\ mk_lfun still H c [rmon 4 0 0] (TVal (VScal 3)) true true false = Err AttributeError.
Proof.
  destruct unit_disc_exists as (H & c & e & D). pose proof D as (R & B & N & _). destruct (C53_total disc still H c [[e]] [rmon 4 0 0] (TVal (VScal 3)) R B (disc_tame _ _ _ D) (disc_const _ _ _ 3 D)) as (u & E).
  destruct (C63_agrees disc still H c [[e]] _ _ _ _ u R B E) as ((v & Ev & M & M') & _). exists H, c, e, u, v. split; [exact D|]. split; [exact E|]. split; [exact Ev|]. split; [exact M|]. split; [exact M'|]. split.
  - exact (proj2 (C63_inner disc still still H c [[e]] _ _ _ _ u _ _ _ _ u v v true true R B E E Ev Ev) eq_refl eq_refl).
  - apply (C63_interior_refuted disc still H c [[e]]); try assumption; [exact (disc_tame _ _ _ D)|exact (disc_const _ _ _ 3 D)|reflexivity].
Qed.
