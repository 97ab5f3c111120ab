(** C68: plots of local functions. *)
From Coq Require Import List ZArith Reals Lia Lra Bool String.
From Verif Require Import PyBase PolyModel PolySpec PolyProofs PolyProofs2 PolyProofs3 PolyProofs4 PolyProps BaryModel VertModel EdgeModel EdgeSpec EdgeProps EdgeProps2 EdgeProps4 ContourModel CellModel CellSpec CellProofs CellProps CellProps2 ContourProofs ContourProofs2 ContourProofs3 ContourProps CellProps3 TraceModel TraceSpec TraceProofs IntPolyModel LocalModel LocalSpec LocalProofs LocalProofs2 LocalProofs3 LocalProps Annulus DiscCell PlotModel PlotSpec PlotProps LocPlotModel LocPlotSpec LocPlotProofs.
Import List ListNotations.
Open Scope R_scope.
Local Open Scope string_scope.

(** ** Gradients on the boundary *)
(** The plot of a component combines the derivatives of the function with the normals, tangents and
    weights that the edges have when it is drawn. *)
Theorem C68_gradient contains S H c ess u H' ess' j dir : ContourProps.ready contains H c -> boundary_edges H c ess -> locfun S H c u ->
  boundary_edges H' c ess' -> resized ess ess' -> component j dir ->
  exists g, grad_component u H' c j = Ok g /\ List.length g = List.length (contour_smp (concat ess')) /\
  forall i s, nth_error (contour_smp (concat ess')) i = Some s -> exists a b d e o,
    nth_error (nd (lh_trace (u_harm u))) i = Some a /\ nth_error (nd (lp_trace (u_poly u))) i = Some b /\ nth_error (td (lh_trace (u_harm u))) i = Some d /\ nth_error (td (lp_trace (u_poly u))) i = Some e /\
    nth_error g i = Some o /\ shown (sw s) ((dir (sN s) * (a + b) + dir (sT s) * (d + e)) / sw s) o.
Proof.
  intros Rd B L B' Z J. destruct (ready_uniform _ _ _ _ Rd B) as (F & _). pose proof (resized_fresh _ _ _ _ _ F B' Z) as F'. pose proof (good_derivs _ _ _ (locfun_good F S u L)) as D.
  assert (D' : derivs (concat ess') u) by (destruct D as (D1 & D2 & D3 & D4 & D5 & D6 & D7 & D8); unfold derivs, fitting in *; rewrite (resized_total _ _ Z); repeat (split; [assumption|]); assumption).
  destruct (grad_ok F' u j dir D' J) as (g & E & Lg & P). exists g. split; [exact E|]. split; [exact Lg|]. intros i s Ei. destruct (P i s Ei) as (o & Eo & a & b & d & e & A1 & A2 & A3 & A4 & ->). exists a, b, d, e. eexists. repeat (split; [eassumption|]). set (x := dir (sN s) * (a + b) + dir (sT s) * (d + e)).
  unfold shown, grad_entry, plot_tol, max_grad. split; [intros W; destruct (Rlt_dec (sw s) (/ 10 ^ 8)); [reflexivity|contradiction]|]. intros W. destruct (Rlt_dec (sw s) (/ 10 ^ 8)); [lra|]. split; intros; destruct (Rlt_dec 1000 (x / sw s)); (reflexivity || lra).
Qed.
Print Assumptions C68_gradient.

Lemma resized_refl H c ess : cell_fresh H c ess -> resized ess ess.
Proof.
  intros F. pose proof (fresh_all _ _ _ (proj1 F)) as W. clear F. induction W as [|es ess W _ IH]; constructor; [|exact IH]. induction W as [|e es We _ IHe]; constructor; [auto|exact IHe].
Qed.
(** While the edges are as they were when the function was built, the plot of a component is that of
    the gradient [G] whose weighted normal and tangential derivatives the function carries. *)
Theorem C68_field contains S H c ess u G j dir : ContourProps.ready contains H c -> boundary_edges H c ess -> locfun S H c u -> has_gradient u (contour_smp (concat ess)) G -> component j dir ->
  exists g, grad_component u H c j = Ok g /\ List.length g = List.length (contour_smp (concat ess)) /\
  forall i s, nth_error (contour_smp (concat ess)) i = Some s -> framed s -> exists o, nth_error g i = Some o /\ shown (sw s) (dir (G s)) o.
Proof.
  intros Rd B L HG J. destruct (ready_uniform _ _ _ _ Rd B) as (F & _). destruct (C68_gradient contains S H c ess u H ess j dir Rd B L B (resized_refl _ _ _ F) J) as (g & E & Lg & P). exists g. split; [exact E|]. split; [exact Lg|]. intros i s Ei (U & N). destruct (P i s Ei) as (a & b & d & e & o & A1 & A2 & A3 & A4 & Eo & Sh). exists o. split; [exact Eo|].
  destruct (HG i s Ei) as (a' & b' & d' & e' & A1' & A2' & Q1 & A3' & A4' & Q2). assert (a' = a) by congruence. assert (b' = b) by congruence. assert (d' = d) by congruence. assert (e' = e) by congruence. subst a' b' d' e'. rewrite Q1, Q2, N in Sh. cbn [fst snd] in Sh.
  destruct Sh as (S1 & S2). split; [exact S1|]. intros W. specialize (S2 W). assert (P0 : 0 < / 10 ^ 8) by (apply Rinv_0_lt_compat, pow_lt; lra).
  replace ((dir (snd (sT s), - fst (sT s)) * ((fst (G s) * snd (sT s) + snd (G s) * - fst (sT s)) * sw s) + dir (sT s) * ((fst (G s) * fst (sT s) + snd (G s) * snd (sT s)) * sw s)) / sw s) with (dir (G s)) in S2; [exact S2|].
  destruct J; cbn [fst snd].
  - transitivity (fst (G s) * (fst (sT s) ^ 2 + snd (sT s) ^ 2)); [rewrite U; ring|field; lra].
  - transitivity (snd (G s) * (fst (sT s) ^ 2 + snd (sT s) ^ 2)); [rewrite U; ring|field; lra].
Qed.
Print Assumptions C68_field.
(** In particular for the polynomial part: a function whose trace is that of its polynomial part is
    plotted with the gradient of that polynomial. *)
Theorem C68_polynomial contains S H c ess f i d u j dir n : ContourProps.ready contains H c -> boundary_edges H c ess -> rests S n ->
  let p := panti_laplacian RS f in mk_lpois S H c f (TVal (VArr (samples_of (concat ess) (at_smp (peval RS p))))) i d = Ok u -> component j dir ->
  exists px py g, is_dx (peval RS p) px /\ is_dy (peval RS p) py /\ grad_component u H c j = Ok g /\ List.length g = List.length (contour_smp (concat ess)) /\
  forall k s, nth_error (contour_smp (concat ess)) k = Some s -> framed s -> exists o, nth_error g k = Some o /\ shown (sw s) (dir (at_smp px s, at_smp py s)) o.
Proof.
  intros Rd B Rs p E J. destruct (ready_uniform _ _ _ _ Rd B) as (F & _). pose proof (poly_gradient F S n f i d u Rs E) as G. destruct (C06_grad p (panti_canonical _)) as [D1 D2]. cbn [pgrad fst snd] in D1, D2.
  destruct (C68_field contains S H c ess u _ j dir Rd B (lf_new _ _ _ _ _ _ _ _ E) G J) as (g & Eg & Lg & P). exists (peval RS (pdx RS p)), (peval RS (pdy RS p)), g. repeat (split; [assumption|]). exact P.
Qed.
Print Assumptions C68_polynomial.
(** Components other than 1 and 2, and missing derivatives, are refused. *)
Theorem C68_component_rejected u H c j : (forall dir, ~ component j dir) -> c_npts c <> None -> grad_component u H c j = Err ValueError.
Proof.
  intros N C. unfold grad_component. destruct (tr_wnd (lh_trace (u_harm u))); [|reflexivity]. destruct (tr_wtd (lh_trace (u_harm u))); [|reflexivity]. destruct (tr_wnd (lp_trace (u_poly u))); [|reflexivity]. destruct (tr_wtd (lp_trace (u_poly u))); [|reflexivity]. cbn [given bind]. destruct (c_npts c) as [n|]; [|congruence]. cbn [attr bind].
  destruct (Z.eqb_spec j 1) as [->|]; [exfalso; exact (N _ comp1)|]. destruct (Z.eqb_spec j 2) as [->|]; [exfalso; exact (N _ comp2)|]. reflexivity.
Qed.
Print Assumptions C68_component_rejected.

(** ** Masks *)
Lemma bad_tri_ok vals t : (forall i, corner_of t i -> (i < List.length vals)%nat) -> exists b, bad_tri vals t = Ok b /\ (b = false <-> forall i, corner_of t i -> exists x, nth_error vals i = Some (Some x)).
Proof.
  destruct t as [[i j] k]. cbn [corner_of]. intros L. unfold bad_tri, bad_at, geti.
  assert (X : forall m, (m < List.length vals)%nat -> exists o, nth_error vals m = Some o) by (intros m Lm; destruct (nth_error vals m) as [o|] eqn:E; [eauto|]; apply nth_error_None in E; lia).
  destruct (X i) as (a & Ea); [auto|]. destruct (X j) as (b & Eb); [auto|]. destruct (X k) as (d & Ed); [auto|]. rewrite Ea, Eb, Ed. cbn [bind]. eexists. split; [reflexivity|]. split.
  - intros E m [-> | [-> | ->]]; destruct a, b, d; try discriminate; eauto.
  - intros E. destruct (E i) as (x & Ex); [auto|]. destruct (E j) as (y & Ey); [auto|]. destruct (E k) as (z & Ez); [auto|]. assert (a = Some x) by congruence. assert (b = Some y) by congruence. assert (d = Some z) by congruence. subst. reflexivity.
Qed.
Lemma or_masks_ok a b : List.length a = List.length b -> exists m, or_masks a b = Ok m /\ List.length m = List.length a /\
  forall i x y, nth_error a i = Some x -> nth_error b i = Some y -> nth_error m i = Some (orb x y).
Proof.
  intros L. unfold or_masks. rewrite L, Nat.eqb_refl. eexists. split; [reflexivity|]. split; [rewrite map_length, combine_length; lia|]. clear L. revert b. induction a as [|p a IH]; intros [|q b] [|i] x y; cbn; try discriminate; [intros A B; injection A as ->; injection B as ->; reflexivity|apply IH].
Qed.
Lemma map_res_total {A B} (f : A -> res B) l : (forall a, In a l -> exists b, f a = Ok b) -> exists r, map_res f l = Ok r /\ List.length r = List.length l /\ forall i a, nth_error l i = Some a -> exists b, nth_error r i = Some b /\ f a = Ok b.
Proof.
  induction l as [|a l IH]; intros T; [exists []; repeat split; intros [|i]; discriminate|]. destruct (T a (or_introl eq_refl)) as (b & E). destruct IH as (r & Er & Lr & P); [intros x I; apply T; right; exact I|]. exists (b :: r). cbn [map_res]. rewrite E. cbn [bind]. rewrite Er. split; [reflexivity|]. split; [cbn; lia|]. intros [|i] x Ex; [injection Ex as <-; exists b; auto|apply P; exact Ex].
Qed.
Lemma masks_ok vals T : triangles (tg_tris T) (tg_hole T) (tg_bdry T) (List.length vals) -> exists m, apply_masks true vals T = Ok (Pic vals m) /\ List.length m = List.length (tg_tris T) /\
  forall k t, nth_error (tg_tris T) k = Some t -> (nth_error m k = Some false <-> nth_error (tg_hole T) k = Some false /\ forall i, corner_of t i -> exists x, nth_error vals i = Some (Some x)).
Proof.
  intros (C & L1 & L2). unfold apply_masks. destruct (map_res_total (bad_tri vals) (tg_tris T)) as (inf & -> & Li & Pi). { intros t I. destruct (bad_tri_ok vals t) as (b & E & _); [intros i; apply (C t i I)|eauto]. }
  cbn [bind]. destruct (or_masks_ok (tg_hole T) inf) as (m & -> & Lm & Pm); [exact (eq_trans L1 (eq_sym Li))|]. cbn [bind]. exists m. split; [reflexivity|]. split; [exact (eq_trans Lm L1)|]. intros k t Ek. destruct (Pi k t Ek) as (b & Eb & Et). destruct (bad_tri_ok vals t) as (b' & Et' & Q); [intros i; apply (C t i (nth_error_In _ _ Ek))|]. rewrite Et in Et'. apply Ok_inj in Et'. subst b'.
  assert (Hh : exists h, nth_error (tg_hole T) k = Some h) by (destruct (nth_error (tg_hole T) k) as [h|] eqn:E; [eauto|]; exfalso; apply nth_error_None in E; assert (k < List.length (tg_tris T))%nat by (apply nth_error_Some; congruence); lia). destruct Hh as (h & Eh). rewrite (Pm _ _ _ Eh Eb), Eh. rewrite <- Q.
  split; [intros X; injection X as X; apply orb_false_elim in X; destruct X; subst; auto|]. intros (X & ->). injection X as ->. reflexivity.
Qed.
Lemma floor_max x : floor_entry x = Rmax x (/ 10 ^ 16).
Proof. unfold floor_entry, Rmax. destruct (Rlt_dec x (/ 10 ^ 16)), (Rle_dec x (/ 10 ^ 16)); lra. Qed.
Lemma scale_array (log : bool) (vals : farr) : (if log then map (option_map (fun x => log10 (floor_entry x))) vals else vals) = map (option_map (scaled log)) vals.
Proof. destruct log; [apply map_ext; intros [x|]; [cbn; rewrite floor_max; reflexivity|reflexivity]|]. rewrite <- (map_id vals) at 1. apply map_ext. intros [x|]; reflexivity. Qed.

(** The interior and boundary values of each kind of plot *)
Inductive plotted (u : lpois) (H : heap) (c : cell) : string -> list R -> farr -> Prop :=
| pl_values a b : u_vals u = Some a -> get_trace_values u = Ok b -> plotted u H c "values" a (map Some b)
| pl_grad1 a g : u_g1 u = Some a -> grad_component u H c 1 = Ok g -> plotted u H c "grad_x1" a g
| pl_grad2 a g : u_g2 u = Some a -> grad_component u H c 2 = Ok g -> plotted u H c "grad_x2" a g
| pl_norm a b g h : u_g1 u = Some a -> u_g2 u = Some b -> List.length a = List.length b -> grad_component u H c 1 = Ok g -> grad_component u H c 2 = Ok h -> List.length g = List.length h ->
    plotted u H c "grad_norm" (zip_with (fun x y => sqrt (x ^ 2 + y ^ 2)) a b) (map (fun z => norms (fst z) (snd z)) (combine g h)).
Lemma window_ok H c ess : cell_fresh H c ess -> concat ess <> [] -> exists b, (do es <- kedges H c; get_axis_limits es (1 / 10)) = Ok b.
Proof.
  intros F N. rewrite (kedges_ok F). cbn [bind]. assert (D : Forall drawable (concat ess)). { pose proof (all_well F) as W. eapply Forall_impl; [|exact W]. intros e (P & L & G & _). split; [exact P|]. intros Z. rewrite Z in L. cbn in L. lia. } destruct (C65_limits (concat ess) (1 / 10) N D) as (x0 & x1 & y0 & y1 & _ & _ & X). cbv zeta in X. eauto.
Qed.

(** Each plot shows the interior values followed by the boundary values, on the chosen scale. A
    triangle is drawn exactly when the cell does not mask it and its three corners have numbers. The
    function is left as it was. *)
Theorem C68_drawn contains S H c ess u T log kind a g : ContourProps.ready contains H c -> boundary_edges H c ess -> concat ess <> [] -> locfun S H c u -> plotted u H c kind a g ->
  triangles (tg_tris T) (tg_hole T) (tg_bdry T) (List.length a + List.length g) ->
  exists pic, draw true log kind u H c T = (u, Ok pic) /\ pic_vals pic = map (option_map (scaled log)) (map Some a ++ g) /\ List.length (pic_mask pic) = List.length (tg_tris T) /\
  forall k t, nth_error (tg_tris T) k = Some t -> (nth_error (pic_mask pic) k = Some false <-> nth_error (tg_hole T) k = Some false /\ forall i, corner_of t i -> exists x, nth_error (map Some a ++ g) i = Some (Some x)).
Proof.
  intros Rd B NE L P C. destruct (ready_uniform _ _ _ _ Rd B) as (F & _). destruct (window_ok H c ess F NE) as (w & Ew).
  assert (D : forall (a : list R) (g : farr), triangles (tg_tris T) (tg_hole T) (tg_bdry T) (List.length a + List.length g) -> exists m, draw_generic true log (Some a) (Some g) T = (Some a, Ok (Pic (map (option_map (scaled log)) (map Some a ++ g)) m)) /\ List.length m = List.length (tg_tris T) /\
    forall k t, nth_error (tg_tris T) k = Some t -> (nth_error m k = Some false <-> nth_error (tg_hole T) k = Some false /\ forall i, corner_of t i -> exists x, nth_error (map Some a ++ g) i = Some (Some x))).
  { clear. intros a g C. unfold draw_generic. cbv zeta. rewrite scale_array. destruct (masks_ok (map (option_map (scaled log)) (map Some a ++ g)) T) as (m & -> & Lm & Q). { rewrite map_length, app_length, map_length. exact C. }
    exists m. split; [reflexivity|]. split; [exact Lm|]. intros k t Ek. rewrite (Q k t Ek). split; intros (A & X); (split; [exact A|]); intros i Ci; destruct (X i Ci) as (x & Ex).
    - rewrite nth_error_map in Ex. destruct (nth_error (map Some a ++ g) i) as [[y|]|]; try discriminate. eauto.
    - rewrite nth_error_map, Ex. cbn. eauto. }
  destruct P as [a b Ea Eb|a g Ea Eg|a g Ea Eg|a b g h Ea Eb La Eg Eh Lg]; unfold draw; cbn [String.eqb Ascii.eqb Bool.eqb]; cbv zeta.
  - destruct (D a (map Some b) C) as (m & Ed & Lm & Q). unfold boundary_array, trace_array. destruct (good_trace F u (locfun_good F S u L)) as (z & Ez & _ & zh & zp & Z1 & Z2 & Z3 & Z4 & ->). unfold get_trace_values in Ez, Eb. rewrite Z1, Z2 in *. cbn [arith attr bind] in *. rewrite Eb. cbn [bind]. rewrite Ew, Ea, Ed. eexists. split; [rewrite <- Ea; destruct u; reflexivity|]. auto.
  - destruct (D a g C) as (m & Ed & Lm & Q). unfold boundary_array. rewrite Eg. cbn [bind]. rewrite Ew, Ea, Ed. eexists. split; [rewrite <- Ea; destruct u; reflexivity|]. auto.
  - destruct (D a g C) as (m & Ed & Lm & Q). unfold boundary_array. rewrite Eg. cbn [bind]. rewrite Ew, Ea, Ed. eexists. split; [rewrite <- Ea; destruct u; reflexivity|]. auto.
  - destruct (D _ _ C) as (m & Ed & Lm & Q). rewrite Ea, Eb, Eg, Eh. cbn [bind]. unfold boundary_array, fnorms. rewrite Lg, Nat.eqb_refl. cbn [bind]. rewrite La, Nat.eqb_refl, Ew. change (grad_norms a b) with (zip_with (fun x y => sqrt (x ^ 2 + y ^ 2)) a b). change (fun z => fnorm (fst z) (snd z)) with (fun z : option R * option R => norms (fst z) (snd z)). rewrite Ed. cbn [snd]. eexists. split; [reflexivity|]. auto.
Qed.
Print Assumptions C68_drawn.
(** Plots of values show every triangle that the cell does not mask. *)
Theorem C68_values contains S H c ess u T log a b : ContourProps.ready contains H c -> boundary_edges H c ess -> concat ess <> [] -> locfun S H c u -> u_vals u = Some a -> get_trace_values u = Ok b ->
  triangles (tg_tris T) (tg_hole T) (tg_bdry T) (List.length a + List.length b) ->
  exists pic, draw true log "values" u H c T = (u, Ok pic) /\ pic_vals pic = map (fun x => Some (scaled log x)) (a ++ b) /\ pic_mask pic = tg_hole T.
Proof.
  intros Rd B NE L Ea Eb C. destruct (C68_drawn contains S H c ess u T log "values" a (map Some b) Rd B NE L (pl_values _ _ _ _ _ Ea Eb)) as (pic & E & V & Lm & Q); [rewrite map_length; exact C|]. exists pic. split; [exact E|]. rewrite <- map_app in V. rewrite V, map_map. split; [reflexivity|].
  destruct C as (C1 & C2 & _). assert (X : forall k, nth_error (pic_mask pic) k = nth_error (tg_hole T) k).
  { intros k. destruct (nth_error (tg_tris T) k) as [t|] eqn:Et.
    - specialize (Q k t Et). assert (FV : forall i, corner_of t i -> exists x, nth_error (map Some a ++ map Some b) i = Some (Some x)). { intros i Ci. specialize (C1 t i (nth_error_In _ _ Et) Ci). rewrite <- map_app, nth_error_map. destruct (nth_error (a ++ b) i) as [x|] eqn:Ex; [cbn; eauto|]. apply nth_error_None in Ex. rewrite app_length in Ex. lia. }
      assert (I : (k < List.length (tg_tris T))%nat) by (apply nth_error_Some; congruence). destruct (nth_error (pic_mask pic) k) as [p|] eqn:Ep; [|apply nth_error_None in Ep; lia]. destruct (nth_error (tg_hole T) k) as [q|] eqn:Eq; [|apply nth_error_None in Eq; lia].
      destruct p, q; try reflexivity; exfalso; [assert (Y : Some true = Some false) by (apply Q; auto); discriminate|]. assert (Y : Some true = Some false) by (apply Q; reflexivity). discriminate.
    - apply nth_error_None in Et. rewrite !(proj2 (nth_error_None _ _)) by lia. reflexivity. }
  revert X. generalize (pic_mask pic) as p, (tg_hole T) as q. clear. induction p as [|x p IH]; intros [|y q] X; [reflexivity|specialize (X O); discriminate|specialize (X O); discriminate|]. f_equal; [specialize (X O); cbn in X; congruence|]. apply IH. intros k. exact (X (Datatypes.S k)).
Qed.
Print Assumptions C68_values.

(** Unknown kinds are refused; so are functions built without interior values. *)
Theorem C68_kinds b log kind u H c T : ~ In kind ["values"; "grad_x1"; "grad_x2"; "grad_norm"] -> draw b log kind u H c T = (u, Err ValueError).
Proof.
  intros N. unfold draw. cbv zeta. rewrite !(proj2 (String.eqb_neq _ _)) by (intros ->; apply N; cbn; auto). reflexivity.
Qed.
Print Assumptions C68_kinds.
Theorem C68_skeleton contains S H c ess u T b log : ContourProps.ready contains H c -> boundary_edges H c ess -> concat ess <> [] -> locfun S H c u ->
  (u_vals u = None -> draw b log "values" u H c T = (u, Err NotImplementedError)) /\ (u_g1 u = None -> draw b log "grad_x1" u H c T = (u, Err NotImplementedError)) /\ (u_g2 u = None -> draw b log "grad_x2" u H c T = (u, Err NotImplementedError)) /\
  (u_g1 u = None \/ u_g2 u = None -> draw b log "grad_norm" u H c T = (u, Err ValueError)).
Proof.
  intros Rd B NE L. destruct (ready_uniform _ _ _ _ Rd B) as (F & _). destruct (window_ok H c ess F NE) as (w & Ew). pose proof (locfun_good F S u L) as Gd. destruct (good_trace F u Gd) as (z & Ez & _ & zh & zp & Z1 & Z2 & _). unfold get_trace_values in Ez. rewrite Z1, Z2 in Ez. cbn [attr bind] in Ez.
  destruct (grad_ok F u 1 fst (good_derivs _ _ _ Gd) comp1) as (g1 & G1 & _). destruct (grad_ok F u 2 snd (good_derivs _ _ _ Gd) comp2) as (g2 & G2 & _).
  unfold draw; cbn [String.eqb Ascii.eqb Bool.eqb]; cbv zeta. split; [|split; [|split]].
  - intros E. unfold boundary_array, trace_array. rewrite Z1, Z2. cbn [arith bind]. rewrite Ez. cbn [bind]. destruct b; rewrite Ew, E; cbn [draw_generic]; rewrite <- E; destruct u; reflexivity.
  - intros E. unfold boundary_array. rewrite G1. cbn [bind]. destruct b; rewrite Ew, E; cbn [draw_generic]; rewrite <- E; destruct u; reflexivity.
  - intros E. unfold boundary_array. rewrite G2. cbn [bind]. destruct b; rewrite Ew, E; cbn [draw_generic]; rewrite <- E; destruct u; reflexivity.
  - intros [E|E]; rewrite E; [reflexivity|]. destruct (u_g1 u); reflexivity.
Qed.
Print Assumptions C68_skeleton.
