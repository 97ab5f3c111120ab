(** C54: inner products of local functions. *)
From Coq Require Import List ZArith Reals Lia Lra Bool QArith Qreals.
From Verif Require Import PyBase PolyModel PolySpec PolyProofs PolyProofs2 PolyProofs3 PolyProofs4 PolyTransfer PolyProps BaryModel VertModel EdgeModel EdgeSpec EdgeProps4 ContourModel CellModel CellSpec CellProofs CellProps ContourProofs ContourProofs2 ContourProofs3 ContourProps CellProps3 TraceModel TraceSpec TraceProofs IntPolyModel IntPolyProofs LocalModel LocalSpec LocalProofs LocalProofs2 LocalProofs3 LocalProofs4 Annulus DiscCell LocalProps.
Import List ListNotations.
Open Scope R_scope.

(** ** The blocks *)
(** On every cell the integral of a polynomial is the quadrature of IntPolyModel, so that C18 is
    about it: it is linear, and the integrand is the flux of a field with that divergence. *)
Theorem C54_cell_integral contains H c ess p : ready contains H c -> boundary_edges H c ess -> int_poly p H c = Ok (integrate_poly_over_mesh_cell p (quadrature (concat ess))).
Proof. intros Rd B. destruct (ready_uniform _ _ _ _ Rd B) as (F & NE & N & U). rewrite (int_poly_ok F NE U). reflexivity. Qed.
Print Assumptions C54_cell_integral.

(** The H1 semi-inner product of two functions: harmonic with harmonic, both mixed terms, and the
    integral of a polynomial [r] that is the product of the gradients up to the cutoff. *)
Theorem C54_h1_blocks contains S S' H c ess u v : ready contains H c -> boundary_edges H c ess -> locfun S H c u -> locfun S' H c v ->
  exists r I, h1_inner u (UPois v) H c = Ok (h1_hh (concat ess) u v + h1_hp (concat ess) u v + h1_hp (concat ess) v u + I) /\ int_poly r H c = Ok I /\
  (forall x y, Rabs (peval RS r x y - (peval RS (lp_g1 (u_poly u)) x y * peval RS (lp_g1 (u_poly v)) x y + peval RS (lp_g2 (u_poly u)) x y * peval RS (lp_g2 (u_poly v)) x y))
    <= tol * (msize (pmul RS (lp_g1 (u_poly u)) (lp_g1 (u_poly v))) x y + msize (pmul RS (lp_g2 (u_poly u)) (lp_g2 (u_poly v))) x y + 2 * msize (lp_g1 (u_poly u)) x y * msize (lp_g1 (u_poly v)) x y + 2 * msize (lp_g2 (u_poly u)) x y * msize (lp_g2 (u_poly v)) x y)) /\
  (forall d e x y, tol <= d * e -> poly_grid d u -> poly_grid e v -> peval RS r x y = peval RS (lp_g1 (u_poly u)) x y * peval RS (lp_g1 (u_poly v)) x y + peval RS (lp_g2 (u_poly u)) x y * peval RS (lp_g2 (u_poly v)) x y).
Proof.
  intros Rd B A A'. destruct (ready_uniform _ _ _ _ Rd B) as (F & NE & N & U). pose proof (good_sides u (locfun_good F S u A)) as Su. pose proof (good_sides v (locfun_good F S' v A')) as Sv. exists (grad_dot (u_poly u) (u_poly v)). eexists. split; [|split; [apply (C54_cell_integral contains H c ess _ Rd B)|]].
  - rewrite (h1_value F NE U u v Su Sv). f_equal. ring.
  - pose proof (s_c u Su) as (Cu0 & Cu1 & Cu2). pose proof (s_c v Sv) as (Cv0 & Cv1 & Cv2). split; [intros x y; apply grad_dot_error; assumption|]. intros d e x y D (_ & U1 & U2) (_ & V1 & V2). unfold grad_dot.
    rewrite (C04_grid (d * e)) by (assumption || apply pmul_canonical || apply on_grid_pmul; assumption). rewrite !(C05_value_grid d e) by assumption. reflexivity.
Qed.
Print Assumptions C54_h1_blocks.
(** ... and the L2 inner product *)
Theorem C54_l2_blocks contains S S' H c ess u v : ready contains H c -> boundary_edges H c ess -> locfun S H c u -> locfun S' H c v ->
  exists r I, l2_inner u (UPois v) H c = Ok (l2_hh_block (concat ess) u v + l2_hp_block (concat ess) u v + l2_hp_block (concat ess) v u + I) /\ int_poly r H c = Ok I /\
  (forall x y, Rabs (peval RS r x y - peval RS (lp_form (u_poly u)) x y * peval RS (lp_form (u_poly v)) x y) <= 2 * tol * (msize (lp_form (u_poly u)) x y * msize (lp_form (u_poly v)) x y)) /\
  (forall d e x y, tol <= d * e -> poly_grid d u -> poly_grid e v -> peval RS r x y = peval RS (lp_form (u_poly u)) x y * peval RS (lp_form (u_poly v)) x y).
Proof.
  intros Rd B A A'. destruct (ready_uniform _ _ _ _ Rd B) as (F & NE & N & U). pose proof (good_sides u (locfun_good F S u A)) as Su. pose proof (good_sides v (locfun_good F S' v A')) as Sv. exists (form_mul (u_poly u) (u_poly v)). eexists. split; [|split; [apply (C54_cell_integral contains H c ess _ Rd B)|]].
  - rewrite (l2_value F NE U u v Su Sv). reflexivity.
  - pose proof (s_c u Su) as (Cu0 & Cu1 & Cu2). pose proof (s_c v Sv) as (Cv0 & Cv1 & Cv2). split; [intros x y; apply C05_value_error|]. intros d e x y D (U0 & _) (V0 & _). apply (C05_value_grid d e); assumption.
Qed.
Print Assumptions C54_l2_blocks.

(** A product with a function is the sum of the products with its two parts. *)
Theorem C54_parts contains S S' H c ess u v : ready contains H c -> boundary_edges H c ess -> locfun S H c u -> locfun S' H c v ->
  (exists a b, h1_inner u (UGen (GHarm (u_harm v))) H c = Ok a /\ h1_inner u (UGen (GPoly (u_poly v))) H c = Ok b /\ h1_inner u (UPois v) H c = Ok (a + b)) /\
  (exists a b, l2_inner u (UGen (GHarm (u_harm v))) H c = Ok a /\ l2_inner u (UGen (GPoly (u_poly v))) H c = Ok b /\ l2_inner u (UPois v) H c = Ok (a + b)) /\
  h1_inner u UBad H c = Err TypeError /\ l2_inner u UBad H c = Err TypeError.
Proof.
  intros Rd B A A'. destruct (ready_uniform _ _ _ _ Rd B) as (F & NE & N & U). pose proof (good_sides u (locfun_good F S u A)) as Su. pose proof (good_sides v (locfun_good F S' v A')) as Sv. split; [|split; [|split; reflexivity]].
  - rewrite (h1_value F NE U u v Su Sv). unfold h1_inner. cbv zeta. cbn [h1_gen]. unfold h1_pp. rewrite (h1_flux_ok F NE U _ _ _ _ (s_hn u Su) (s_hv v Sv) (l_hn u Su) (l_hv v Sv)), (h1_flux_ok F NE U _ _ _ _ (s_hn v Sv) (s_pv u Su) (l_hn v Sv) (l_pv u Su)), (h1_flux_ok F NE U _ _ _ _ (s_hn u Su) (s_pv v Sv) (l_hn u Su) (l_pv v Sv)). cbn [bind]. rewrite (int_poly_ok F NE U), quad_cell. cbn [bind]. eexists _, _. split; [reflexivity|]. split; [reflexivity|]. f_equal. unfold h1_hh, h1_hp, grad_dot. ring.
  - rewrite (l2_value F NE U u v Su Sv). unfold l2_inner. cbv zeta. cbn [l2_gen]. rewrite (l2_hh_ok F NE U u v Su Sv), (l2_hp_ok F NE U u v Su Sv), (l2_hp_ok F NE U v u Sv Su). cbn [bind]. unfold l2_pp. rewrite (int_poly_ok F NE U), quad_cell. cbn [bind]. eexists _, _. split; [reflexivity|]. split; [reflexivity|]. f_equal. unfold form_mul. ring.
Qed.
Print Assumptions C54_parts.

(** ** Order of the arguments *)
(** Mixed products are the same in both orders, also when they fail. *)
Theorem C54_mixed h p H c : h1_gen (GHarm h) (GPoly p) H c = h1_gen (GPoly p) (GHarm h) H c /\ l2_gen (GHarm h) (GPoly p) H c = l2_gen (GPoly p) (GHarm h) H c.
Proof. split; reflexivity. Qed.
Print Assumptions C54_mixed.
(** So are products of polynomials; a product of two functions depends on the order only in the
    harmonic block. *)
Theorem C54_order contains S S' H c ess u v a b a' b' : ready contains H c -> boundary_edges H c ess -> locfun S H c u -> locfun S' H c v ->
  h1_gen (GPoly (u_poly u)) (GPoly (u_poly v)) H c = h1_gen (GPoly (u_poly v)) (GPoly (u_poly u)) H c /\ l2_gen (GPoly (u_poly u)) (GPoly (u_poly v)) H c = l2_gen (GPoly (u_poly v)) (GPoly (u_poly u)) H c /\
  (h1_inner u (UPois v) H c = Ok a -> h1_inner v (UPois u) H c = Ok b -> a - b = h1_hh (concat ess) u v - h1_hh (concat ess) v u) /\
  (l2_inner u (UPois v) H c = Ok a' -> l2_inner v (UPois u) H c = Ok b' -> a' - b' = l2_hh_block (concat ess) u v - l2_hh_block (concat ess) v u).
Proof.
  intros Rd B A A'. destruct (ready_uniform _ _ _ _ Rd B) as (F & NE & N & U). pose proof (good_sides u (locfun_good F S u A)) as Su. pose proof (good_sides v (locfun_good F S' v A')) as Sv.
  pose proof (dot_sym u v Su Sv) as D. pose proof (form_sym u v Su Sv) as D'. split; [cbn [h1_gen]; unfold h1_pp; unfold grad_dot in D; rewrite D; reflexivity|]. split; [cbn [l2_gen]; unfold l2_pp; unfold form_mul in D'; rewrite D'; reflexivity|].
  rewrite !(h1_value F NE U), !(l2_value F NE U) by assumption. rewrite D, D'. split; intros X Y; apply Ok_inj in X; apply Ok_inj in Y; subst; ring.
Qed.
Print Assumptions C54_order.

(** ** Bilinearity *)
(** The blocks that are boundary integrals are bilinear. *)
Theorem C54_boundary_blocks contains S H c ess u v w s : ready contains H c -> boundary_edges H c ess -> locfun S H c u -> locfun S H c v -> locfun S H c w ->
  (forall f, In f [h1_hh; h1_hp; l2_hh_block; l2_hp_block] ->
    (u_add u v = Ok s -> f (concat ess) s w = f (concat ess) u w + f (concat ess) v w /\ f (concat ess) w s = f (concat ess) w u + f (concat ess) w v) /\
    (u_sub u v = Ok s -> f (concat ess) s w = f (concat ess) u w - f (concat ess) v w /\ f (concat ess) w s = f (concat ess) w u - f (concat ess) w v) /\
    (forall k, u_mul u (SNum k) = Ok s -> f (concat ess) s w = k * f (concat ess) u w /\ f (concat ess) w s = k * f (concat ess) w u) /\
    (forall k, u_div u (SNum k) = Ok s -> f (concat ess) s w = f (concat ess) u w / k /\ f (concat ess) w s = f (concat ess) w u / k)).
Proof.
  intros Rd B A A' W. destruct (ready_uniform _ _ _ _ Rd B) as (F & NE & N & U). apply (locfun_good F) in A. apply (locfun_good F) in A'. pose proof (good_sides u A) as Su. pose proof (good_sides v A') as Sv. pose proof (good_sides w (locfun_good F S w W)) as Sw.
  assert (L : forall a b v f, In f [h1_hh; h1_hp; l2_hh_block; l2_hp_block] -> @sides ess v -> lincomb a b u v s -> f (concat ess) s w = a * f (concat ess) u w + b * f (concat ess) v w /\ f (concat ess) w s = a * f (concat ess) w u + b * f (concat ess) w v).
  { intros a b v0 f I Sv0 K. destruct (h1_blocks_linear a b u v0 s w Su Sv0 Sw K) as (B1 & B2 & B3 & B4). destruct (l2_blocks_linear a b u v0 s w Su Sv0 Sw K) as (B5 & B6 & B7 & B8). destruct I as [<-|[<-|[<-|[<-|[]]]]]; auto. }
  intros f I. split; [|split; [|split]].
  - intros E. destruct (u_add_good F u v A A') as (s' & E' & Gs & P & Q & _). rewrite E in E'. apply Ok_inj in E'. subst s'. destruct (L 1 1 v f I Sv) as [L1 L2]; [apply (@lincomb2 ess Rplus); auto; intros; ring|]. rewrite L1, L2. split; ring.
  - intros E. destruct (u_sub_good F u v A A') as (s' & E' & Gs & P & Q & _). rewrite E in E'. apply Ok_inj in E'. subst s'. destruct (L 1 (-1) v f I Sv) as [L1 L2]; [apply (@lincomb2 ess Rminus); auto; intros; ring|]. rewrite L1, L2. split; ring.
  - intros k E. destruct (u_mul_good F u k A) as (s' & E' & Gs & P & Q & _). rewrite E in E'. apply Ok_inj in E'. subst s'. destruct (L k 0 u f I Su) as [L1 L2]; [apply (@lincomb1 ess); assumption|]. rewrite L1, L2. split; ring.
  - intros k E. unfold u_div in E. destruct (Req_EM_T k 0) as [Z|Z]; [discriminate|]. destruct (u_mul_good F u (1 / k) A) as (s' & E' & Gs & P & Q & _). rewrite E in E'. apply Ok_inj in E'. subst s'. destruct (L (1 / k) 0 u f I Su) as [L1 L2]; [apply (@lincomb1 ess); assumption|]. rewrite L1, L2. split; field; exact Z.
Qed.
Print Assumptions C54_boundary_blocks.

(** The products are bilinear when the coefficients that are multiplied lie on grids so coarse that
    nothing is dropped. Missing: the other polynomials, see C54_bilinear_refuted. *)
Definition additive (ip : lpois -> uother -> heap -> cell -> res R) (H : heap) (c : cell) (a b : R) (u v s w : lpois) : Prop :=
  (forall x y, ip u (UPois w) H c = Ok x -> ip v (UPois w) H c = Ok y -> ip s (UPois w) H c = Ok (a * x + b * y)) /\
  (forall x y, ip w (UPois u) H c = Ok x -> ip w (UPois v) H c = Ok y -> ip w (UPois s) H c = Ok (a * x + b * y)).
Theorem C54_bilinear_partial contains S H c ess u v w d e : ready contains H c -> boundary_edges H c ess -> locfun S H c u -> locfun S H c v -> locfun S H c w ->
  poly_grid d u -> poly_grid d v -> poly_grid e w -> tol <= d -> tol <= d * e ->
  (forall s, u_add u v = Ok s -> additive h1_inner H c 1 1 u v s w /\ additive l2_inner H c 1 1 u v s w) /\
  (forall s, u_sub u v = Ok s -> additive h1_inner H c 1 (-1) u v s w /\ additive l2_inner H c 1 (-1) u v s w) /\
  (forall k s, u_mul u (SNum k) = Ok s -> tol <= Rabs k * d -> tol <= Rabs k * d * e -> additive h1_inner H c k 0 u u s w /\ additive l2_inner H c k 0 u u s w) /\
  (forall k s, u_div u (SNum k) = Ok s -> tol <= Rabs (1 / k) * d -> tol <= Rabs (1 / k) * d * e -> additive h1_inner H c (1 / k) 0 u u s w /\ additive l2_inner H c (1 / k) 0 u u s w).
Proof.
  intros Rd B A A' W Gu Gv Gw D1 D2. destruct (ready_uniform _ _ _ _ Rd B) as (F & NE & N & U). apply (locfun_good F) in A. apply (locfun_good F) in A'. pose proof (good_sides u A) as Su. pose proof (good_sides v A') as Sv. pose proof (good_sides w (locfun_good F S w W)) as Sw.
  assert (M : forall k s, u_mul u (SNum k) = Ok s -> tol <= Rabs k * d -> tol <= Rabs k * d * e -> additive h1_inner H c k 0 u u s w /\ additive l2_inner H c k 0 u u s w).
  { intros k s E T1 T2. destruct (u_mul_good F u k A) as (s' & E' & Gs & P & Q & _). rewrite E in E'. apply Ok_inj in E'. subst s'. pose proof (good_sides s Gs) as Ss. destruct (poly1_lin k d u s T1 Gu Ss P) as [G L].
    destruct (inner_linear F NE U k 0 d (Rabs k * d) e u u w s Su Su Sw Ss (lincomb1 k u s Su Q P) L Gu Gu G Gw D2 T2) as (X1 & X2 & X3 & X4). repeat split; assumption. }
  split; [|split; [|split; [exact M|]]].
  - intros s E. destruct (u_add_good F u v A A') as (s' & E' & Gs & P & Q & _). rewrite E in E'. apply Ok_inj in E'. subst s'. pose proof (good_sides s Gs) as Ss. destruct (poly2_lin Rplus 1 d u v s ltac:(intros; ring) D1 Gu Gv Ss P) as [G L].
    destruct (inner_linear F NE U 1 1 d d e u v w s Su Sv Sw Ss (lincomb2 Rplus 1 1 u v s ltac:(intros; ring) Su Sv Q P) L Gu Gv G Gw D2 D2) as (X1 & X2 & X3 & X4). repeat split; assumption.
  - intros s E. destruct (u_sub_good F u v A A') as (s' & E' & Gs & P & Q & _). rewrite E in E'. apply Ok_inj in E'. subst s'. pose proof (good_sides s Gs) as Ss. destruct (poly2_lin Rminus (-1) d u v s ltac:(intros; ring) D1 Gu Gv Ss P) as [G L].
    destruct (inner_linear F NE U 1 (-1) d d e u v w s Su Sv Sw Ss (lincomb2 Rminus 1 (-1) u v s ltac:(intros; ring) Su Sv Q P) L Gu Gv G Gw D2 D2) as (X1 & X2 & X3 & X4). repeat split; assumption.
  - intros k s E. unfold u_div in E. destruct (Req_EM_T k 0); [discriminate|]. apply M, E.
Qed.
Print Assumptions C54_bilinear_partial.

(** ** Without grids the products are not bilinear *)
Lemma disc_integral H c e p : unit_disc H c e -> (forall x y, 0 <= value (rdiv p) x y) -> 0 < value (rdiv p) 2 0 -> 0 < integrate_poly_over_mesh_cell p (quadrature (concat [[e]])).
Proof.
  intros (_ & _ & N & S & _) P P2. rewrite integrate_poly_value. unfold quadrature, contour_smp, open_smp. cbn [concat app map List.length]. rewrite app_nil_r, S, disc_size by exact N. change (removelast _) with (map (fun i => disc_smp (angle i)) (seq 0 8)). rewrite map_map. cbn [disc_smp sx sN sw fst snd].
  set (k := 2 * PI * INR 1 / 8 * 1). assert (K : 0 < k) by (unfold k; pose proof PI_RGT_0; cbn [INR]; lra).
  assert (X : forall t, xn (BSample (cos t + 1) (sin t) (cos t) (sin t) k) = 1 + cos t) by (intros t; unfold xn; cbn; pose proof (sin2_cos2 t) as Q; unfold Rsqr in Q; lra).
  assert (G : forall l, 0 <= bsum (map (fun i => BSample (cos (angle i) + 1) (sin (angle i)) (cos (angle i)) (sin (angle i)) k) l) (fun b => xn b * value (rdiv p) (bs_x b) (bs_y b))).
  { induction l as [|i l IH]; [cbn; lra|]. cbn [map bsum]. rewrite X. apply Rplus_le_le_0_compat; [|exact IH]. apply Rmult_le_pos; [|cbn; lra]. apply Rmult_le_pos; [pose proof (COS_bound (angle i)); lra|apply P]. }
  change (seq 0 8) with (0%nat :: seq 1 7). cbn [map bsum]. rewrite X. specialize (G (seq 1 7)). apply Rplus_lt_le_0_compat; [|exact G]. cbn [bs_x bs_y bs_w]. replace (angle 0) with 0 by (unfold angle; cbn; ring). rewrite cos_0, sin_0. replace (1 + 1) with 2 by ring. nra.
Qed.
Definition tiny : poly QS := [Mono (S:=QS) (MI 0 0) (4 # 10000000)%Q].
Definition million : R := h (1000000 # 1)%Q.
Theorem C54_bilinear_refuted : exists H c e u s, unit_disc H c e /\ locfun still H c u /\ u_mul u (SNum million) = Ok s /\
  (exists x y, h1_inner u (UPois u) H c = Ok x /\ h1_inner s (UPois u) H c = Ok y /\ million * x < y) /\
  (exists x y, l2_inner u (UPois u) H c = Ok x /\ l2_inner s (UPois u) H c = Ok y /\ million * x < y).
Proof.
  destruct unit_disc_exists as (H & c & e & D). pose proof D as (Rd & B & N & _). destruct (C53_total disc still H c [[e]] (hp tiny) (TVal (VScal 0)) Rd B (disc_tame _ _ _ D) (disc_const _ _ _ 0 D)) as (u & E).
  destruct (ready_uniform _ _ _ _ Rd B) as (F & NE & M & U). assert (A : locfun still H c u) by (eapply lf_new; exact E). pose proof (locfun_good F still u A) as G. destruct (u_mul_good F u million G) as (s & Es & Gs & _).
  exists H, c, e, u, s. split; [exact D|]. split; [exact A|]. split; [exact Es|].
  destruct (mk_lpois_inv F _ _ _ _ _ _ E) as (P & t & v & w & E1 & _ & _ & _ & EP & _). destruct (mk_lpoly_ok F (panti_laplacian RS (hp tiny)) (panti_canonical _)) as (P' & E1' & F0 & F1 & F2 & _). rewrite E1 in E1'. apply Ok_inj in E1'. subst P' P.
  assert (Q : lp_form (u_poly s) = pscale RS (lp_form (u_poly u)) million /\ lp_g1 (u_poly s) = pscale RS (lp_g1 (u_poly u)) million /\ lp_g2 (u_poly s) = pscale RS (lp_g2 (u_poly u)) million).
  { pose proof Es as Es'. unfold u_mul, lp_mul in Es'. destruct (tr_mul (lp_trace (u_poly u)) _); [|discriminate]. destruct (tr_mul (lp_atrace (u_poly u)) _); [|discriminate]. cbn [bind] in Es'. destruct (lh_mul _ _); [|discriminate]. cbn [bind] in Es'. apply Ok_inj in Es'. subst s. repeat split. }
  destruct Q as (Q0 & Q1 & Q2). pose proof (good_sides u G) as Su. pose proof (good_sides s Gs) as Ss.
  assert (Pm : forall q, pscale RS (hp q) million = hp (pscale QS q (1000000 # 1)%Q)) by (intros q; exact (t_pscale q (1000000 # 1)%Q)).
  assert (Z1 : grad_dot (u_poly u) (u_poly u) = []).
  { unfold grad_dot. rewrite F1, F2, t_panti_laplacian, t_pdx, t_pdy, !t_pmul, t_padd. reflexivity. }
  assert (Z2 : form_mul (u_poly u) (u_poly u) = []).
  { unfold form_mul. rewrite F0, t_panti_laplacian, !t_pmul. reflexivity. }
  assert (Y1 : grad_dot (u_poly s) (u_poly u) = hp (padd QS (pmul QS (pscale QS (pdx QS (panti_laplacian QS tiny)) (1000000 # 1)) (pdx QS (panti_laplacian QS tiny))) (pmul QS (pscale QS (pdy QS (panti_laplacian QS tiny)) (1000000 # 1)) (pdy QS (panti_laplacian QS tiny))))) by (unfold grad_dot; rewrite Q1, Q2, F1, F2, t_panti_laplacian, t_pdx, t_pdy, !Pm, !t_pmul, t_padd; reflexivity).
  assert (Y2 : form_mul (u_poly s) (u_poly u) = hp (pmul QS (pscale QS (panti_laplacian QS tiny) (1000000 # 1)) (panti_laplacian QS tiny))) by (unfold form_mul; rewrite Q0, F0, t_panti_laplacian, !Pm, !t_pmul; reflexivity).
  pose proof (C54_boundary_blocks disc still H c [[e]] u u u s Rd B A A A) as L.
  assert (I : forall f, In f [h1_hh; h1_hp; l2_hh_block; l2_hp_block] -> f (concat [[e]]) s u = million * f (concat [[e]]) u u /\ f (concat [[e]]) u s = million * f (concat [[e]]) u u) by (intros f K; destruct (L f K) as (_ & _ & X & _); exact (X million Es)).
  split; eexists _, _; (split; [first [apply (h1_value F NE U u u Su Su)|apply (l2_value F NE U u u Su Su)]|]); (split; [first [apply (h1_value F NE U s u Ss Su)|apply (l2_value F NE U s u Ss Su)]|]).
  - destruct (I h1_hh) as [I1 _]; [cbn; auto|]. destruct (I h1_hp) as [I2 I3]; [cbn; auto|]. rewrite Z1, Y1, I1, I2, I3. change (integrate_poly_over_mesh_cell [] _) with 0.
    match goal with |- context [hp ?q] => let r := eval vm_compute in q in change (hp q) with (hp r) end.
    match goal with |- context [integrate_poly_over_mesh_cell ?q ?K] => assert (X : 0 < integrate_poly_over_mesh_cell q K) end; [|lra].
    apply (disc_integral H c e _ D); [intros x y|]; cbn [hp map hm rdiv value malpha mcoef mx my morder Nat.add INR]; unfold Q2R; cbn; nra.
  - destruct (I l2_hh_block) as [I1 _]; [cbn; auto|]. destruct (I l2_hp_block) as [I2 I3]; [cbn; auto|]. rewrite Z2, Y2, I1, I2, I3. change (integrate_poly_over_mesh_cell [] _) with 0.
    match goal with |- context [hp ?q] => let r := eval vm_compute in q in change (hp q) with (hp r) end.
    match goal with |- context [integrate_poly_over_mesh_cell ?q ?K] => assert (X : 0 < integrate_poly_over_mesh_cell q K) end; [|lra].
    apply (disc_integral H c e _ D); [intros x y|]; cbn [hp map hm rdiv value malpha mcoef mx my morder Nat.add INR]; unfold Q2R; cbn; [|nra].
    assert (A1 : 0 <= x * x) by nra. assert (A2 : 0 <= y * y) by nra. assert (A3 : 0 <= (x * x) * (y * y)) by nra. assert (A4 : 0 <= (x * x) * (x * x)) by nra. assert (A5 : 0 <= (y * y) * (y * y)) by nra.
    nra.
Qed.
Print Assumptions C54_bilinear_refuted.

(** ** Example *)
Example C54_example : exists H c e u v s x y, unit_disc H c e /\ mk_lpois still H c [rmon 4 0 0] (TVal (VScal 3)) false false = Ok u /\ mk_lpois still H c [rmon 8 0 0] (TVal (VScal 1)) false false = Ok v /\ u_add u v = Ok s /\
  poly_grid 1 u /\ poly_grid 1 v /\ h1_inner u (UPois v) H c = Ok x /\ h1_inner v (UPois v) H c = Ok y /\ h1_inner s (UPois v) H c = Ok (1 * x + 1 * y).
Proof.
  destruct unit_disc_exists as (H & c & e & D). pose proof D as (Rd & B & N & _). destruct (C53_total disc still H c [[e]] [rmon 4 0 0] (TVal (VScal 3)) Rd B (disc_tame _ _ _ D) (disc_const _ _ _ 3 D)) as (u & E). destruct (C53_total disc still H c [[e]] [rmon 8 0 0] (TVal (VScal 1)) Rd B (disc_tame _ _ _ D) (disc_const _ _ _ 1 D)) as (v & E').
  destruct (ready_uniform _ _ _ _ Rd B) as (F & NE & M & U). assert (A : locfun still H c u) by (eapply lf_new; exact E). assert (A' : locfun still H c v) by (eapply lf_new; exact E').
  destruct (u_add_good F u v (locfun_good F still u A) (locfun_good F still v A')) as (s & Es & _).
  destruct (C54_h1_blocks _ _ _ _ _ _ _ _ Rd B A A') as (_ & I & X & _). destruct (C54_h1_blocks _ _ _ _ _ _ _ _ Rd B A' A') as (_ & I' & Y & _).
  assert (G : forall z g w, mk_lpois still H c [rmon (IZR (4 * z)) 0 0] g false false = Ok w -> (z = 1 \/ z = 2)%Z -> poly_grid 1 w).
  { intros z g w Ew Z. destruct (mk_lpois_inv F _ _ _ _ _ _ Ew) as (P & t & v0 & w0 & E1 & _ & _ & _ & EP & _). destruct (mk_lpoly_ok F (panti_laplacian RS [rmon (IZR (4 * z)) 0 0]) (panti_canonical _)) as (P' & E1' & F0 & F1 & F2 & _). rewrite E1 in E1'. apply Ok_inj in E1'. subst P' P.
    unfold poly_grid. rewrite F0, F1, F2. replace [rmon (IZR (4 * z)) 0 0] with (hp [Mono (S:=QS) (MI 0 0) (4 * z # 1)%Q]) by (cbn; unfold hm, rmon, Q2R; cbn; repeat f_equal; field). rewrite t_panti_laplacian, t_pdx, t_pdy.
    assert (K : forall q, forallb (fun m => Pos.eqb (Qden (Qred (mcoef (S:=QS) m))) 1) q = true -> on_grid 1 (hp q)).
    { intros q K m I1. apply in_map_iff in I1. destruct I1 as (m' & <- & I1). rewrite forallb_forall in K. apply K in I1. apply Pos.eqb_eq in I1. exists (Qnum (Qred (mcoef (S:=QS) m'))). cbn. rewrite <- (Qeq_eqR _ _ (Qred_correct (mcoef (S:=QS) m'))). unfold Q2R. rewrite I1. cbn. field. }
    destruct Z; subst z; (split; [|split]); apply K; vm_compute; reflexivity. }
  assert (Gu : poly_grid 1 u) by (apply (G 1%Z _ u E); auto). assert (Gv : poly_grid 1 v) by (apply (G 2%Z _ v E'); auto).
  destruct (C54_bilinear_partial _ _ _ _ _ u v v 1 1 Rd B A A' A' Gu Gv Gv) as (L & _); [unfold tol; lra|unfold tol; lra|]. destruct (L s Es) as ((L1 & _) & _).
  exists H, c, e, u, v, s. eexists _, _. repeat (split; [eassumption|]). exact (L1 _ _ X Y).
Qed.
