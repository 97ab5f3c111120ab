(** Lemmas on the inner products of local functions. *)
From Coq Require Import List ZArith Reals Lia Lra Bool.
From Verif Require Import PyBase PolyModel PolySpec PolyProofs PolyProofs2 PolyProofs4 BaryModel VertModel EdgeModel EdgeSpec EdgeProps4 ContourModel CellModel CellSpec CellProofs CellProps ContourProofs ContourProofs2 ContourProofs3 ContourProps CellProps3 TraceModel TraceSpec TraceProofs IntPolyModel IntPolyProofs LocalModel LocalSpec LocalProofs LocalProofs2 LocalProofs3.
Import List ListNotations.
Open Scope R_scope.

(** The polynomials whose integrals enter *)
Definition grad_dot (p q : lpoly) : poly RS := padd RS (pmul RS (lp_g1 p) (lp_g1 q)) (pmul RS (lp_g2 p) (lp_g2 q)).
Definition form_mul (p q : lpoly) : poly RS := pmul RS (lp_form p) (lp_form q).

Lemma abs_between a b : Rabs a <= b <-> - b <= a <= b.
Proof. split; [intros H; split_Rabs; lra|apply Rabs_le]. Qed.
Lemma grad_dot_error p q x y : canonical (lp_g1 p) -> canonical (lp_g2 p) -> canonical (lp_g1 q) -> canonical (lp_g2 q) ->
  Rabs (peval RS (grad_dot p q) x y - (peval RS (lp_g1 p) x y * peval RS (lp_g1 q) x y + peval RS (lp_g2 p) x y * peval RS (lp_g2 q) x y))
    <= tol * (msize (pmul RS (lp_g1 p) (lp_g1 q)) x y + msize (pmul RS (lp_g2 p) (lp_g2 q)) x y + 2 * msize (lp_g1 p) x y * msize (lp_g1 q) x y + 2 * msize (lp_g2 p) x y * msize (lp_g2 q) x y).
Proof.
  intros _ _ _ _. rewrite !peval_value. pose proof (value_padd_err (pmul RS (lp_g1 p) (lp_g1 q)) (pmul RS (lp_g2 p) (lp_g2 q)) x y (pmul_canonical _ _) (pmul_canonical _ _)) as A. pose proof (value_pmul_err (lp_g1 p) (lp_g1 q) x y) as B. pose proof (value_pmul_err (lp_g2 p) (lp_g2 q) x y) as C. unfold grad_dot.
  revert A B C. set (a := value (padd RS _ _) x y). set (b := value (pmul RS (lp_g1 p) _) x y). set (d := value (pmul RS (lp_g2 p) _) x y). intros A B C. apply abs_between in A. apply abs_between in B. apply abs_between in C. apply abs_between. lra.
Qed.
Lemma grad_dot_sym p q : canonical (lp_g1 p) -> canonical (lp_g2 p) -> canonical (lp_g1 q) -> canonical (lp_g2 q) -> grad_dot p q = grad_dot q p.
Proof. intros A B C D. unfold grad_dot. rewrite (pmul_comm (lp_g1 p)), (pmul_comm (lp_g2 p)) by assumption. reflexivity. Qed.

(** Linearity of products of polynomials *)
Lemma t_mul_linear (f g h k : table) (a b : R) i j : (forall i j, k i j = a * f i j + b * g i j) -> t_mul k h i j = a * t_mul f h i j + b * t_mul g h i j.
Proof.
  intros E. unfold t_mul. rewrite !scal_sum, <- sum_plus. apply sum_eq. intros m _. rewrite (Rmult_comm _ a), (Rmult_comm _ b), !scal_sum, <- sum_plus. apply sum_eq. intros n _. rewrite E. ring.
Qed.
Lemma pmul_linear d s e a b p q t w : tol <= d * e -> tol <= s * e -> canonical p -> canonical q -> canonical t -> canonical w -> on_grid d p -> on_grid d q -> on_grid s t -> on_grid e w ->
  (forall i j, coef t i j = a * coef p i j + b * coef q i j) -> forall i j, coef (pmul RS t w) i j = a * coef (pmul RS p w) i j + b * coef (pmul RS q w) i j.
Proof. intros D1 D2 Cp Cq Ct Cw Gp Gq Gt Gw L i j. rewrite (coef_pmul_grid s e t w), (coef_pmul_grid d e p w), (coef_pmul_grid d e q w) by assumption. rewrite !coef_mulraw. apply t_mul_linear, L. Qed.
Lemma coef_padd_grid d p q i j : tol <= d -> canonical p -> canonical q -> on_grid d p -> on_grid d q -> coef (padd RS p q) i j = coef p i j + coef q i j.
Proof. intros D Cp Cq Gp Gq. rewrite coef_padd by assumption. destruct (on_grid_coef d p i j Gp) as (z & ->). destruct (on_grid_coef d q i j Gq) as (z' & ->). rewrite <- Rmult_plus_distr_l, <- plus_IZR. apply grid_cutoff, D. Qed.
Definition grads (d : R) (p : lpoly) : Prop := canonical (lp_g1 p) /\ canonical (lp_g2 p) /\ on_grid d (lp_g1 p) /\ on_grid d (lp_g2 p).
Lemma grad_dot_linear d s e a b p q t w : tol <= d * e -> tol <= s * e -> grads d p -> grads d q -> grads s t -> grads e w ->
  (forall i j, coef (lp_g1 t) i j = a * coef (lp_g1 p) i j + b * coef (lp_g1 q) i j) -> (forall i j, coef (lp_g2 t) i j = a * coef (lp_g2 p) i j + b * coef (lp_g2 q) i j) ->
  forall i j, coef (grad_dot t w) i j = a * coef (grad_dot p w) i j + b * coef (grad_dot q w) i j.
Proof.
  intros D1 D2 (P1 & P2 & P3 & P4) (Q1 & Q2 & Q3 & Q4) (T1 & T2 & T3 & T4) (W1 & W2 & W3 & W4) L1 L2 i j. unfold grad_dot. rewrite (coef_padd_grid (s * e)), (coef_padd_grid (d * e)), (coef_padd_grid (d * e)) by (assumption || apply pmul_canonical || apply on_grid_pmul; assumption).
  rewrite (pmul_linear d s e a b (lp_g1 p) (lp_g1 q) (lp_g1 t) (lp_g1 w)), (pmul_linear d s e a b (lp_g2 p) (lp_g2 q) (lp_g2 t) (lp_g2 w)) by assumption. ring.
Qed.

(** ** Boundary integrals are bilinear *)
Definition lin (a b : R) : list R -> list R -> list R := zip (fun x y => a * x + b * y).
Lemma flux_comm es v w : flux es v w = flux es w v.
Proof. unfold flux. f_equal. f_equal. unfold zip_with. revert w. induction v as [|x v IH]; intros [|y w]; try reflexivity. cbn. f_equal; [ring|apply IH]. Qed.
Lemma flux_lin es a b w w' v : List.length w = List.length w' -> flux es (lin a b w w') v = a * flux es w v + b * flux es w' v.
Proof.
  unfold flux. intros L. enough (G : sum_list (zip_with Rmult (lin a b w w') v) = a * sum_list (zip_with Rmult w v) + b * sum_list (zip_with Rmult w' v)) by (rewrite G; ring).
  revert w' v L. unfold lin, zip, zip_with. induction w as [|x w IH]; intros [|y w'] [|z v] L; try discriminate; cbn [combine map fst snd]; try (unfold sum_list; cbn; ring). change (sum_list (?a :: ?l)) with (a + sum_list l). rewrite IH by (cbn in L; lia). ring.
Qed.
Lemma flux_lin_r es a b w w' v : List.length w = List.length w' -> flux es v (lin a b w w') = a * flux es v w + b * flux es v w'.
Proof. intros L. rewrite flux_comm, (flux_lin es a b w w' v L), !(flux_comm es v). reflexivity. Qed.

(** ** The products of two functions on a cell *)
Section Cell.
Context {H : heap} {c : cell} {ess : list (list edge)} {N : Z}.
Hypothesis F : cell_fresh H c ess.
Hypothesis NE : Forall (fun es => es <> []) ess.
Hypothesis U : Forall (Forall (fun e => e_npts e = N)) ess.
Local Notation es := (concat ess).
Local Notation good := (@u_good c ess).

Lemma quad_cell : @cell_bs ess = quadrature es.
Proof. reflexivity. Qed.
(** The arrays of a function *)
Record sides (u : lpois) : Prop := Sides {
  s_hv : tr_vals (lh_trace (u_harm u)) = Some (vals (lh_trace (u_harm u))); s_hn : tr_wnd (lh_trace (u_harm u)) = Some (nd (lh_trace (u_harm u)));
  s_bv : tr_vals (lh_bi (u_harm u)) = Some (vals (lh_bi (u_harm u))); s_bn : tr_wnd (lh_bi (u_harm u)) = Some (nd (lh_bi (u_harm u)));
  s_pv : tr_vals (lp_trace (u_poly u)) = Some (vals (lp_trace (u_poly u)));
  s_av : tr_vals (lp_atrace (u_poly u)) = Some (vals (lp_atrace (u_poly u))); s_an : tr_wnd (lp_atrace (u_poly u)) = Some (nd (lp_atrace (u_poly u)));
  l_hv : fitting es (vals (lh_trace (u_harm u))); l_hn : fitting es (nd (lh_trace (u_harm u)));
  l_bv : fitting es (vals (lh_bi (u_harm u))); l_bn : fitting es (nd (lh_bi (u_harm u)));
  l_pv : fitting es (vals (lp_trace (u_poly u)));
  l_av : fitting es (vals (lp_atrace (u_poly u))); l_an : fitting es (nd (lp_atrace (u_poly u)));
  s_c : canonical (lp_form (u_poly u)) /\ canonical (lp_g1 (u_poly u)) /\ canonical (lp_g2 (u_poly u)) }.
Lemma good_sides u : good u -> sides u.
Proof using.
  intros ((v & n & w & q & m & A1 & A2 & A3 & A4 & A5 & _) & (hv & hn & hw & hp & hq & hb & hd & B1 & _ & _ & B4) & _).
  pose proof (carries_len _ _ _ _ A1) as (La1 & _). pose proof (carries_len _ _ _ _ A2) as (La2 & La3 & _). pose proof (carries_len _ _ _ _ B1) as (Lb1 & Lb2 & _). pose proof (carries_len _ _ _ _ B4) as (Lb3 & Lb4 & _).
  destruct A1 as (_ & E1 & _). destruct A2 as (_ & E2 & E3 & _). destruct B1 as (_ & E4 & E5 & _). destruct B4 as (_ & E6 & E7 & _).
  constructor; unfold vals, nd; try rewrite E1; try rewrite E2; try rewrite E3; try rewrite E4; try rewrite E5; try rewrite E6; try rewrite E7; auto.
Qed.
Lemma flux_ok w v : fitting es w -> fitting es v -> (do f <- np_mul w v; cell_integrate_preweighted f H c) = Ok (flux es w v).
Proof using F NE U.
  intros Lw Lv. rewrite np_mul_zip by (unfold fitting in *; lia). cbn [bind]. rewrite (pre_ok F NE U) by (apply (fit_zip Rmult); assumption). reflexivity.
Qed.
Lemma h1_flux_ok h t w v : tr_wnd (lh_trace h) = Some w -> tr_vals t = Some v -> fitting es w -> fitting es v -> h1_flux h t H c = Ok (flux es w v).
Proof using F NE U. intros E1 E2 L1 L2. unfold h1_flux. rewrite E1, E2. cbn [arith attr bind]. apply flux_ok; assumption. Qed.
Lemma h1_value u v : sides u -> sides v -> h1_inner u (UPois v) H c = Ok (h1_hh es u v + integrate_poly_over_mesh_cell (grad_dot (u_poly u) (u_poly v)) (quadrature es) + h1_hp es u v + h1_hp es v u).
Proof using F NE U.
  intros A B. unfold h1_inner. cbv zeta. cbn [h1_gen]. unfold h1_pp. fold (grad_dot (u_poly u) (u_poly v)). rewrite (h1_flux_ok _ _ _ _ (s_hn u A) (s_hv v B) (l_hn u A) (l_hv v B)). cbn [bind]. rewrite (int_poly_ok F NE U), quad_cell. cbn [bind].
  rewrite (h1_flux_ok _ _ _ _ (s_hn u A) (s_pv v B) (l_hn u A) (l_pv v B)). cbn [bind]. rewrite (h1_flux_ok _ _ _ _ (s_hn v B) (s_pv u A) (l_hn v B) (l_pv u A)). reflexivity.
Qed.
Lemma two_flux {A} (w v : list R) (k : R -> res A) : fitting es w -> fitting es v -> (do f <- np_mul w v; do a <- cell_integrate_preweighted f H c; k a) = k (flux es w v).
Proof using F NE U. intros L1 L2. rewrite np_mul_zip by (unfold fitting in *; lia). cbn [bind]. rewrite (pre_ok F NE U) by (apply (fit_zip Rmult); assumption). reflexivity. Qed.
Lemma l2_hh_ok u v : sides u -> sides v -> l2_hh (u_harm u) (u_harm v) H c = Ok (l2_hh_block es u v).
Proof using F NE U.
  intros A B. unfold l2_hh. rewrite (s_bn u A), (s_bv u A), (s_hv v B), (s_hn v B). cbn [arith attr bind]. rewrite two_flux by (apply A || apply B). rewrite two_flux by (apply A || apply B). reflexivity.
Qed.
Lemma l2_hp_ok u v : sides u -> sides v -> l2_hp (u_harm u) (u_poly v) H c = Ok (l2_hp_block es u v).
Proof using F NE U.
  intros A B. unfold l2_hp. rewrite (s_hn u A), (s_hv u A), (s_an v B), (s_av v B). cbn [arith attr bind]. rewrite two_flux by (apply A || apply B). rewrite two_flux by (apply A || apply B). reflexivity.
Qed.
Lemma l2_value u v : sides u -> sides v -> l2_inner u (UPois v) H c = Ok (l2_hh_block es u v + l2_hp_block es u v + l2_hp_block es v u + integrate_poly_over_mesh_cell (form_mul (u_poly u) (u_poly v)) (quadrature es)).
Proof using F NE U.
  intros A B. unfold l2_inner. cbv zeta. cbn [l2_gen]. rewrite l2_hh_ok by assumption. cbn [bind]. rewrite l2_hp_ok by assumption. cbn [bind]. rewrite l2_hp_ok by assumption. cbn [bind]. unfold l2_pp. fold (form_mul (u_poly u) (u_poly v)). rewrite (int_poly_ok F NE U), quad_cell. reflexivity.
Qed.

(** ** Bilinearity *)
(** [s] is [a u + b v] in everything that the products use, apart from the polynomials. *)
Record lincomb (a b : R) (u v s : lpois) : Prop := Lincomb {
  k_hv : vals (lh_trace (u_harm s)) = lin a b (vals (lh_trace (u_harm u))) (vals (lh_trace (u_harm v)));
  k_hn : nd (lh_trace (u_harm s)) = lin a b (nd (lh_trace (u_harm u))) (nd (lh_trace (u_harm v)));
  k_bv : vals (lh_bi (u_harm s)) = lin a b (vals (lh_bi (u_harm u))) (vals (lh_bi (u_harm v)));
  k_bn : nd (lh_bi (u_harm s)) = lin a b (nd (lh_bi (u_harm u))) (nd (lh_bi (u_harm v)));
  k_pv : vals (lp_trace (u_poly s)) = lin a b (vals (lp_trace (u_poly u))) (vals (lp_trace (u_poly v)));
  k_av : vals (lp_atrace (u_poly s)) = lin a b (vals (lp_atrace (u_poly u))) (vals (lp_atrace (u_poly v)));
  k_an : nd (lp_atrace (u_poly s)) = lin a b (nd (lp_atrace (u_poly u))) (nd (lp_atrace (u_poly v))) }.
Lemma h1_blocks_linear a b u v s w : sides u -> sides v -> sides w -> lincomb a b u v s ->
  h1_hh es s w = a * h1_hh es u w + b * h1_hh es v w /\ h1_hh es w s = a * h1_hh es w u + b * h1_hh es w v /\
  h1_hp es s w = a * h1_hp es u w + b * h1_hp es v w /\ h1_hp es w s = a * h1_hp es w u + b * h1_hp es w v.
Proof using.
  intros A B W K. unfold h1_hh, h1_hp. rewrite (k_hn _ _ _ _ _ K), (k_hv _ _ _ _ _ K), (k_pv _ _ _ _ _ K). pose proof (l_hv u A). pose proof (l_hv v B). pose proof (l_hn u A). pose proof (l_hn v B). pose proof (l_pv u A). pose proof (l_pv v B). unfold fitting in *. rewrite !flux_lin, !flux_lin_r by lia. auto.
Qed.
Lemma l2_blocks_linear a b u v s w : sides u -> sides v -> sides w -> lincomb a b u v s ->
  l2_hh_block es s w = a * l2_hh_block es u w + b * l2_hh_block es v w /\ l2_hh_block es w s = a * l2_hh_block es w u + b * l2_hh_block es w v /\
  l2_hp_block es s w = a * l2_hp_block es u w + b * l2_hp_block es v w /\ l2_hp_block es w s = a * l2_hp_block es w u + b * l2_hp_block es w v.
Proof using.
  intros A B W K. unfold l2_hh_block, l2_hp_block. rewrite (k_hn _ _ _ _ _ K), (k_hv _ _ _ _ _ K), (k_bn _ _ _ _ _ K), (k_bv _ _ _ _ _ K), (k_an _ _ _ _ _ K), (k_av _ _ _ _ _ K). destruct A, B. unfold fitting in *. rewrite !flux_lin, !flux_lin_r by lia. repeat split; ring.
Qed.

Lemma entry2_eq f x y z : entrywise2 f x y z -> z = zip f x y.
Proof using.
  clear. unfold zip. revert y z. induction x as [|a x IH]; intros [|b y] [|d z] (L1 & L2 & E); try discriminate; [reflexivity|]. cbn. pose proof (E 0%nat a b eq_refl eq_refl) as E0. cbn in E0. injection E0 as ->. f_equal. apply IH. split; [cbn in L1; lia|]. split; [cbn in L2; lia|]. intros i u v A B. exact (E (S i) u v A B).
Qed.
Lemma entry_eq f x z : entrywise f x z -> z = map f x.
Proof using.
  clear. revert z. induction x as [|a x IH]; intros [|d z] (L2 & E); try discriminate; [reflexivity|]. cbn. pose proof (E 0%nat a eq_refl) as E0. cbn in E0. injection E0 as ->. f_equal. apply IH. split; [cbn in L2; lia|]. intros i u A. exact (E (S i) u A).
Qed.
Lemma comb2_arrays f g t1 t2 t : (forall x y, f x y = g x y) -> combines2 f t1 t2 t -> vals t = zip g (vals t1) (vals t2) /\ (tr_wnd t1 <> None -> tr_wnd t2 <> None -> nd t = zip g (nd t1) (nd t2)).
Proof using.
  intros E ((a & b & x & E1 & E2 & E3 & E4) & K & _). assert (Z : forall p q, zip f p q = zip g p q) by (intros; unfold zip; apply map_ext; intros; apply E). unfold vals, nd. rewrite E1, E2, E3. split; [rewrite <- Z; apply entry2_eq, E4|]. intros N1 N2. destruct (tr_wnd t1), (tr_wnd t2), (tr_wnd t); try congruence; [|destruct K]. rewrite <- Z. apply entry2_eq, K.
Qed.
Lemma comb1_arrays k t1 t : combines (fun x => x * k) t1 t -> vals t = lin k 0 (vals t1) (vals t1) /\ (tr_wnd t1 <> None -> nd t = lin k 0 (nd t1) (nd t1)).
Proof using.
  intros ((a & x & E1 & E3 & E4) & K & _). assert (Z : forall p, map (fun x => x * k) p = lin k 0 p p) by (intros p; unfold lin, zip; induction p as [|y p IH]; [reflexivity|]; cbn; f_equal; [ring|exact IH]). unfold vals, nd. rewrite E1, E3. split; [rewrite <- Z; apply entry_eq, E4|]. intros N1. destruct (tr_wnd t1), (tr_wnd t); try congruence; [|destruct K]. rewrite <- Z. apply entry_eq, K.
Qed.
Lemma lincomb2 f a b u v s : (forall x y, f x y = a * x + b * y) -> sides u -> sides v -> harm2 f (u_harm u) (u_harm v) (u_harm s) -> poly2 f (u_poly u) (u_poly v) (u_poly s) -> lincomb a b u v s.
Proof using.
  intros E A B (H1 & _ & _ & H4 & _) (P1 & P2 & _). destruct (comb2_arrays _ _ _ _ _ E H1) as [V1 D1]. destruct (comb2_arrays _ _ _ _ _ E H4) as [V2 D2]. destruct (comb2_arrays _ _ _ _ _ E P1) as [V3 _]. destruct (comb2_arrays _ _ _ _ _ E P2) as [V4 D4].
  destruct A, B. constructor; auto; [apply D1|apply D2|apply D4]; congruence.
Qed.
Lemma lincomb1 k u s : sides u -> harm1 (fun x => x * k) (u_harm u) (u_harm s) -> poly1 (fun x => x * k) (u_poly u) (u_poly s) -> lincomb k 0 u u s.
Proof using.
  intros A (H1 & _ & _ & H4 & _) (P1 & P2 & _). destruct (comb1_arrays _ _ _ H1) as [V1 D1]. destruct (comb1_arrays _ _ _ H4) as [V2 D2]. destruct (comb1_arrays _ _ _ P1) as [V3 _]. destruct (comb1_arrays _ _ _ P2) as [V4 D4].
  destruct A. constructor; auto; [apply D1|apply D2|apply D4]; congruence.
Qed.

Definition poly_lin (a b : R) (u v t : lpois) : Prop :=
  (forall i j, coef (lp_form (u_poly t)) i j = a * coef (lp_form (u_poly u)) i j + b * coef (lp_form (u_poly v)) i j) /\
  (forall i j, coef (lp_g1 (u_poly t)) i j = a * coef (lp_g1 (u_poly u)) i j + b * coef (lp_g1 (u_poly v)) i j) /\
  (forall i j, coef (lp_g2 (u_poly t)) i j = a * coef (lp_g2 (u_poly u)) i j + b * coef (lp_g2 (u_poly v)) i j).
Lemma form_sym u v : sides u -> sides v -> form_mul (u_poly u) (u_poly v) = form_mul (u_poly v) (u_poly u).
Proof using. intros A B. apply pmul_comm; [apply A|apply B]. Qed.
Lemma dot_sym u v : sides u -> sides v -> grad_dot (u_poly u) (u_poly v) = grad_dot (u_poly v) (u_poly u).
Proof using. intros A B. apply grad_dot_sym; try apply (s_c u A); apply (s_c v B). Qed.
Lemma inner_linear a b d s e u v w t : sides u -> sides v -> sides w -> sides t -> lincomb a b u v t -> poly_lin a b u v t -> poly_grid d u -> poly_grid d v -> poly_grid s t -> poly_grid e w -> tol <= d * e -> tol <= s * e ->
  (forall x y, h1_inner u (UPois w) H c = Ok x -> h1_inner v (UPois w) H c = Ok y -> h1_inner t (UPois w) H c = Ok (a * x + b * y)) /\
  (forall x y, h1_inner w (UPois u) H c = Ok x -> h1_inner w (UPois v) H c = Ok y -> h1_inner w (UPois t) H c = Ok (a * x + b * y)) /\
  (forall x y, l2_inner u (UPois w) H c = Ok x -> l2_inner v (UPois w) H c = Ok y -> l2_inner t (UPois w) H c = Ok (a * x + b * y)) /\
  (forall x y, l2_inner w (UPois u) H c = Ok x -> l2_inner w (UPois v) H c = Ok y -> l2_inner w (UPois t) H c = Ok (a * x + b * y)).
Proof using F NE U.
  intros A B W T K (P0 & P1 & P2) (Gu0 & Gu1 & Gu2) (Gv0 & Gv1 & Gv2) (Gt0 & Gt1 & Gt2) (Gw0 & Gw1 & Gw2) D1 D2.
  destruct (h1_blocks_linear a b u v t w A B W K) as (B1 & B2 & B3 & B4). destruct (l2_blocks_linear a b u v t w A B W K) as (B5 & B6 & B7 & B8).
  pose proof (s_c u A) as (Cu0 & Cu1 & Cu2). pose proof (s_c v B) as (Cv0 & Cv1 & Cv2). pose proof (s_c w W) as (Cw0 & Cw1 & Cw2). pose proof (s_c t T) as (Ct0 & Ct1 & Ct2).
  assert (I1 : integrate_poly_over_mesh_cell (grad_dot (u_poly t) (u_poly w)) (quadrature es) = a * integrate_poly_over_mesh_cell (grad_dot (u_poly u) (u_poly w)) (quadrature es) + b * integrate_poly_over_mesh_cell (grad_dot (u_poly v) (u_poly w)) (quadrature es)).
  { apply integrate_poly_linear. apply (grad_dot_linear d s e); try assumption; repeat split; assumption. }
  assert (I2 : integrate_poly_over_mesh_cell (form_mul (u_poly t) (u_poly w)) (quadrature es) = a * integrate_poly_over_mesh_cell (form_mul (u_poly u) (u_poly w)) (quadrature es) + b * integrate_poly_over_mesh_cell (form_mul (u_poly v) (u_poly w)) (quadrature es)).
  { apply integrate_poly_linear. apply (pmul_linear d s e); assumption. }
  rewrite !h1_value, !l2_value by assumption. rewrite (dot_sym w u), (dot_sym w v), (dot_sym w t), (form_sym w u), (form_sym w v), (form_sym w t), B1, B2, B3, B4, B5, B6, B7, B8, I1, I2 by assumption.
  repeat split; intros x y X Y; apply Ok_inj in X; apply Ok_inj in Y; subst x y; f_equal; ring.
Qed.

Lemma grid_of_coef (s : R) p : canonical p -> (forall i j, exists z, coef p i j = s * IZR z) -> on_grid s p.
Proof using. intros C G m I. rewrite <- (canonical_coef_In m p C I). apply G. Qed.
Lemma coefs2_grid f d p q r (z : Z) : f = (fun x y => x + IZR z * y) -> tol <= d -> on_grid d p -> on_grid d q -> canonical r -> coefs2 f p q r -> on_grid d r /\ forall i j, coef r i j = coef p i j + IZR z * coef q i j.
Proof using.
  intros -> D Gp Gq C E. assert (X : forall i j, exists k, coef p i j + IZR z * coef q i j = d * IZR k /\ coef r i j = d * IZR k).
  { intros i j. destruct (on_grid_coef d p i j Gp) as (x & Ex). destruct (on_grid_coef d q i j Gq) as (y & Ey). exists (x + z * y)%Z. rewrite E, Ex, Ey. replace (d * IZR x + IZR z * (d * IZR y)) with (d * IZR (x + z * y)) by (rewrite plus_IZR, mult_IZR; ring). split; [reflexivity|]. apply grid_cutoff, D. }
  split; [apply grid_of_coef; [exact C|]; intros i j; destruct (X i j) as (k & _ & K); eauto|]. intros i j. destruct (X i j) as (k & -> & K). exact K.
Qed.
Lemma coefs1_grid d k p r : tol <= Rabs k * d -> on_grid d p -> canonical r -> coefs1 (fun x => x * k) p r -> on_grid (Rabs k * d) r /\ forall i j, coef r i j = k * coef p i j.
Proof using.
  intros D Gp C E. assert (X : forall i j, exists z, k * coef p i j = Rabs k * d * IZR z /\ coef r i j = Rabs k * d * IZR z).
  { intros i j. destruct (on_grid_coef d p i j Gp) as (x & Ex). assert (S : exists z, k * (d * IZR x) = Rabs k * d * IZR z) by (unfold Rabs; destruct (Rcase_abs k); [exists (- x)%Z; rewrite opp_IZR; ring|exists x; ring]). destruct S as (z & S). exists z. rewrite E, Ex. rewrite (Rmult_comm _ k), S. split; [reflexivity|]. apply grid_cutoff, D. }
  split; [apply grid_of_coef; [exact C|]; intros i j; destruct (X i j) as (z & _ & K); eauto|]. intros i j. destruct (X i j) as (z & -> & K). exact K.
Qed.
Lemma poly2_lin f (z : Z) d u v t : (forall x y, f x y = x + IZR z * y) -> tol <= d -> poly_grid d u -> poly_grid d v -> sides t -> poly2 f (u_poly u) (u_poly v) (u_poly t) -> poly_grid d t /\ poly_lin 1 (IZR z) u v t.
Proof using.
  intros Ef D (A0 & A1 & A2) (B0 & B1 & B2) T (_ & _ & C0 & C1 & C2 & _). pose proof (s_c t T) as (Ct0 & Ct1 & Ct2).
  assert (X : forall p q r, coefs2 f p q r -> coefs2 (fun x y => x + IZR z * y) p q r) by (intros p q r X i j; rewrite X, Ef; reflexivity).
  destruct (coefs2_grid _ d _ _ _ z eq_refl D A0 B0 Ct0 (X _ _ _ C0)) as [G0 L0]. destruct (coefs2_grid _ d _ _ _ z eq_refl D A1 B1 Ct1 (X _ _ _ C1)) as [G1 L1]. destruct (coefs2_grid _ d _ _ _ z eq_refl D A2 B2 Ct2 (X _ _ _ C2)) as [G2 L2].
  split; [repeat split; assumption|]. repeat split; intros i j; rewrite ?L0, ?L1, ?L2; ring.
Qed.
Lemma poly1_lin k d u t : tol <= Rabs k * d -> poly_grid d u -> sides t -> poly1 (fun x => x * k) (u_poly u) (u_poly t) -> poly_grid (Rabs k * d) t /\ poly_lin k 0 u u t.
Proof using.
  intros D (A0 & A1 & A2) T (_ & _ & C0 & C1 & C2 & _). pose proof (s_c t T) as (Ct0 & Ct1 & Ct2).
  destruct (coefs1_grid d k _ _ D A0 Ct0 C0) as [G0 L0]. destruct (coefs1_grid d k _ _ D A1 Ct1 C1) as [G1 L1]. destruct (coefs1_grid d k _ _ D A2 Ct2 C2) as [G2 L2].
  split; [repeat split; assumption|]. repeat split; intros i j; rewrite ?L0, ?L1, ?L2; ring.
Qed.
End Cell.
