(** C54 without conditions on the coefficients: how far the inner products are from bilinear. *)
From Coq Require Import List ZArith Reals Lia Lra Bool QArith Qreals.
From Verif Require Import PyBase PolyModel PolySpec PolyProofs PolyProofs2 PolyProofs3 PolyProofs4 PolyTransfer PolyProps BaryModel VertModel EdgeModel EdgeSpec ContourModel CellModel CellSpec CellProofs CellProps ContourProofs ContourProofs2 ContourProofs3 ContourProps CellProps3 TraceModel TraceSpec TraceProofs IntPolyModel IntPolyProofs LocalModel LocalSpec LocalProofs LocalProofs2 LocalProofs3 LocalProofs4 Annulus DiscCell LocalProps LocalProps2 PolyErr PolyErr2 PolyErr3.
Import List ListNotations.
Open Scope R_scope.

(** ** Products *)
Definition near (E a b : R) (p q r : rpoly) : Prop := forall i j, Rabs (coef r i j - (a * coef p i j + b * coef q i j)) <= E.
Lemma sum_diff_le f g n E : (forall i, (i <= n)%nat -> Rabs (f i - g i) <= E) -> Rabs (sum_f_R0 f n - sum_f_R0 g n) <= INR (n + 1) * E.
Proof. intros H. rewrite <- minus_sum. apply sum_abs_le. exact H. Qed.
Lemma pmul_near p q i j : canonical p -> canonical q -> Rabs (coef (pmul RS p q) i j - t_mul (coef p) (coef q) i j) <= (INR (i + 1) * INR (j + 1) + 1) * tol.
Proof.
  intros Cp Cq. rewrite coef_pmul by assumption. rewrite Rmult_plus_distr_r, Rmult_1_l. apply cutoff_near. rewrite Rmult_assoc. unfold t_mul. apply sum_diff_le. intros k _. apply sum_diff_le. intros l _. apply cutoff_err.
Qed.
Lemma t_mul_near p q r w C i j E a b : near E a b p q r -> 0 <= E -> (forall i j, Rabs (coef w i j) <= C) ->
  Rabs (t_mul (coef r) (coef w) i j - (a * t_mul (coef p) (coef w) i j + b * t_mul (coef q) (coef w) i j)) <= INR (i + 1) * INR (j + 1) * (E * C).
Proof.
  intros H HE HC. unfold t_mul. rewrite !scal_sum, <- plus_sum, Rmult_assoc. apply sum_diff_le. intros k _. rewrite (Rmult_comm _ a), (Rmult_comm _ b), !scal_sum, <- plus_sum. apply sum_diff_le. intros l _.
  replace (_ - _) with ((coef r k l - (a * coef p k l + b * coef q k l)) * coef w (i - k) (j - l)) by ring. rewrite Rabs_mult. apply Rmult_le_compat; try apply Rabs_pos; [apply H|apply HC].
Qed.
Definition prod_c (N : nat) (a b C : R) : R := (1 + Rabs a + Rabs b) * (INR (N + 1) ^ 2 + 1) + INR (N + 1) ^ 2 * C.
Lemma prod_near N p q r w C a b : canonical p -> canonical q -> canonical r -> canonical w -> near tol a b p q r -> 0 <= C -> (forall i j, Rabs (coef w i j) <= C) ->
  forall i j, (i + j <= N)%nat -> Rabs (coef (pmul RS r w) i j - (a * coef (pmul RS p w) i j + b * coef (pmul RS q w) i j)) <= prod_c N a b C * tol.
Proof.
  intros Cp Cq Cr Cw Hn C0 HC i j L. pose proof tol_pos as TP. pose proof (pmul_near p w i j Cp Cw) as Ep. pose proof (pmul_near q w i j Cq Cw) as Eq. pose proof (pmul_near r w i j Cr Cw) as Er. pose proof (t_mul_near p q r w C i j tol a b Hn ltac:(lra) HC) as Et.
  assert (B : 0 <= INR (i + 1) * INR (j + 1) <= INR (N + 1) ^ 2). { split; [apply Rmult_le_pos; apply pos_INR|]. cbn [pow]. rewrite Rmult_1_r. apply Rmult_le_compat; try apply pos_INR; apply le_INR; lia. }
  set (n2 := INR (N + 1) ^ 2) in *. set (ij := INR (i + 1) * INR (j + 1)) in *. set (R1 := coef (pmul RS r w) i j) in *. set (P1 := coef (pmul RS p w) i j) in *. set (Q1 := coef (pmul RS q w) i j) in *. set (Rt := t_mul (coef r) (coef w) i j) in *. set (Pt := t_mul (coef p) (coef w) i j) in *. set (Qt := t_mul (coef q) (coef w) i j) in *.
  replace (R1 - (a * P1 + b * Q1)) with ((R1 - Rt) + ((Rt - (a * Pt + b * Qt)) + (- a * (P1 - Pt) + - b * (Q1 - Qt)))) by ring. eapply Rle_trans; [apply Rabs_triang|]. eapply Rle_trans; [apply Rplus_le_compat_l, Rabs_triang|]. eapply Rle_trans; [apply Rplus_le_compat_l, Rplus_le_compat_l, Rabs_triang|]. rewrite !Rabs_mult, !Rabs_Ropp.
  pose proof (Rabs_pos a) as A0. pose proof (Rabs_pos b) as B0. assert (Rabs a * Rabs (P1 - Pt) <= Rabs a * ((ij + 1) * tol)) by (apply Rmult_le_compat_l; assumption). assert (Rabs b * Rabs (Q1 - Qt) <= Rabs b * ((ij + 1) * tol)) by (apply Rmult_le_compat_l; assumption).
  assert (X1 : (1 + Rabs a + Rabs b) * ((ij + 1) * tol) <= (1 + Rabs a + Rabs b) * ((n2 + 1) * tol)) by (apply Rmult_le_compat_l; [lra|]; apply Rmult_le_compat_r; lra). assert (X2 : ij * (tol * C) <= n2 * (tol * C)) by (apply Rmult_le_compat_r; [apply Rmult_le_pos; lra|lra]). unfold prod_c. fold n2. lra.
Qed.

(** ** Integrals *)
Definition bsize (K : list bsample) : R := bsum (map (fun k => BSample (bs_x k) (bs_y k) (bs_nx k) (bs_ny k) (Rabs (bs_w k))) K) (fun k => Rabs (xn k)).
Lemma deg_rdiv N p : deg_le N p -> deg_le N (rdiv p).
Proof. intros H m I. unfold rdiv in I. apply in_map_iff in I. destruct I as (n & <- & I). exact (H n I). Qed.
Lemma rdiv_near N p q r a b E x y M : deg_le N p -> deg_le N q -> deg_le N r -> 0 <= E -> (forall i j, (i + j <= N)%nat -> Rabs (coef r i j - (a * coef p i j + b * coef q i j)) <= E) -> 1 <= M -> Rabs x <= M -> Rabs y <= M ->
  Rabs (value (rdiv r) x y - (a * value (rdiv p) x y + b * value (rdiv q) x y)) <= INR (N + 1) ^ 2 * M ^ N * (E / 2).
Proof.
  intros Dp Dq Dr HE H HM Hx Hy. rewrite (value_box (rdiv p) x y N), (value_box (rdiv q) x y N), (value_box (rdiv r) x y N) by (apply deg_rdiv; assumption). unfold box. rewrite !scal_sum, <- plus_sum. cbn [pow]. rewrite Rmult_1_r, !Rmult_assoc. apply sum_diff_le. intros i Hi. rewrite (Rmult_comm _ a), (Rmult_comm _ b), !scal_sum, <- plus_sum. apply sum_diff_le. intros j Hj. rewrite !coef_rdiv.
  replace (_ - _) with ((coef r i j - (a * coef p i j + b * coef q i j)) / (2 + INR (i + j)) * (x ^ i * y ^ j)) by (field; pose proof (pos_INR (i + j)); lra). rewrite Rabs_mult. pose proof (pow_lt M N ltac:(lra)) as Mp. destruct (Nat.le_gt_cases (i + j) N) as [L|L].
  - rewrite Rmult_comm. apply Rmult_le_compat; try apply Rabs_pos.
    + rewrite Rabs_mult. pose proof (pow_abs_le x M i Hx). pose proof (pow_abs_le y M j Hy). eapply Rle_trans; [apply Rmult_le_compat; try apply Rabs_pos; eassumption|]. rewrite <- pow_add. apply Rle_pow; assumption.
    + unfold Rdiv. rewrite Rabs_mult. apply Rmult_le_compat; try apply Rabs_pos; [apply H, L|]. pose proof (pos_INR (i + j)). rewrite Rabs_right by (apply Rle_ge, Rlt_le, Rinv_0_lt_compat; lra). apply Rinv_le_contravar; lra.
  - assert (Z : forall l, deg_le N l -> coef l i j = 0) by (intros l Dl; apply coef_notin; intros m I Q; specialize (Dl m I); rewrite Q in Dl; cbn [mx my] in Dl; lia). rewrite !Z by assumption. replace (0 - (a * 0 + b * 0)) with 0 by ring. unfold Rdiv. rewrite Rmult_0_l, Rabs_R0, Rmult_0_l. apply Rmult_le_pos; lra.
Qed.
Lemma int_near N p q r a b E M K : deg_le N p -> deg_le N q -> deg_le N r -> 0 <= E -> (forall i j, (i + j <= N)%nat -> Rabs (coef r i j - (a * coef p i j + b * coef q i j)) <= E) -> 1 <= M ->
  (forall k, In k K -> Rabs (bs_x k) <= M /\ Rabs (bs_y k) <= M) ->
  Rabs (integrate_poly_over_mesh_cell r K - (a * integrate_poly_over_mesh_cell p K + b * integrate_poly_over_mesh_cell q K)) <= bsize K * (INR (N + 1) ^ 2 * M ^ N * (E / 2)).
Proof.
  intros Dp Dq Dr HE H HM HK. rewrite !integrate_poly_value. unfold bsize. set (T := INR (N + 1) ^ 2 * M ^ N * (E / 2)). induction K as [|k K IH]; cbn [map bsum].
  - replace (0 - (a * 0 + b * 0)) with 0 by ring. rewrite Rabs_R0. lra.
  - destruct (HK k (or_introl eq_refl)) as [Hx Hy]. pose proof (rdiv_near N p q r a b E (bs_x k) (bs_y k) M Dp Dq Dr HE H HM Hx Hy) as Ek. fold T in Ek. specialize (IH ltac:(intros z Iz; apply HK; right; exact Iz)). change (xn {| bs_x := bs_x k; bs_y := bs_y k; bs_nx := bs_nx k; bs_ny := bs_ny k; bs_w := Rabs (bs_w k) |}) with (xn k). cbn [bs_w].
    set (vr := value (rdiv r) _ _) in *. set (vp := value (rdiv p) _ _) in *. set (vq := value (rdiv q) _ _) in *. set (Sr := bsum K (fun k => xn k * value (rdiv r) _ _)) in *. set (Sp := bsum K (fun k => xn k * value (rdiv p) _ _)) in *. set (Sq := bsum K (fun k => xn k * value (rdiv q) _ _)) in *. set (X := bsum (map _ K) _) in *.
    replace (xn k * vr * bs_w k + Sr - (a * (xn k * vp * bs_w k + Sp) + b * (xn k * vq * bs_w k + Sq))) with (xn k * bs_w k * (vr - (a * vp + b * vq)) + (Sr - (a * Sp + b * Sq))) by ring. eapply Rle_trans; [apply Rabs_triang|]. rewrite !Rabs_mult.
    assert (Rabs (xn k) * Rabs (bs_w k) * Rabs (vr - (a * vp + b * vq)) <= Rabs (xn k) * Rabs (bs_w k) * T) by (apply Rmult_le_compat_l; [apply Rmult_le_pos; apply Rabs_pos|exact Ek]). lra.
Qed.

(** ** Local functions *)
Definition poly_deg (D : nat) (u : lpois) : Prop := deg_le D (lp_form (u_poly u)) /\ deg_le D (lp_g1 (u_poly u)) /\ deg_le D (lp_g2 (u_poly u)).
Definition poly_below (C : R) (u : lpois) : Prop := forall i j, Rabs (coef (lp_form (u_poly u)) i j) <= C /\ Rabs (coef (lp_g1 (u_poly u)) i j) <= C /\ Rabs (coef (lp_g2 (u_poly u)) i j) <= C.
Definition poly_near (a b : R) (u v t : lpois) : Prop := near tol a b (lp_form (u_poly u)) (lp_form (u_poly v)) (lp_form (u_poly t)) /\ near tol a b (lp_g1 (u_poly u)) (lp_g1 (u_poly v)) (lp_g1 (u_poly t)) /\ near tol a b (lp_g2 (u_poly u)) (lp_g2 (u_poly v)) (lp_g2 (u_poly t)).
Lemma deg_of_coef N p : canonical p -> (forall i j, (N < i + j)%nat -> coef p i j = 0) -> deg_le N p.
Proof.
  intros C H m I. destruct (Nat.le_gt_cases (mx (malpha m) + my (malpha m)) N) as [|L]; [assumption|]. exfalso. pose proof (canonical_coef_In m p C I) as E. rewrite H in E by exact L. pose proof (canonical_In m p C I) as B. pose proof tol_pos. rewrite <- E, Rabs_R0 in B. lra.
Qed.
Lemma coef_deg N p i j : deg_le N p -> (N < i + j)%nat -> coef p i j = 0.
Proof. intros D L. apply coef_notin. intros m I Q. specialize (D m I). rewrite Q in D. cbn [mx my] in D. lia. Qed.
Lemma coefs2_near f a b D p q r : (forall x y, f x y = a * x + b * y) -> canonical r -> coefs2 f p q r -> deg_le D p -> deg_le D q -> near tol a b p q r /\ deg_le D r.
Proof.
  intros Ef C H Dp Dq. split; [intros i j; rewrite H, Ef; apply cutoff_err|]. apply deg_of_coef; [exact C|]. intros i j L. rewrite H, Ef, (coef_deg D p), (coef_deg D q) by assumption. replace (a * 0 + b * 0) with 0 by ring. apply cutoff_zero.
Qed.
Lemma coefs1_near k D p r : canonical r -> coefs1 (fun x => x * k) p r -> deg_le D p -> near tol k 0 p p r /\ deg_le D r.
Proof.
  intros C H Dp. split; [intros i j; rewrite H; replace (k * coef p i j + 0 * coef p i j) with (coef p i j * k) by ring; apply cutoff_err|]. apply deg_of_coef; [exact C|]. intros i j L. rewrite H, (coef_deg D p) by assumption. rewrite Rmult_0_l. apply cutoff_zero.
Qed.
(** The bound: [D] degree, [C] size of the coefficients of the other factor, [M] size of the
    coordinates, [X] the boundary integral of |x . n|. *)
Definition bilinear_err (D : nat) (a b C M X : R) : R :=
  let n2 := INR (2 * D + 1) ^ 2 in X * (n2 * M ^ (2 * D) * ((1 + Rabs a + Rabs b) * (n2 + 2) + n2 * C)) * tol.
Section Near.
Context {contains : R -> list pt -> pt -> bool} {H : heap} {c : cell} {ess : list (list edge)}.
Hypothesis Rd : ready contains H c.
Hypothesis Be : boundary_edges H c ess.
Local Notation es := (concat ess).
Variables (D : nat) (a b C M : R) (u v w t : lpois).
Hypothesis Su : @sides ess u.
Hypothesis Sv : @sides ess v.
Hypothesis Sw : @sides ess w.
Hypothesis St : @sides ess t.
Hypothesis HM : 1 <= M.
Hypothesis HK : forall k, In k (quadrature es) -> Rabs (bs_x k) <= M /\ Rabs (bs_y k) <= M.
Hypothesis Du : poly_deg D u.
Hypothesis Dv : poly_deg D v.
Hypothesis Dw : poly_deg D w.
Hypothesis Dt : poly_deg D t.
Hypothesis Cw : poly_below C w.
Hypothesis Nt : poly_near a b u v t.

Let X := bsize (quadrature es).
Lemma C_pos : 0 <= C.
Proof. eapply Rle_trans; [apply Rabs_pos|apply (Cw 0%nat 0%nat)]. Qed.
Lemma bsize_pos K : 0 <= bsize K.
Proof. unfold bsize. induction K as [|k K IH]; cbn [map bsum]; [lra|]. cbn [bs_w]. apply Rplus_le_le_0_compat; [apply Rmult_le_pos; apply Rabs_pos|exact IH]. Qed.
Lemma prod_c_pos N : 0 <= prod_c N a b C.
Proof. unfold prod_c. pose proof C_pos. pose proof (Rabs_pos a). pose proof (Rabs_pos b). assert (0 <= INR (N + 1) ^ 2) by (apply pow_le, pos_INR). assert (0 <= INR (N + 1) ^ 2 * C) by (apply Rmult_le_pos; lra). assert (0 <= (1 + Rabs a + Rabs b) * (INR (N + 1) ^ 2 + 1)) by (apply Rmult_le_pos; lra). lra. Qed.
Lemma form_near : Rabs (integrate_poly_over_mesh_cell (form_mul (u_poly t) (u_poly w)) (quadrature es) - (a * integrate_poly_over_mesh_cell (form_mul (u_poly u) (u_poly w)) (quadrature es) + b * integrate_poly_over_mesh_cell (form_mul (u_poly v) (u_poly w)) (quadrature es))) <= bilinear_err D a b C M X.
Proof.
  pose proof tol_pos as TP. pose proof (prod_c_pos (2 * D)) as Pp. destruct Du as (Du0 & _), Dv as (Dv0 & _), Dw as (Dw0 & _), Dt as (Dt0 & _), Nt as (N0 & _). pose proof (s_c u Su) as (Cu0 & _). pose proof (s_c v Sv) as (Cv0 & _). pose proof (s_c w Sw) as (Cw0 & _). pose proof (s_c t St) as (Ct0 & _).
  assert (G : forall p q, deg_le D p -> deg_le D q -> deg_le (2 * D) (pmul RS p q)) by (intros p q Hp Hq; replace (2 * D)%nat with (D + D)%nat by lia; apply deg_pmul; assumption). unfold form_mul.
  eapply Rle_trans; [apply (int_near (2 * D) _ _ _ a b (prod_c (2 * D) a b C * tol) M); try (apply G; assumption); try assumption; [apply Rmult_le_pos; lra|]|].
  - intros i j L. apply prod_near; try assumption; [apply C_pos|intros k l; apply Cw].
  - fold X. unfold bilinear_err. cbv zeta. pose proof (bsize_pos (quadrature es)) as Xp. fold X in Xp. assert (Np : 0 <= INR (2 * D + 1) ^ 2 * M ^ (2 * D)) by (apply Rmult_le_pos; apply pow_le; [apply pos_INR|lra]). unfold prod_c in *. set (n2 := INR (2 * D + 1) ^ 2) in *. rewrite !Rmult_assoc. apply Rmult_le_compat_l; [exact Xp|]. rewrite <- !Rmult_assoc. set (nm := n2 * M ^ (2 * D)) in *. rewrite !Rmult_assoc. apply Rmult_le_compat_l; [exact Np|].
    pose proof (Rabs_pos a). pose proof (Rabs_pos b). assert (0 <= (1 + Rabs a + Rabs b) * tol) by (apply Rmult_le_pos; lra). set (k1 := (1 + Rabs a + Rabs b)) in *. assert (0 <= (k1 * (n2 + 1) + n2 * C) * tol) by (apply Rmult_le_pos; lra). lra.
Qed.
Lemma dot_near : Rabs (integrate_poly_over_mesh_cell (grad_dot (u_poly t) (u_poly w)) (quadrature es) - (a * integrate_poly_over_mesh_cell (grad_dot (u_poly u) (u_poly w)) (quadrature es) + b * integrate_poly_over_mesh_cell (grad_dot (u_poly v) (u_poly w)) (quadrature es))) <= bilinear_err D a b C M X.
Proof.
  pose proof tol_pos as TP. pose proof (prod_c_pos (2 * D)) as Pp. destruct Du as (_ & Du1 & Du2), Dv as (_ & Dv1 & Dv2), Dw as (_ & Dw1 & Dw2), Dt as (_ & Dt1 & Dt2), Nt as (_ & N1 & N2). pose proof (s_c u Su) as (_ & Cu1 & Cu2). pose proof (s_c v Sv) as (_ & Cv1 & Cv2). pose proof (s_c w Sw) as (_ & Cw1 & Cw2). pose proof (s_c t St) as (_ & Ct1 & Ct2).
  assert (G : forall p q, deg_le D p -> deg_le D q -> deg_le (2 * D) (pmul RS p q)) by (intros p q Hp Hq; replace (2 * D)%nat with (D + D)%nat by lia; apply deg_pmul; assumption).
  assert (G' : forall p q p' q', deg_le D p -> deg_le D q -> deg_le D p' -> deg_le D q' -> deg_le (2 * D) (padd RS (pmul RS p q) (pmul RS p' q'))) by (intros; rewrite padd_consolidate by apply pmul_canonical; apply deg_consolidate, deg_le_app; apply G; assumption). unfold grad_dot.
  pose proof (Rabs_pos a) as Ra. pose proof (Rabs_pos b) as Rb. set (k1 := (1 + Rabs a + Rabs b)).
  eapply Rle_trans; [apply (int_near (2 * D) _ _ _ a b ((2 * prod_c (2 * D) a b C + k1) * tol) M); try (apply G'; assumption); try assumption; [apply Rmult_le_pos; unfold k1; lra|]|].
  - intros i j L. pose proof (prod_near (2 * D) _ _ _ _ C a b Cu1 Cv1 Ct1 Cw1 N1 C_pos ltac:(intros k l; apply Cw) i j L) as E1. pose proof (prod_near (2 * D) _ _ _ _ C a b Cu2 Cv2 Ct2 Cw2 N2 C_pos ltac:(intros k l; apply Cw) i j L) as E2.
    rewrite !coef_padd by apply pmul_canonical. set (t1 := coef (pmul RS (lp_g1 (u_poly t)) _) i j) in *. set (t2 := coef (pmul RS (lp_g2 (u_poly t)) _) i j) in *. set (u1 := coef (pmul RS (lp_g1 (u_poly u)) _) i j) in *. set (u2 := coef (pmul RS (lp_g2 (u_poly u)) _) i j) in *. set (v1 := coef (pmul RS (lp_g1 (u_poly v)) _) i j) in *. set (v2 := coef (pmul RS (lp_g2 (u_poly v)) _) i j) in *.
    pose proof (cutoff_err (t1 + t2)) as Kt. pose proof (cutoff_err (u1 + u2)) as Ku. pose proof (cutoff_err (v1 + v2)) as Kv. set (ct := cutoff (t1 + t2)) in *. set (cu := cutoff (u1 + u2)) in *. set (cv := cutoff (v1 + v2)) in *.
    replace (ct - (a * cu + b * cv)) with ((ct - (t1 + t2)) + ((t1 - (a * u1 + b * v1)) + ((t2 - (a * u2 + b * v2)) + (- a * (cu - (u1 + u2)) + - b * (cv - (v1 + v2)))))) by ring.
    eapply Rle_trans; [apply Rabs_triang|]. eapply Rle_trans; [apply Rplus_le_compat_l, Rabs_triang|]. eapply Rle_trans; [apply Rplus_le_compat_l, Rplus_le_compat_l, Rabs_triang|]. eapply Rle_trans; [apply Rplus_le_compat_l, Rplus_le_compat_l, Rplus_le_compat_l, Rabs_triang|]. rewrite !Rabs_mult, !Rabs_Ropp.
    assert (Rabs a * Rabs (cu - (u1 + u2)) <= Rabs a * tol) by (apply Rmult_le_compat_l; assumption). assert (Rabs b * Rabs (cv - (v1 + v2)) <= Rabs b * tol) by (apply Rmult_le_compat_l; assumption). unfold k1. lra.
  - fold X. unfold bilinear_err. cbv zeta. pose proof (bsize_pos (quadrature es)) as Xp. fold X in Xp. assert (Np : 0 <= INR (2 * D + 1) ^ 2 * M ^ (2 * D)) by (apply Rmult_le_pos; apply pow_le; [apply pos_INR|lra]). unfold prod_c in *. fold k1. fold k1 in Pp. set (n2 := INR (2 * D + 1) ^ 2) in *. rewrite !Rmult_assoc. apply Rmult_le_compat_l; [exact Xp|]. rewrite <- !Rmult_assoc. set (nm := n2 * M ^ (2 * D)) in *. rewrite !Rmult_assoc. apply Rmult_le_compat_l; [exact Np|].
    assert (0 <= k1 * tol) by (apply Rmult_le_pos; unfold k1; lra). assert (Q : (2 * (k1 * (n2 + 1) + n2 * C) + k1) * tol / 2 = (k1 * (n2 + 1) + n2 * C) * tol + k1 * tol / 2) by field. rewrite Q. lra.
Qed.
End Near.
(** Additive up to an error *)
Definition nearly_additive (err : R) (ip : lpois -> uother -> heap -> cell -> res R) (H : heap) (c : cell) (a b : R) (u v s w : lpois) : Prop :=
  (forall x y z, ip u (UPois w) H c = Ok x -> ip v (UPois w) H c = Ok y -> ip s (UPois w) H c = Ok z -> Rabs (z - (a * x + b * y)) <= err) /\
  (forall x y z, ip w (UPois u) H c = Ok x -> ip w (UPois v) H c = Ok y -> ip w (UPois s) H c = Ok z -> Rabs (z - (a * x + b * y)) <= err).
Lemma inner_near contains H c ess D a b C M u v w t : ready contains H c -> boundary_edges H c ess -> @sides ess u -> @sides ess v -> @sides ess w -> @sides ess t -> 1 <= M -> (forall k, In k (quadrature (concat ess)) -> Rabs (bs_x k) <= M /\ Rabs (bs_y k) <= M) ->
  poly_deg D u -> poly_deg D v -> poly_deg D w -> poly_deg D t -> poly_below C w -> poly_near a b u v t -> lincomb a b u v t ->
  let err := bilinear_err D a b C M (bsize (quadrature (concat ess))) in nearly_additive err h1_inner H c a b u v t w /\ nearly_additive err l2_inner H c a b u v t w.
Proof.
  intros Rd Be Su Sv Sw St HM HK Du Dv Dw Dt Cw Nt K. destruct (ready_uniform _ _ _ _ Rd Be) as (F & NE & N & U). cbv zeta.
  destruct (h1_blocks_linear a b u v t w Su Sv Sw K) as (B1 & B2 & B3 & B4). destruct (l2_blocks_linear a b u v t w Su Sv Sw K) as (B5 & B6 & B7 & B8).
  pose proof (@form_near ess D a b C M u v w t Su Sv Sw St HM HK Du Dv Dw Dt Cw Nt) as E1. pose proof (@dot_near ess D a b C M u v w t Su Sv Sw St HM HK Du Dv Dw Dt Cw Nt) as E2. set (err := bilinear_err _ _ _ _ _ _) in *. unfold nearly_additive.
  rewrite !(h1_value F NE U), !(l2_value F NE U) by assumption. rewrite (@dot_sym ess w u), (@dot_sym ess w v), (@dot_sym ess w t), (@form_sym ess w u), (@form_sym ess w v), (@form_sym ess w t), B1, B2, B3, B4, B5, B6, B7, B8 by assumption.
  set (It := integrate_poly_over_mesh_cell (form_mul (u_poly t) _) _) in *. set (Iu := integrate_poly_over_mesh_cell (form_mul (u_poly u) _) _) in *. set (Iv := integrate_poly_over_mesh_cell (form_mul (u_poly v) _) _) in *. set (Jt := integrate_poly_over_mesh_cell (grad_dot (u_poly t) _) _) in *. set (Ju := integrate_poly_over_mesh_cell (grad_dot (u_poly u) _) _) in *. set (Jv := integrate_poly_over_mesh_cell (grad_dot (u_poly v) _) _) in *.
  repeat split; intros x y z Ex Ey Ez; apply Ok_inj in Ex; apply Ok_inj in Ey; apply Ok_inj in Ez; subst x y z.
  - match goal with |- Rabs ?e <= _ => replace e with (Jt - (a * Ju + b * Jv)) by ring end. exact E2.
  - match goal with |- Rabs ?e <= _ => replace e with (Jt - (a * Ju + b * Jv)) by ring end. exact E2.
  - match goal with |- Rabs ?e <= _ => replace e with (It - (a * Iu + b * Iv)) by ring end. exact E1.
  - match goal with |- Rabs ?e <= _ => replace e with (It - (a * Iu + b * Iv)) by ring end. exact E1.
Qed.

(** The inner products of all local functions are additive and homogeneous up to a multiple of the
    cutoff that is explicit in the degree, the coefficients of the other factor and the cell. *)
Theorem C54_bilinear_error contains S H c ess D C M u v w : ready contains H c -> boundary_edges H c ess -> locfun S H c u -> locfun S H c v -> locfun S H c w ->
  1 <= M -> (forall k, In k (quadrature (concat ess)) -> Rabs (bs_x k) <= M /\ Rabs (bs_y k) <= M) -> poly_deg D u -> poly_deg D v -> poly_deg D w -> poly_below C w ->
  let err a b := bilinear_err D a b C M (bsize (quadrature (concat ess))) in
  (forall s, u_add u v = Ok s -> nearly_additive (err 1 1) h1_inner H c 1 1 u v s w /\ nearly_additive (err 1 1) l2_inner H c 1 1 u v s w) /\
  (forall s, u_sub u v = Ok s -> nearly_additive (err 1 (-1)) h1_inner H c 1 (-1) u v s w /\ nearly_additive (err 1 (-1)) l2_inner H c 1 (-1) u v s w) /\
  (forall k s, u_mul u (SNum k) = Ok s -> nearly_additive (err k 0) h1_inner H c k 0 u u s w /\ nearly_additive (err k 0) l2_inner H c k 0 u u s w) /\
  (forall k s, u_div u (SNum k) = Ok s -> nearly_additive (err (1 / k) 0) h1_inner H c (1 / k) 0 u u s w /\ nearly_additive (err (1 / k) 0) l2_inner H c (1 / k) 0 u u s w).
Proof.
  intros Rd B A A' W HM HK Du Dv Dw Cw err. destruct (ready_uniform _ _ _ _ Rd B) as (F & NE & N & U). apply (locfun_good F) in A. apply (locfun_good F) in A'. pose proof (good_sides u A) as Su. pose proof (good_sides v A') as Sv. pose proof (good_sides w (locfun_good F S w W)) as Sw.
  assert (X : forall k s, u_mul u (SNum k) = Ok s -> nearly_additive (err k 0) h1_inner H c k 0 u u s w /\ nearly_additive (err k 0) l2_inner H c k 0 u u s w).
  { intros k s E. destruct (u_mul_good F u k A) as (s' & E' & Gs & P & Q & _). rewrite E in E'. apply Ok_inj in E'. subst s'. pose proof (good_sides s Gs) as Ss. pose proof (s_c s Ss) as (Cs0 & Cs1 & Cs2). pose proof P as (_ & _ & P0 & P1 & P2 & _). destruct Du as (Du0 & Du1 & Du2). destruct (coefs1_near k D _ _ Cs0 P0 Du0) as [N0 D0]. destruct (coefs1_near k D _ _ Cs1 P1 Du1) as [N1 D1]. destruct (coefs1_near k D _ _ Cs2 P2 Du2) as [N2 D2].
    apply (inner_near contains H c ess D k 0 C M u u w s Rd B Su Su Sw Ss HM HK); try (repeat split; assumption); try assumption. apply (@lincomb1 ess); assumption. }
  assert (Y : forall f b s, (forall x y, f x y = 1 * x + b * y) -> @u_good c ess s -> poly2 f (u_poly u) (u_poly v) (u_poly s) -> harm2 f (u_harm u) (u_harm v) (u_harm s) -> nearly_additive (err 1 b) h1_inner H c 1 b u v s w /\ nearly_additive (err 1 b) l2_inner H c 1 b u v s w).
  { intros f b s Ef Gs P Q. pose proof (good_sides s Gs) as Ss. pose proof (s_c s Ss) as (Cs0 & Cs1 & Cs2). pose proof P as (_ & _ & P0 & P1 & P2 & _). destruct Du as (Du0 & Du1 & Du2), Dv as (Dv0 & Dv1 & Dv2). destruct (coefs2_near f 1 b D _ _ _ Ef Cs0 P0 Du0 Dv0) as [N0 D0]. destruct (coefs2_near f 1 b D _ _ _ Ef Cs1 P1 Du1 Dv1) as [N1 D1]. destruct (coefs2_near f 1 b D _ _ _ Ef Cs2 P2 Du2 Dv2) as [N2 D2].
    apply (inner_near contains H c ess D 1 b C M u v w s Rd B Su Sv Sw Ss HM HK); try (repeat split; assumption); try assumption. apply (@lincomb2 ess f); assumption. }
  split; [|split; [|split; [exact X|]]].
  - intros s E. destruct (u_add_good F u v A A') as (s' & E' & Gs & P & Q & _). rewrite E in E'. apply Ok_inj in E'. subst s'. apply (Y Rplus 1 s); try assumption. intros; ring.
  - intros s E. destruct (u_sub_good F u v A A') as (s' & E' & Gs & P & Q & _). rewrite E in E'. apply Ok_inj in E'. subst s'. apply (Y Rminus (-1) s); try assumption. intros; ring.
  - intros k s E. unfold u_div in E. destruct (Req_EM_T k 0); [discriminate|]. apply X, E.
Qed.
Print Assumptions C54_bilinear_error.
(** On the unit disc, for functions with the Laplacian 1/3: sums are additive up to 1e-5. *)
Lemma disc_bsize H c e : unit_disc H c e -> bsize (quadrature (concat [[e]])) <= 16.
Proof.
  intros (_ & _ & N & Sm & _). unfold quadrature, contour_smp, open_smp. cbn [concat app map List.length]. rewrite app_nil_r, Sm, disc_size by exact N. change (removelast _) with (map (fun i => disc_smp (angle i)) (seq 0 8)). unfold bsize. rewrite !map_map. cbn [disc_smp sx sN sw fst snd bs_x bs_y bs_nx bs_ny bs_w].
  set (k := Rabs (2 * PI * INR 1 / 8 * 1)). assert (K : 0 <= k <= 1). { unfold k. pose proof PI_RGT_0. pose proof PI_4. cbn [INR]. rewrite Rabs_right by lra. lra. }
  assert (G : forall l, bsum (map (fun i => BSample (cos (angle i) + 1) (sin (angle i)) (cos (angle i)) (sin (angle i)) k) l) (fun b => Rabs (xn b)) <= 2 * INR (List.length l)).
  { induction l as [|i l IH]; [cbn; lra|]. cbn [map bsum List.length]. rewrite S_INR. cbn [bs_w]. assert (X : Rabs (xn (BSample (cos (angle i) + 1) (sin (angle i)) (cos (angle i)) (sin (angle i)) k)) <= 2).
    { unfold xn. cbn. pose proof (sin2_cos2 (angle i)) as Q. unfold Rsqr in Q. pose proof (COS_bound (angle i)). rewrite Rabs_right; nra. }
    set (x := Rabs _) in *. assert (0 <= x) by apply Rabs_pos. nra. }
  eapply Rle_trans; [apply G|]. rewrite seq_length. cbn [INR]. lra.
Qed.
Definition third : poly QS := [Mono (S:=QS) (MI 0 0) (1 # 3)%Q].
Example C54_error_example : exists H c e u s x y z w, unit_disc H c e /\ mk_lpois still H c (hp third) (TVal (VScal 0)) false false = Ok u /\ u_add u u = Ok s /\
  l2_inner u (UPois u) H c = Ok x /\ l2_inner s (UPois u) H c = Ok y /\ Rabs (y - 2 * x) <= 1 / 100000 /\ h1_inner u (UPois u) H c = Ok z /\ h1_inner s (UPois u) H c = Ok w /\ Rabs (w - 2 * z) <= 1 / 100000.
Proof.
  destruct unit_disc_exists as (H & c & e & D). pose proof D as (Rd & B & N & Sm & _). destruct (C53_total disc still H c [[e]] (hp third) (TVal (VScal 0)) Rd B (disc_tame _ _ _ D) (disc_const _ _ _ 0 D)) as (u & E).
  destruct (ready_uniform _ _ _ _ Rd B) as (F & NE & M & U). assert (A : locfun still H c u) by (eapply lf_new; exact E). pose proof (locfun_good F still u A) as G. destruct (u_add_good F u u G G) as (s & Es & Gs & _). pose proof (good_sides u G) as Su. pose proof (good_sides s Gs) as Ss.
  destruct (mk_lpois_inv F _ _ _ _ _ _ E) as (P & t & v & w & E1 & _ & _ & _ & EP & _). destruct (mk_lpoly_ok F (panti_laplacian RS (hp third)) (panti_canonical _)) as (P' & E1' & F0 & F1 & F2 & _). rewrite E1 in E1'. apply Ok_inj in E1'. subst P' P.
  assert (Q0 : lp_form (u_poly u) = hp [Mono (S:=QS) (MI 2 0) (1 # 12)%Q; Mono (S:=QS) (MI 0 2) (1 # 12)%Q]) by (rewrite F0, t_panti_laplacian; reflexivity).
  assert (Q1 : lp_g1 (u_poly u) = hp [Mono (S:=QS) (MI 1 0) (1 # 6)%Q]) by (rewrite F1, t_panti_laplacian, t_pdx; reflexivity). assert (Q2 : lp_g2 (u_poly u) = hp [Mono (S:=QS) (MI 0 1) (1 # 6)%Q]) by (rewrite F2, t_panti_laplacian, t_pdy; reflexivity).
  assert (Dg : poly_deg 2 u) by (unfold poly_deg; rewrite Q0, Q1, Q2; repeat split; intros m I; cbn in I; repeat (destruct I as [<-|I]; [cbn; lia|]); destruct I).
  assert (Cb : poly_below 1 u). { intros i j. rewrite Q0, Q1, Q2. cbn [hp map hm coef malpha mcoef mx my]. unfold h, Q2R. cbn [Qnum Qden]. repeat split; repeat match goal with |- context [(?p && ?q)%bool] => destruct (p && q)%bool end; apply Rabs_le; lra. }
  assert (HK : forall k, In k (quadrature (concat [[e]])) -> Rabs (bs_x k) <= 2 /\ Rabs (bs_y k) <= 2).
  { intros k I. unfold quadrature, contour_smp, open_smp in I. cbn [concat app map List.length] in I. rewrite app_nil_r, Sm in I. change (removelast _) with (map (fun i => disc_smp (angle i)) (seq 0 8)) in I. rewrite map_map in I. apply in_map_iff in I. destruct I as (i & <- & _). cbn. pose proof (COS_bound (angle i)). pose proof (SIN_bound (angle i)). split; apply Rabs_le; lra. }
  destruct (C54_bilinear_error disc still H c [[e]] 2 1 2 u u u Rd B A A A ltac:(lra) HK Dg Dg Dg Cb) as (X & _). destruct (X s Es) as [(X1 & _) (X2 & _)].
  assert (Er : bilinear_err 2 1 1 1 2 (bsize (quadrature (concat [[e]]))) <= 1 / 100000). { unfold bilinear_err. cbv zeta. pose proof (disc_bsize H c e D) as K. rewrite Rabs_R1. cbn [Nat.mul Nat.add INR pow]. set (b := bsize _) in *. unfold tol. lra. }
  eexists H, c, e, u, s, _, _, _, _. split; [exact D|]. split; [exact E|]. split; [exact Es|]. split; [apply (l2_value F NE U u u Su Su)|]. split; [apply (l2_value F NE U s u Ss Su)|]. split; [|split; [apply (h1_value F NE U u u Su Su)|split; [apply (h1_value F NE U s u Ss Su)|]]].
  - eapply Rle_trans; [|exact Er]. match goal with |- Rabs (?y - 2 * ?x) <= _ => replace (y - 2 * x) with (y - (1 * x + 1 * x)) by ring end. apply X2; [apply (l2_value F NE U u u Su Su)|apply (l2_value F NE U u u Su Su)|apply (l2_value F NE U s u Ss Su)].
  - eapply Rle_trans; [|exact Er]. match goal with |- Rabs (?y - 2 * ?x) <= _ => replace (y - 2 * x) with (y - (1 * x + 1 * x)) by ring end. apply X1; [apply (h1_value F NE U u u Su Su)|apply (h1_value F NE U u u Su Su)|apply (h1_value F NE U s u Ss Su)].
Qed.
