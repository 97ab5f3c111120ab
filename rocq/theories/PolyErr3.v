(** What the cutoff of the coefficients costs, continued: values of Laplacians, shifted monomials. *)
From Coq Require Import List ZArith Reals Lia Lra Bool.
From Verif Require Import PyBase PolyModel PolySpec PolyProofs PolyProofs2 PolyProofs3 PolyProofs4 PolyProps LegendreProofs BaryModel BarySpec EdgeSpaceSpec EdgeSpaceProofs ShiftProofs LocSpaceModel PolyErr PolyErr2.
Import List ListNotations.
Open Scope R_scope.

(** ** From coefficients to values *)
Lemma sum_abs_le f n E : (forall i, (i <= n)%nat -> Rabs (f i) <= E) -> Rabs (sum_f_R0 f n) <= INR (n + 1) * E.
Proof.
  induction n as [|n IH]; intros H.
  - cbn [sum_f_R0 Nat.add INR]. rewrite Rmult_1_l. apply H. lia.
  - cbn [sum_f_R0]. eapply Rle_trans; [apply Rabs_triang|]. replace (S n + 1)%nat with (S (n + 1)) by lia. rewrite S_INR. pose proof (IH ltac:(intros i Hi; apply H; lia)). pose proof (H (S n) ltac:(lia)). lra.
Qed.
Lemma box_minus D f g x y : box D f x y - box D g x y = box D (fun a b => f a b - g a b) x y.
Proof.
  unfold box. rewrite <- minus_sum. apply sum_ext. intros i _. rewrite <- minus_sum. apply sum_ext. intros j _. ring.
Qed.
Lemma lap_err_mono n D : (n <= D)%nat -> lap_err n <= lap_err D.
Proof.
  intros L. unfold lap_err. pose proof tol_pos. apply Rmult_le_compat_r; [lra|]. apply Rmult_le_compat_l; [lra|]. apply pow_incr. split; [apply Rmult_le_pos; apply pos_INR|]. apply Rmult_le_compat; try apply pos_INR; apply le_INR; lia.
Qed.
Lemma lap_err_pos n : 0 <= lap_err n.
Proof. unfold lap_err. pose proof tol_pos. apply Rmult_le_pos; [|lra]. apply Rmult_le_pos; [lra|]. apply pow_le, Rmult_le_pos; apply pos_INR. Qed.
Definition lap_value_err (D : nat) (M : R) : R := INR (D + 1) * (INR (D + 1) * (lap_err D * M ^ D)).
Lemma box_lap_err D p x y M : canonical p -> deg_le D p -> 1 <= M -> Rabs x <= M -> Rabs y <= M ->
  Rabs (box D (t_lap (coef (panti_laplacian RS p))) x y - value p x y) <= lap_value_err D M.
Proof.
  intros C HD HM Hx Hy. rewrite (value_box p x y D HD), box_minus. unfold box, lap_value_err. apply sum_abs_le. intros a Ha. apply sum_abs_le. intros b Hb. destruct (Nat.le_gt_cases (a + b) D) as [L|L].
  - rewrite Rmult_assoc, Rabs_mult, Rabs_mult. pose proof (lap_err_ok p C a b) as E. pose proof (lap_err_mono _ _ L) as Mo. pose proof (pow_abs_le x M a Hx). pose proof (pow_abs_le y M b Hy). pose proof (Rle_pow M (a + b) D HM L) as Mp. rewrite pow_add in Mp.
    assert (Rabs (x ^ a) * Rabs (y ^ b) <= M ^ a * M ^ b) by (apply Rmult_le_compat; assumption || apply Rabs_pos). apply Rmult_le_compat; [apply Rabs_pos|apply Rmult_le_pos; apply Rabs_pos|lra|lra].
  - destruct (high_lap_0 p C D HD a b L) as [-> ->]. rewrite Rminus_0_r, !Rmult_0_l, Rabs_R0. apply Rmult_le_pos; [apply lap_err_pos|apply pow_le; lra].
Qed.
(** The polynomial returned by anti_laplacian has a Laplacian, and it is near [p]. *)
Definition lap_of (q : rpoly) (x y : R) : R := value (pdx RS (pdx RS q)) x y + value (pdy RS (pdy RS q)) x y.
Lemma lap_of_is q : canonical q -> is_laplacian (peval RS q) (lap_of q).
Proof.
  intros C. exists (peval RS (pdx RS q)), (peval RS (pdy RS q)), (peval RS (pdx RS (pdx RS q))), (peval RS (pdy RS (pdy RS q))).
  destruct (C06_grad q C) as [D1 D2]. destruct (C06_grad (pdx RS q) (pdx_canonical _ C)) as [D3 _]. destruct (C06_grad (pdy RS q) (pdy_canonical _ C)) as [_ D4]. repeat (split; [assumption|]). intros x y. rewrite !peval_value. reflexivity.
Qed.
Lemma lap_of_box q D x y : canonical q -> (forall a b, (D < a + b)%nat -> t_lap (coef q) a b = 0) -> lap_of q x y = box D (t_lap (coef q)) x y.
Proof.
  intros C Z. unfold lap_of. rewrite <- value_app. set (l := pdx RS (pdx RS q) ++ pdy RS (pdy RS q)).
  assert (E : forall a b, coef l a b = t_lap (coef q) a b) by (intros a b; unfold l; rewrite coef_app, !coef_pdx, !coef_pdy by auto using pdx_canonical, pdy_canonical; unfold t_lap, t_dx, t_dy; rewrite !coef_pdx, !coef_pdy by assumption; reflexivity).
  destruct (deg_le_ex l) as [D1 H1]. rewrite (value_box l x y (D + D1) (deg_le_mono D1 (D + D1) l ltac:(lia) H1)). unfold box.
  assert (G : forall (f : nat -> R) n k, (forall i, (n < i)%nat -> f i = 0) -> sum_f_R0 f (n + k) = sum_f_R0 f n).
  { intros f n k F. induction k as [|k IH]; [rewrite Nat.add_0_r; reflexivity|]. replace (n + S k)%nat with (S (n + k)) by lia. cbn [sum_f_R0]. rewrite IH, F by lia. ring. }
  rewrite G by (intros i Hi; apply sum_eq0; intros j _; rewrite E, Z by lia; ring). apply sum_ext. intros i _. rewrite G by (intros j Hj; rewrite E, Z by lia; ring). apply sum_ext. intros j _. rewrite E. reflexivity.
Qed.
Lemma anti_near D p M : canonical p -> deg_le D p -> 1 <= M -> exists g, is_laplacian (peval RS (panti_laplacian RS p)) g /\ forall x y, Rabs x <= M -> Rabs y <= M -> Rabs (g x y - peval RS p x y) <= lap_value_err D M.
Proof.
  intros C HD HM. exists (lap_of (panti_laplacian RS p)). split; [apply lap_of_is, panti_canonical|]. intros x y Hx Hy. rewrite peval_value, (lap_of_box _ D) by (try apply panti_canonical; intros a b L; apply (high_lap_0 p C D HD a b L)). apply box_lap_err; assumption.
Qed.

(** ** Shifted monomials *)
Lemma shift_coef (axis : bool) s : exists s', Rabs (s' - s) <= tol /\ Rabs s' <= Rabs s /\ forall a b, coef (if axis then ys s else xs s) a b = coef [rmon (- s') 0 0; if axis then rmon 1 0 1 else rmon 1 1 0] a b.
Proof.
  exists (- cutoff (- s)). assert (Cc : cutoff (cutoff (- s)) = cutoff (- s)) by (unfold cutoff at 2 3; destruct (Rlt_dec (Rabs (- s)) tol) as [L|L]; [apply cutoff_zero|apply cutoff_id; lra]).
  split; [pose proof (cutoff_err (- s)) as E; replace (- cutoff (- s) - s) with (- (cutoff (- s) - - s)) by ring; rewrite Rabs_Ropp; exact E|]. split; [rewrite Rabs_Ropp, <- (Rabs_Ropp s); unfold cutoff; destruct (Rlt_dec _ _); [rewrite Rabs_R0; apply Rabs_pos|lra]|].
  intros a b. destruct axis; unfold ys, xs, psub_scal; rewrite coef_padd_scal, coef_mkpoly by apply mkpoly_canonical; cbn [fold_right]; rewrite cutoff_1; replace (smul RS (sofZ RS (-1)) s) with (- s) by (cbn; ring); rewrite Ropp_involutive; unfold delta0;
    destruct a as [|[|a]], b as [|[|b]]; cbn [Nat.eqb andb coef rmon malpha mx my mcoef]; rewrite ?Rplus_0_r, ?Rplus_0_l, ?cutoff_zero, ?cutoff_1, ?Rplus_0_l, ?Rplus_0_r, ?cutoff_zero, ?cutoff_1, ?Cc; reflexivity || ring.
Qed.
Lemma shift_small (axis : bool) s x y M : 1 <= M -> Rabs x <= M -> Rabs y <= M -> Rabs s <= M ->
  let q := if axis then ys s else xs s in small x y (2 * M) q /\ Rabs (value q x y - ((if axis then y else x) - s)) <= tol /\ deg_le 1 q.
Proof.
  intros HM Hx Hy Hs. cbv zeta. destruct (shift_coef axis s) as (s' & E1 & E2 & Ec). set (q := if axis then ys s else xs s) in *. assert (C : canonical q) by (unfold q; destruct axis; apply padd_scal_canonical).
  assert (V : value q x y = (if axis then y else x) - s') by (rewrite (value_coef_ext _ _ _ _ Ec); destruct axis; cbn [value rmon malpha mx my mcoef pow]; rring). rewrite V.
  assert (Sup : incl (map malpha q) [MI 0 0; if axis then MI 0 1 else MI 1 0]).
  { intros al I. apply in_map_iff in I. destruct I as (m & <- & I). pose proof (canonical_coef_In m q C I) as Q. pose proof (canonical_In m q C I) as Bd. pose proof tol_pos. rewrite Ec in Q. destruct (malpha m) as [a b]. cbn [mx my] in Q. cbn [coef rmon malpha mx my mcoef] in Q.
    destruct axis, a as [|[|a]], b as [|[|b]]; cbn [Nat.eqb andb coef rmon malpha mx my mcoef] in Q; try (left; reflexivity); try (right; left; reflexivity); exfalso; rewrite <- Q in Bd; replace (0 + (0 + 0)) with 0 in Bd by ring; rewrite ?Rplus_0_l, ?Rabs_R0 in Bd; lra. }
  assert (T : Rabs ((if axis then y else x) - s') <= 2 * M). { unfold Rminus. eapply Rle_trans; [apply Rabs_triang|]. rewrite Rabs_Ropp. destruct axis; lra. }
  split; [split; [|rewrite V; exact T]|split].
  - rewrite msize_wsum. eapply Rle_trans; [apply (wsum_incl x y _ _ (canonical_nodup q C) Sup)|]. destruct axis; cbn [wsum mx my pow]; lra.
  - replace ((if axis then y else x) - s' - ((if axis then y else x) - s)) with (- (s' - s)) by (destruct axis; ring). rewrite Rabs_Ropp. exact E1.
  - intros m I. assert (J : In (malpha m) (map malpha q)) by (apply in_map, I). apply Sup in J. destruct J as [<-|[<-|[]]]; [cbn; lia|]. destruct axis; cbn; lia.
Qed.
Lemma pow_diff u v B n : 1 <= B -> Rabs u <= B -> Rabs v <= B -> Rabs (u - v) <= tol -> Rabs (u ^ n - v ^ n) <= INR n * B ^ n * tol.
Proof.
  intros HB Hu Hv D. pose proof tol_pos as TP. induction n as [|n IH]; [cbn [pow INR]; replace (1 - 1) with 0 by ring; rewrite Rabs_R0; lra|]. cbn [pow]. rewrite S_INR. replace (u * u ^ n - v * v ^ n) with (u * (u ^ n - v ^ n) + (u - v) * v ^ n) by ring.
  eapply Rle_trans; [apply Rabs_triang|]. rewrite !Rabs_mult. pose proof (pow_abs_le v B n Hv) as Pv. pose proof (pow_lt B n ltac:(lra)) as Bp. assert (Rabs u * Rabs (u ^ n - v ^ n) <= B * (INR n * B ^ n * tol)) by (apply Rmult_le_compat; assumption || apply Rabs_pos).
  assert (Rabs (u - v) * Rabs (v ^ n) <= tol * B ^ n) by (apply Rmult_le_compat; assumption || apply Rabs_pos). assert (tol * B ^ n <= B * B ^ n * tol) by (set (b := B ^ n) in *; assert (b <= B * b) by nra; nra). lra.
Qed.
Definition shift_c (n m : nat) : R := comp_c n m + INR n + INR m.
Lemma shifted_near c s t n m x y M : 1 <= M -> Rabs x <= M -> Rabs y <= M -> Rabs s <= M -> Rabs t <= M ->
  Rabs (value (shifted c s t n m) x y - c * (x - s) ^ n * (y - t) ^ m) <= (1 + Rabs c * shift_c n m) * (2 * M) ^ (n + m) * tol.
Proof.
  intros HM Hx Hy Hs Ht. destruct (shift_small false s x y M HM Hx Hy Hs) as (S1 & E1 & _). destruct (shift_small true t x y M HM Hx Hy Ht) as (S2 & E2 & _). cbn iota in *. assert (HB : 1 <= 2 * M) by lra.
  unfold shifted. fold (cterm (xs s) (ys t) c n m). rewrite (value_coef_ext _ (cterm (xs s) (ys t) c n m)) by (intros a b; rewrite coef_piadd by (apply pscale_canonical, pmul_canonical); cbn [coef]; rewrite Rplus_0_l; apply canonical_cutoff, pscale_canonical, pmul_canonical).
  destruct (cterm_err x y (2 * M) HB (xs s) (ys t) c n m S1 S2) as [E _]. set (V := value (cterm _ _ _ _ _) x y) in *. set (v := value (xs s) x y) in *. set (w := value (ys t) x y) in *. set (B := 2 * M) in *.
  assert (Hv : Rabs v <= B) by apply S1. assert (Hw : Rabs w <= B) by apply S2. assert (Hxs : Rabs (x - s) <= B) by (unfold Rminus; eapply Rle_trans; [apply Rabs_triang|]; rewrite Rabs_Ropp; unfold B; lra). assert (Hyt : Rabs (y - t) <= B) by (unfold Rminus; eapply Rle_trans; [apply Rabs_triang|]; rewrite Rabs_Ropp; unfold B; lra).
  pose proof (pow_diff v (x - s) B n HB Hv Hxs E1) as P1. pose proof (pow_diff w (y - t) B m HB Hw Hyt E2) as P2. pose proof (pow_abs_le w B m Hw) as A1. pose proof (pow_abs_le (x - s) B n Hxs) as A2.
  replace (V - c * (x - s) ^ n * (y - t) ^ m) with ((V - c * (v ^ n * w ^ m)) + c * ((v ^ n - (x - s) ^ n) * w ^ m + (x - s) ^ n * (w ^ m - (y - t) ^ m))) by ring. eapply Rle_trans; [apply Rabs_triang|]. rewrite (Rabs_mult c).
  assert (X : Rabs ((v ^ n - (x - s) ^ n) * w ^ m + (x - s) ^ n * (w ^ m - (y - t) ^ m)) <= INR n * B ^ n * tol * B ^ m + B ^ n * (INR m * B ^ m * tol)) by (eapply Rle_trans; [apply Rabs_triang|]; rewrite !Rabs_mult; apply Rplus_le_compat; apply Rmult_le_compat; assumption || apply Rabs_pos).
  apply (Rmult_le_compat_l (Rabs c) _ _ (Rabs_pos c)) in X. rewrite pow_add in E |- *. unfold shift_c. set (K := comp_c n m) in *. lra.
Qed.
Lemma shifted_deg' c s t n m : deg_le (n + m) (shifted c s t n m).
Proof.
  set (M := 1 + Rabs s + Rabs t). pose proof (Rabs_pos s). pose proof (Rabs_pos t). destruct (shift_small false s 0 0 M ltac:(unfold M; lra) ltac:(rewrite Rabs_R0; unfold M; lra) ltac:(rewrite Rabs_R0; unfold M; lra) ltac:(unfold M; lra)) as (_ & _ & D1). destruct (shift_small true t 0 0 M ltac:(unfold M; lra) ltac:(rewrite Rabs_R0; unfold M; lra) ltac:(rewrite Rabs_R0; unfold M; lra) ltac:(unfold M; lra)) as (_ & _ & D2).
  unfold shifted. rewrite piadd_consolidate by (apply pscale_canonical, pmul_canonical). cbn [app]. apply deg_consolidate, deg_pscale. pose proof (deg_ppow 1 _ n D1) as Q1. pose proof (deg_ppow 1 _ m D2) as Q2. rewrite Nat.mul_1_r in Q1, Q2. apply deg_pmul; assumption.
Qed.

(** The monomial of a bubble, also when its coefficient is below the cutoff *)
Lemma centered_canonical cen area k : canonical (centered_monomial cen area k).
Proof. apply pcompose_canonical. Qed.
Lemma centered_cases cen area k (cf : R) : cf = -1 / area ^ 2 ->
  centered_monomial cen area k = shifted cf (fst cen) (snd cen) (mx (mi_of_idx k)) (my (mi_of_idx k)) \/ (Rabs cf <= tol /\ centered_monomial cen area k = []).
Proof.
  intros E. unfold centered_monomial. rewrite <- E. destruct (Rle_lt_dec tol (Rabs cf)) as [L|L].
  - left. rewrite single_idx by (right; exact L). destruct (Req_EM_T cf 0) as [Z|_]; [exfalso; pose proof tol_pos; rewrite Z, Rabs_R0 in L; lra|]. reflexivity.
  - right. split; [lra|]. assert (Q : add_monomial_with_idx RS [] cf k = []); [|rewrite Q; reflexivity].
    apply canonical_ext; [apply consolidate_canonical|constructor|]. intros a b. rewrite coef_add_with_idx by constructor. cbn [coef]. rewrite (cutoff_small cf L). destruct (_ && _)%bool; rewrite Rplus_0_l; apply cutoff_zero.
Qed.
Lemma centered_near cen area k a b x y M : mi_of_idx k = MI a b -> 1 <= M -> Rabs x <= M -> Rabs y <= M -> Rabs (fst cen) <= M -> Rabs (snd cen) <= M ->
  deg_le (a + b) (centered_monomial cen area k) /\
  Rabs (peval RS (centered_monomial cen area k) x y - -1 / area ^ 2 * (x - fst cen) ^ a * (y - snd cen) ^ b) <= (1 + Rabs (-1 / area ^ 2) * shift_c a b) * (2 * M) ^ (a + b) * tol.
Proof.
  intros Ek HM Hx Hy Hs Ht. set (cf := -1 / area ^ 2). pose proof tol_pos as TP. destruct (centered_cases cen area k cf eq_refl) as [->|[L ->]].
  - rewrite Ek. cbn [mx my]. split; [apply shifted_deg'|]. rewrite peval_value. apply shifted_near; assumption.
  - split; [intros m []|]. rewrite peval_value. cbn [value]. replace (0 - cf * (x - fst cen) ^ a * (y - snd cen) ^ b) with (- (cf * ((x - fst cen) ^ a * (y - snd cen) ^ b))) by ring. rewrite Rabs_Ropp, !Rabs_mult.
    assert (H1 : Rabs (x - fst cen) <= 2 * M) by (unfold Rminus; eapply Rle_trans; [apply Rabs_triang|]; rewrite Rabs_Ropp; lra). assert (H2 : Rabs (y - snd cen) <= 2 * M) by (unfold Rminus; eapply Rle_trans; [apply Rabs_triang|]; rewrite Rabs_Ropp; lra).
    pose proof (pow_abs_le _ _ a H1) as P1. pose proof (pow_abs_le _ _ b H2) as P2. rewrite pow_add. assert (Q : Rabs ((x - fst cen) ^ a) * Rabs ((y - snd cen) ^ b) <= (2 * M) ^ a * (2 * M) ^ b) by (apply Rmult_le_compat; assumption || apply Rabs_pos).
    assert (Q2 : Rabs cf * (Rabs ((x - fst cen) ^ a) * Rabs ((y - snd cen) ^ b)) <= tol * ((2 * M) ^ a * (2 * M) ^ b)) by (apply Rmult_le_compat; try assumption; [apply Rabs_pos|apply Rmult_le_pos; apply Rabs_pos]).
    assert (Sp : 0 <= shift_c a b) by (unfold shift_c; pose proof (comp_c_pos a b); pose proof (pos_INR a); pose proof (pos_INR b); lra). assert (W : 0 <= (2 * M) ^ a * (2 * M) ^ b) by (apply Rmult_le_pos; apply pow_le; lra). set (w := (2 * M) ^ a * (2 * M) ^ b) in *.
    assert (0 <= Rabs cf * shift_c a b * w * tol) by (apply Rmult_le_pos; [apply Rmult_le_pos; [apply Rmult_le_pos; [apply Rabs_pos|exact Sp]|exact W]|lra]). lra.
Qed.
