(** The Fourier coefficients of ln(4 sin^2(t/2)), as improper integrals. *)
From Coq Require Import List ZArith Reals Lia Lra.
From Coquelicot Require Import Coquelicot.
From Verif Require Import QuadSpec QuadProofs.
Open Scope R_scope.

Definition log_kernel (t : R) : R := ln (4 * (sin (t / 2) * sin (t / 2))).

(** Antiderivative of log_kernel t * cos (k t) *)
Definition logF (k : nat) (t : R) : R :=
  log_kernel t * sin (INR k * t) / INR k - (t + sum_n (fun j => 2 * sin (INR (S j) * t) / INR (S j)) (k - 1) + sin (INR k * t) / INR k) / INR k.

Lemma dirichlet k t : cos (t / 2) * sin (INR (S k) * t) =
  sin (t / 2) * (1 + sum_n (fun j => 2 * cos (INR (S j) * t)) k + cos (INR (S k) * t)).
Proof.
  assert (D : forall a b, cos a * sin b = sin a * cos b + sin (b - a)) by (intros a b; rewrite sin_minus; ring).
  assert (S2 : forall j, sin (t / 2) * (2 * cos (INR (S j) * t)) = sin (INR (S j) * t + t / 2) - sin (INR (S j) * t - t / 2)) by (intros j; rewrite sin_plus, sin_minus; ring).
  assert (T : sin (t / 2) * (1 + sum_n (fun j => 2 * cos (INR (S j) * t)) k) = sin (INR k * t + t / 2)).
  { induction k as [|k IH].
    - cbn [sum_n INR]. rewrite Rmult_0_l, Rplus_0_l. ring.
    - cbn [sum_n]. replace (sin (t / 2) * (1 + (sum_n (fun j => 2 * cos (INR (S j) * t)) k + 2 * cos (INR (S k) * t)))) with
        (sin (t / 2) * (1 + sum_n (fun j => 2 * cos (INR (S j) * t)) k) + sin (t / 2) * (2 * cos (INR (S k) * t))) by ring.
      rewrite IH, S2. replace (INR (S k) * t - t / 2) with (INR k * t + t / 2) by (rewrite S_INR; field). ring. }
  rewrite Rmult_plus_distr_l, T, D. replace (INR (S k) * t - t / 2) with (INR k * t + t / 2) by (rewrite S_INR; field). ring.
Qed.

Lemma sum_derive (f f' : nat -> R -> R) t m : (forall j, is_derive (f j) t (f' j t)) -> is_derive (fun t => sum_n (fun j => f j t) m) t (sum_n (fun j => f' j t) m).
Proof.
  intros H. induction m as [|m IH]; cbn [sum_n].
  - apply (is_derive_const (V := R_NormedModule)).
  - apply (is_derive_plus (V := R_NormedModule)); [exact IH|apply H].
Qed.

Lemma logF_derive k t : (0 < k)%nat -> 0 < t < 2 * PI -> is_derive (logF k) t (log_kernel t * cos (INR k * t)).
Proof.
  intros Hk Ht. assert (K : INR k <> 0) by (apply not_0_INR; lia).
  assert (S0 : 0 < sin (t / 2)) by (apply sin_gt_0; lra).
  assert (A : is_derive (fun t => log_kernel t * sin (INR k * t) / INR k) t (cos (t / 2) / sin (t / 2) * sin (INR k * t) / INR k + log_kernel t * cos (INR k * t))).
  { unfold log_kernel. auto_derive; [|change (t * / 2) with (t / 2); field; split; lra]. change (0 < 4 * (sin (t / 2) * sin (t / 2))). nra. }
  assert (B : is_derive (fun t => sum_n (fun j => 2 * sin (INR (S j) * t) / INR (S j)) (k - 1)) t (sum_n (fun j => 2 * cos (INR (S j) * t)) (k - 1))).
  { apply (sum_derive (fun j t => 2 * sin (INR (S j) * t) / INR (S j)) (fun j t => 2 * cos (INR (S j) * t))). intros j.
    assert (INR (S j) <> 0) by (apply not_0_INR; lia). generalize dependent (INR (S j)). intros J HJ. auto_derive; [trivial|field; exact HJ]. }
  assert (C : is_derive (fun t => sin (INR k * t) / INR k) t (cos (INR k * t))) by (auto_derive; [trivial|field; exact K]).
  assert (D0 : is_derive (fun t : R => t) t 1) by apply (is_derive_id (K := R_AbsRing)).
  pose proof (is_derive_plus (V := R_NormedModule) _ _ _ _ _ (is_derive_plus (V := R_NormedModule) _ _ _ _ _ D0 B) C) as E.
  pose proof (is_derive_scal _ _ (/ INR k) _ E) as E'.
  pose proof (is_derive_minus (V := R_NormedModule) _ _ _ _ _ A E') as F.
  unfold logF. eapply is_derive_ext; [|match type of F with is_derive _ _ ?v => replace (log_kernel t * cos (INR k * t)) with v; [exact F|] end].
  - intros x. unfold minus, plus, opp; cbn -[INR sum_n]. field. exact K.
  - unfold minus, plus, opp; cbn -[INR sum_n]. destruct k as [|k]; [lia|]. replace (S k - 1)%nat with k by lia.
    pose proof (dirichlet k t) as Q. set (s := sum_n _ k) in *. set (N := INR (S k)) in *.
    replace (cos (t / 2) / sin (t / 2) * sin (N * t) / N) with ((cos (t / 2) * sin (N * t)) / (sin (t / 2) * N)) by (field; split; lra).
    rewrite Q. field. split; lra.
Qed.

(** x ln(x^2) tends to 0 *)
Lemma ln_bound y : 0 < y -> ln y < 2 * sqrt y.
Proof.
  intros Hy. assert (S0 : 0 < sqrt y) by (apply sqrt_lt_R0; exact Hy).
  replace (ln y) with (2 * ln (sqrt y)).
  - pose proof (exp_ineq1 (ln (sqrt y))). destruct (Req_dec (ln (sqrt y)) 0) as [E|E]; [lra|]. specialize (H E). rewrite exp_ln in H by exact S0. lra.
  - rewrite <- (sqrt_sqrt y) at 2 by lra. rewrite ln_mult by exact S0. ring.
Qed.

Lemma sin_lower x : 0 <= x <= 1 -> x / 2 <= sin x.
Proof.
  intros Hx. destruct (Req_dec x 0) as [->|N]; [rewrite sin_0; lra|]. pose proof (sin_bound x 0 ltac:(lra)) as H.
  assert (P4 : x <= PI) by (pose proof PI2_3_2; lra). specialize (H P4). destruct H as [H _]. unfold sin_approx, sin_term in H. cbn in H. 
  replace (1 * x * / 1 + -1 * 1 * (x * (x * (x * 1)) / (1 + 1 + 1 + 1 + 1 + 1))) with (x - x * x * x / 6) in H by field.
  assert (x * x * x <= x) by nra. lra.
Qed.

Lemma log_small k t : 0 < t <= 1 -> Rabs (log_kernel t * sin (INR k * t)) <= 8 * INR k * sqrt t.
Proof.
  intros Ht. assert (SS : sqrt t * sqrt t = t) by (apply sqrt_sqrt; lra). assert (ST : 0 < sqrt t) by (apply sqrt_lt_R0; lra).
  assert (T1 : sqrt t <= 1) by nra.
  assert (HK : 0 <= INR k) by apply pos_INR.
  assert (B1 : Rabs (sin (INR k * t)) <= INR k * t).
  { assert (KT : 0 <= INR k * t) by nra. destruct (Rle_lt_dec (INR k * t) 1) as [L|L].
    - rewrite Rabs_right; [destruct (Req_dec (INR k * t) 0) as [->|]; [rewrite sin_0; lra|left; apply sin_lt_x; lra]|].
      apply Rle_ge, sin_ge_0; [exact KT|]. pose proof PI2_3_2. lra.
    - apply Rle_trans with 1; [|lra]. apply Rabs_le. pose proof (SIN_bound (INR k * t)). lra. }
  pose proof (sin_lower (t / 2) ltac:(lra)) as L. pose proof (sin_lt_x (t / 2) ltac:(lra)) as U.
  set (u := sin (t / 2)) in *. assert (B2 : Rabs (log_kernel t) <= 8 / sqrt t).
  { unfold log_kernel. fold u. assert (P : 0 < 4 * (u * u)) by nra. assert (P1 : 4 * (u * u) < 1) by nra.
    rewrite Rabs_left by (rewrite <- ln_1; apply ln_increasing; assumption).
    assert (Q : t * t / 4 <= 4 * (u * u)) by nra.
    assert (- ln (4 * (u * u)) <= - ln (t * t / 4)).
    { apply Ropp_le_contravar. destruct Q as [Q|Q]; [left; apply ln_increasing; [nra|exact Q]|right; rewrite Q; reflexivity]. }
    assert (- ln (t * t / 4) = 2 * ln (2 / t)).
    { rewrite <- ln_Rinv by nra. replace (/ (t * t / 4)) with (2 / t * (2 / t)) by (field; lra). rewrite ln_mult by (apply Rdiv_lt_0_compat; lra). ring. }
    pose proof (ln_bound (2 / t) ltac:(apply Rdiv_lt_0_compat; lra)) as Lb.
    assert (sqrt (2 / t) <= 2 / sqrt t).
    { apply Rsqr_incr_0; [|apply sqrt_pos|apply Rlt_le, Rdiv_lt_0_compat; lra]. unfold Rsqr. rewrite sqrt_sqrt by (apply Rlt_le, Rdiv_lt_0_compat; lra).
      replace (2 / sqrt t * (2 / sqrt t)) with (4 / (sqrt t * sqrt t)) by (field; lra). rewrite SS. apply Rmult_le_compat_r; [apply Rlt_le, Rinv_0_lt_compat; lra|lra]. }
    replace (8 / sqrt t) with (4 * (2 / sqrt t)) by (field; lra). lra. }
  rewrite Rabs_mult. apply Rle_trans with (8 / sqrt t * (INR k * t)).
  - apply Rmult_le_compat; try apply Rabs_pos; assumption.
  - right. rewrite <- SS at 2. field. lra.
Qed.

Lemma log_kernel_sym t : log_kernel (2 * PI - t) = log_kernel t.
Proof. unfold log_kernel. replace ((2 * PI - t) / 2) with (PI - t / 2) by field. rewrite sin_minus, sin_PI, cos_PI. replace (0 * cos (t / 2) - -1 * sin (t / 2)) with (sin (t / 2)) by ring. reflexivity. Qed.
Lemma sin_k_sym k t : sin (INR k * (2 * PI - t)) = - sin (INR k * t).
Proof. replace (INR k * (2 * PI - t)) with (- (INR k * t) + 2 * INR k * PI) by ring. rewrite sin_period, sin_neg. reflexivity. Qed.

Lemma logF_sym k t : (0 < k)%nat -> logF k (2 * PI - t) = - logF k t - 2 * PI / INR k.
Proof.
  intros Hk. assert (K : INR k <> 0) by (apply not_0_INR; lia). unfold logF. rewrite log_kernel_sym, sin_k_sym.
  rewrite (sum_n_ext _ (fun j => -1 * (2 * sin (INR (S j) * t) / INR (S j)))).
  - rewrite sum_n_scal. field. exact K.
  - intros j _. rewrite sin_k_sym. assert (INR (S j) <> 0) by (apply not_0_INR; lia). field. assumption.
Qed.

Lemma sq_lim0 : filterlim (fun t => sqrt t) (at_right 0) (locally 0).
Proof.
  intros P [e He]. assert (0 < e * e) by (destruct e; cbn; nra). exists (mkposreal _ H). intros y Hy Py. apply He.
  unfold ball in *; cbn in *; unfold AbsRing_ball, abs, minus, plus, opp in *; cbn in *. rewrite Ropp_0, Rplus_0_r in *.
  rewrite Rabs_right in Hy by lra. rewrite Rabs_right by (apply Rle_ge, sqrt_pos). rewrite <- (sqrt_square e) by (destruct e; cbn; lra).
  apply sqrt_lt_1_alt. lra.
Qed.

Lemma sin_lim0 a : filterlim (fun t => sin (a * t)) (at_right 0) (locally 0).
Proof.
  apply (filterlim_filter_le_1 (F := locally 0)); [intros P [e H]; exists e; intros y Hy _; apply H, Hy|].
  replace (locally 0) with (locally (sin (a * 0))) at 2 by (rewrite Rmult_0_r, sin_0; reflexivity).
  apply (ex_derive_continuous (fun t => sin (a * t))). auto_derive. trivial.
Qed.

Lemma log_lim0 k : filterlim (fun t => log_kernel t * sin (INR k * t)) (at_right 0) (locally 0).
Proof.
  assert (Q : filterlim (fun t => 8 * INR k * sqrt t) (at_right 0) (locally 0)).
  { replace (locally 0) with (locally (8 * INR k * 0)) by (rewrite Rmult_0_r; reflexivity).
    apply (filterlim_comp _ _ _ sqrt (fun y => 8 * INR k * y) _ _ _ sq_lim0). apply (filterlim_scal_r (V := R_NormedModule)). }
  intros P [e He]. destruct (Q (ball 0 e)) as [d Hd]; [exists e; auto|].
  exists (mkposreal (Rmin d 1) (Rmin_stable_in_posreal d (mkposreal 1 Rlt_0_1))). intros y Hy Py. apply He.
  assert (Y : Rabs y < Rmin d 1).
  { unfold ball in Hy; cbn in Hy; unfold AbsRing_ball, abs, minus, plus, opp in Hy; cbn in Hy. rewrite Ropp_0, Rplus_0_r in Hy. exact Hy. }
  rewrite Rabs_right in Y by lra. pose proof (Rmin_l d 1). pose proof (Rmin_r d 1).
  assert (By : ball 0 d y).
  { unfold ball; cbn; unfold AbsRing_ball, abs, minus, plus, opp; cbn. rewrite Ropp_0, Rplus_0_r, Rabs_right by lra. lra. }
  specialize (Hd y By Py). unfold ball in *; cbn in *; unfold AbsRing_ball, abs, minus, plus, opp in *; cbn in *. rewrite Ropp_0, Rplus_0_r in *.
  eapply Rle_lt_trans; [apply log_small; lra|]. eapply Rle_lt_trans; [apply Rle_abs|exact Hd].
Qed.

Lemma lim0_scal (f : R -> R) c : filterlim f (at_right 0) (locally 0) -> filterlim (fun t => c * f t) (at_right 0) (locally 0).
Proof.
  intros H. replace (locally 0) with (locally (c * 0)) by (rewrite Rmult_0_r; reflexivity).
  eapply filterlim_comp; [exact H|]. apply (filterlim_scal_r (V := R_NormedModule)).
Qed.
Lemma lim0_plus (f g : R -> R) : filterlim f (at_right 0) (locally 0) -> filterlim g (at_right 0) (locally 0) -> filterlim (fun t => f t + g t) (at_right 0) (locally 0).
Proof.
  intros Hf Hg. replace (locally 0) with (locally (0 + 0)) by (rewrite Rplus_0_r; reflexivity).
  eapply (filterlim_comp_2 (F := at_right 0)); [exact Hf|exact Hg|]. apply (filterlim_plus (V := R_NormedModule) 0 0).
Qed.
Lemma sum_lim0 (f : nat -> R -> R) m : (forall j, filterlim (f j) (at_right 0) (locally 0)) -> filterlim (fun t => sum_n (fun j => f j t) m) (at_right 0) (locally 0).
Proof.
  intros H. induction m as [|m IH]; cbn [sum_n].
  - apply filterlim_const.
  - apply lim0_plus; [exact IH|apply H].
Qed.

Lemma id_lim0 : filterlim (fun t : R => t) (at_right 0) (locally 0).
Proof. intros P [e H]. exists e. intros y Hy _. apply H, Hy. Qed.

Lemma logF_lim0 k : (0 < k)%nat -> filterlim (logF k) (at_right 0) (locally 0).
Proof.
  intros Hk. assert (K : INR k <> 0) by (apply not_0_INR; lia).
  apply (filterlim_ext (fun t => / INR k * (log_kernel t * sin (INR k * t)) + - / INR k * (t + sum_n (fun j => 2 / INR (S j) * sin (INR (S j) * t)) (k - 1) + / INR k * sin (INR k * t)))).
  - intros t. unfold logF. rewrite (sum_n_ext (fun j => 2 * sin (INR (S j) * t) / INR (S j)) (fun j => 2 / INR (S j) * sin (INR (S j) * t))); [field; exact K|].
    intros j _. assert (INR (S j) <> 0) by (apply not_0_INR; lia). field. assumption.
  - apply lim0_plus; apply lim0_scal; [apply log_lim0|]. apply lim0_plus; [apply lim0_plus; [apply id_lim0|]|apply lim0_scal, sin_lim0].
    apply sum_lim0. intros j. apply lim0_scal, sin_lim0.
Qed.

Lemma logF_lim2PI k : (0 < k)%nat -> filterlim (logF k) (at_left (2 * PI)) (locally (- (2 * PI / INR k))).
Proof.
  intros Hk P [e He]. destruct (logF_lim0 k Hk (ball 0 e)) as [d Hd]; [exists e; auto|].
  exists d. intros y Hy Py. apply He. 
  assert (B : ball 0 d (2 * PI - y)).
  { unfold ball in *; cbn in *; unfold AbsRing_ball, abs, minus, plus, opp in *; cbn in *. rewrite Ropp_0, Rplus_0_r. rewrite Rabs_minus_sym. exact Hy. }
  specialize (Hd _ B ltac:(lra)). unfold ball in *; cbn in *; unfold AbsRing_ball, abs, minus, plus, opp in *; cbn in *.
  rewrite Ropp_0, Rplus_0_r in Hd. replace y with (2 * PI - (2 * PI - y)) by ring. rewrite logF_sym by exact Hk.
  replace (- logF k (2 * PI - y) - 2 * PI / INR k + - - (2 * PI / INR k)) with (- logF k (2 * PI - y)) by ring. rewrite Rabs_Ropp. exact Hd.
Qed.

Lemma log_coef k : (0 < k)%nat -> is_RInt_gen (fun t => log_kernel t * cos (INR k * t)) (at_right 0) (at_left (2 * PI)) (- (2 * PI / INR k)).
Proof.
  intros Hk. pose proof PI_RGT_0 as HP.
  assert (Dv : forall x, 0 < x < 2 * PI -> Derive (logF k) x = log_kernel x * cos (INR k * x)) by (intros x Hx; apply is_derive_unique, logF_derive; assumption).
  assert (FP : forall Q : R * R -> Prop, (forall a b, 0 < a -> a < 2 * PI -> 0 < b -> b < 2 * PI -> Q (a, b)) -> filter_prod (at_right 0) (at_left (2 * PI)) Q).
  { intros Q HQ. apply (Filter_prod _ _ _ (fun a => 0 < a < 2 * PI) (fun b => 0 < b < 2 * PI)).
    - assert (P2 : 0 < 2 * PI) by lra. exists (mkposreal _ P2). intros y Hy Py. unfold ball in Hy; cbn in Hy; unfold AbsRing_ball, abs, minus, plus, opp in Hy; cbn in Hy.
      rewrite Ropp_0, Rplus_0_r, Rabs_right in Hy by lra. lra.
    - assert (P2 : 0 < 2 * PI) by lra. exists (mkposreal _ P2). intros y Hy Py. unfold ball in Hy; cbn in Hy; unfold AbsRing_ball, abs, minus, plus, opp in Hy; cbn in Hy.
      rewrite Rabs_left in Hy by lra. lra.
    - intros a b Ha Hb. apply HQ; lra. }
  assert (MM : forall a b x, 0 < a -> a < 2 * PI -> 0 < b -> b < 2 * PI -> Rmin a b <= x <= Rmax a b -> 0 < x < 2 * PI).
  { intros a b x A1 A2 B1 B2 [L U]. split.
    - eapply Rlt_le_trans; [|exact L]. apply Rmin_glb_lt; assumption.
    - eapply Rle_lt_trans; [exact U|]. apply Rmax_lub_lt; assumption. }
  apply (is_RInt_gen_ext (V := R_NormedModule) (Derive (logF k))).
  - apply FP. intros a b A1 A2 B1 B2 x Hx. cbn [fst snd] in Hx. apply Dv. apply (MM a b); lra.
  - replace (- (2 * PI / INR k)) with (- (2 * PI / INR k) - 0) by ring. apply is_RInt_gen_Derive.
    + apply FP. intros a b A1 A2 B1 B2 x Hx. cbn [fst snd] in Hx. eexists. apply logF_derive; [exact Hk|]. apply (MM a b); assumption.
    + apply FP. intros a b A1 A2 B1 B2 x Hx. cbn [fst snd] in Hx. assert (Hx' : 0 < x < 2 * PI) by (apply (MM a b); assumption).
      apply (continuous_ext_loc _ (fun t => log_kernel t * cos (INR k * t))).
      * assert (PM : 0 < Rmin x (2 * PI - x)) by (apply Rmin_glb_lt; lra). exists (mkposreal _ PM). intros y Hy.
        unfold ball in Hy; cbn in Hy; unfold AbsRing_ball, abs, minus, plus, opp in Hy; cbn in Hy. symmetry. apply Dv.
        pose proof (Rmin_l x (2 * PI - x)). pose proof (Rmin_r x (2 * PI - x)). apply Rabs_def2 in Hy. lra.
      * apply (ex_derive_continuous (fun t => log_kernel t * cos (INR k * t))). unfold log_kernel. auto_derive.
        assert (0 < sin (x / 2)) by (apply sin_gt_0; lra). change (0 < 4 * (sin (x / 2) * sin (x / 2))). nra.
    + apply logF_lim0, Hk.
    + apply logF_lim2PI, Hk.
Qed.
