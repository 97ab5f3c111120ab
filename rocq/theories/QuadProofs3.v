(** The mean of ln(4 sin^2(t/2)) over a period vanishes (the k = 0 coefficient), as an improper integral. *)
From Coq Require Import List ZArith Reals Lia Lra.
From Coquelicot Require Import Coquelicot.
From Verif Require Import QuadSpec QuadProofs QuadProofs2.
Open Scope R_scope.

Lemma sin_half_pos t : 0 < t < 2 * PI -> 0 < sin (t / 2).
Proof. intros H. apply sin_gt_0; lra. Qed.

Lemma log_kernel_cont t : 0 < t < 2 * PI -> continuous log_kernel t.
Proof.
  intros H. pose proof (sin_half_pos t H) as S0. apply (ex_derive_continuous log_kernel). unfold log_kernel. auto_derive.
  change (0 < 4 * (sin (t / 2) * sin (t / 2))). nra.
Qed.

Lemma mm_in a b x : 0 < a < 2 * PI -> 0 < b < 2 * PI -> Rmin a b <= x <= Rmax a b -> 0 < x < 2 * PI.
Proof.
  intros [A1 A2] [B1 B2] [L U]. split.
  - eapply Rlt_le_trans; [|exact L]. apply Rmin_glb_lt; assumption.
  - eapply Rle_lt_trans; [exact U|]. apply Rmax_lub_lt; assumption.
Qed.

Lemma log_int a b : 0 < a < 2 * PI -> 0 < b < 2 * PI -> ex_RInt log_kernel a b.
Proof. intros A B. apply (ex_RInt_continuous (V := R_CompleteNormedModule)). intros z Z. apply log_kernel_cont, (mm_in a b); assumption. Qed.

(** f(2t) = f(t) + f(pi - t) *)
Lemma log_dup t : 0 < t < PI -> log_kernel (2 * t) = log_kernel t + log_kernel (PI - t).
Proof.
  intros H. pose proof PI_RGT_0 as HP. unfold log_kernel.
  assert (S1 : 0 < sin (t / 2)) by (apply sin_gt_0; lra).
  assert (C1 : 0 < cos (t / 2)) by (apply cos_gt_0; lra).
  replace ((PI - t) / 2) with (PI / 2 - t / 2) by field. rewrite sin_shift.
  replace (2 * t / 2) with (2 * (t / 2)) by field. rewrite sin_2a.
  rewrite <- ln_mult by (repeat apply Rmult_lt_0_compat; lra). f_equal. ring.
Qed.

Definition tailA (e : R) : R := RInt log_kernel e PI.

Lemma tail_dup e : 0 < e -> 2 * e < PI -> tailA (2 * e) = 2 * (tailA e - RInt log_kernel (PI - e) PI).
Proof.
  intros E0 E1. pose proof PI_RGT_0 as HP. unfold tailA.
  assert (S1 : RInt (fun t => 2 * log_kernel (2 * t + 0)) e (PI / 2) = RInt log_kernel (2 * e + 0) (2 * (PI / 2) + 0)).
  { apply (RInt_comp_lin (V := R_CompleteNormedModule)). apply log_int; lra. }
  replace (2 * e + 0) with (2 * e) in S1 by ring. replace (2 * (PI / 2) + 0) with PI in S1 by field. rewrite <- S1.
  assert (S2 : RInt (fun t => -1 * log_kernel (-1 * t + PI)) e (PI / 2) = RInt log_kernel (-1 * e + PI) (-1 * (PI / 2) + PI)).
  { apply (RInt_comp_lin (V := R_CompleteNormedModule)). apply log_int; lra. }
  replace (-1 * e + PI) with (PI - e) in S2 by ring. replace (-1 * (PI / 2) + PI) with (PI / 2) in S2 by field.
  assert (I2 : ex_RInt (fun t => -1 * log_kernel (-1 * t + PI)) e (PI / 2)).
  { apply (ex_RInt_comp_lin (V := R_NormedModule)). apply log_int; lra. }
  assert (C1 : RInt log_kernel e PI = RInt log_kernel e (PI / 2) + (RInt log_kernel (PI / 2) (PI - e) + RInt log_kernel (PI - e) PI)).
  { rewrite <- (RInt_Chasles log_kernel e (PI / 2) PI) by (apply log_int; lra).
    rewrite <- (RInt_Chasles log_kernel (PI / 2) (PI - e) PI) by (apply log_int; lra). reflexivity. }
  assert (O1 : RInt log_kernel (PI - e) (PI / 2) = - RInt log_kernel (PI / 2) (PI - e)).
  { rewrite <- (opp_RInt_swap (V := R_CompleteNormedModule)) by (apply log_int; lra). reflexivity. }
  assert (SP : RInt (fun t => 2 * log_kernel (2 * t + 0)) e (PI / 2) = 2 * RInt log_kernel e (PI / 2) - 2 * RInt (fun t => -1 * log_kernel (-1 * t + PI)) e (PI / 2)).
  { apply is_RInt_unique. 
    assert (J1 : is_RInt log_kernel e (PI / 2) (RInt log_kernel e (PI / 2))) by (apply (RInt_correct (V := R_CompleteNormedModule)), log_int; lra).
    pose proof (RInt_correct (V := R_CompleteNormedModule) _ _ _ I2) as J2.
    apply (is_RInt_ext (V := R_NormedModule) (fun t => minus (scal 2 (log_kernel t)) (scal 2 (-1 * log_kernel (-1 * t + PI))))).
    - intros x Hx. rewrite Rmin_left, Rmax_right in Hx by lra. replace (2 * x + 0) with (2 * x) by ring. rewrite log_dup by lra.
      replace (-1 * x + PI) with (PI - x) by ring. unfold minus, plus, opp, scal; cbn; unfold mult; cbn. ring.
    - apply (is_RInt_minus (V := R_NormedModule)); apply (is_RInt_scal (V := R_NormedModule)); assumption. }
  rewrite SP, S2, C1, O1. ring.
Qed.

Lemma log_le_ln4 t : 0 < t < 2 * PI -> log_kernel t <= 2.
Proof.
  intros H. pose proof (sin_half_pos t H) as S0. unfold log_kernel. pose proof (SIN_bound (t / 2)) as [_ U].
  apply Rle_trans with (ln (exp 2)); [|rewrite ln_exp; lra].
  assert (E2 : 4 < exp 2). { replace 2 with (1 + 1) by ring. rewrite exp_plus. pose proof (exp_ineq1 1 ltac:(lra)). nra. }
  left. apply ln_increasing; nra.
Qed.

Lemma sin_quarter t : 1 / 2 <= t <= PI -> 1 / 8 <= sin (t / 2).
Proof.
  intros H. pose proof PI2_3_2. apply Rle_trans with (sin (1 / 4)); [pose proof (sin_lower (1 / 4) ltac:(lra)); lra|].
  destruct (Req_dec t (1 / 2)) as [->|N]; [right; f_equal; field|]. left. apply sin_increasing_1; lra.
Qed.

Lemma log_ge t : 1 / 2 <= t <= PI -> -8 <= log_kernel t.
Proof.
  intros H. pose proof (sin_quarter t H) as Q. unfold log_kernel.
  assert (L16 : ln 16 < 8). { pose proof (ln_bound 16 ltac:(lra)) as L. replace (sqrt 16) with 4 in L; [lra|]. replace 16 with (4 * 4) by ring. rewrite sqrt_square; lra. }
  assert (X : ln (/ 16) <= ln (4 * (sin (t / 2) * sin (t / 2)))). 
  { assert (Y : / 16 <= 4 * (sin (t / 2) * sin (t / 2))) by nra. destruct Y as [Y|Y]; [left; apply ln_increasing; lra|rewrite <- Y; lra]. }
  rewrite ln_Rinv in X by lra. lra.
Qed.

Lemma log_nonneg t : 2 <= t <= PI -> 0 <= log_kernel t.
Proof.
  intros H. pose proof PI2_3_2 as P3. unfold log_kernel. 
  assert (Q : 1 / 2 <= sin (t / 2)).
  { apply Rle_trans with (sin 1); [pose proof (sin_lower 1 ltac:(lra)); lra|].
    destruct (Req_dec t 2) as [->|N]; [right; f_equal; field|]. left. apply sin_increasing_1; lra. }
  rewrite <- ln_1. assert (Y : 1 <= 4 * (sin (t / 2) * sin (t / 2))) by nra. destruct Y as [Y|Y]; [left; apply ln_increasing; lra|rewrite <- Y; lra].
Qed.

Lemma end_bound e : 0 < e <= 1 -> 0 <= RInt log_kernel (PI - e) PI <= 2 * e.
Proof.
  intros E. pose proof PI2_3_2 as P3. assert (I : ex_RInt log_kernel (PI - e) PI) by (apply log_int; lra). split.
  - apply RInt_ge_0; [lra|exact I|]. intros x Hx. apply log_nonneg. lra.
  - replace (2 * e) with (RInt (fun _ => 2) (PI - e) PI). 
    + apply RInt_le; [lra|exact I|apply ex_RInt_const|]. intros x Hx. apply log_le_ln4. lra.
    + rewrite RInt_const. unfold scal; cbn; unfold mult; cbn. ring.
Qed.

Lemma tail_base e : 1 / 2 <= e <= 1 -> Rabs (tailA e) <= 32.
Proof.
  intros E. pose proof PI2_3_2 as P3. pose proof PI_4 as P4. unfold tailA.
  apply Rle_trans with ((PI - e) * 8); [|lra].
  apply (abs_RInt_le_const log_kernel e PI 8); [lra|apply log_int; lra|].
  intros t Ht. apply Rabs_le. pose proof (log_ge t ltac:(lra)). pose proof (log_le_ln4 t ltac:(lra)). lra.
Qed.

Lemma tail_small n : forall e, 0 < e <= 1 -> 1 / 2 <= 2 ^ n * e -> Rabs (tailA e) <= 64 * sqrt e.
Proof.
  induction n as [|n IH]; intros e E B.
  - cbn in B. rewrite Rmult_1_l in B. apply Rle_trans with 32; [apply tail_base; lra|].
    assert (SS : sqrt e * sqrt e = e) by (apply sqrt_sqrt; lra). pose proof (sqrt_pos e). nra.
  - destruct (Rle_lt_dec (1 / 2) e) as [L|L].
    + apply Rle_trans with 32; [apply tail_base; lra|].
      assert (SS : sqrt e * sqrt e = e) by (apply sqrt_sqrt; lra). pose proof (sqrt_pos e). nra.
    + pose proof PI2_3_2 as P3. pose proof (IH (2 * e) ltac:(lra) ltac:(cbn in B; lra)) as I.
      pose proof (tail_dup e ltac:(lra) ltac:(lra)) as T. pose proof (end_bound e ltac:(lra)) as EB.
      set (b := RInt log_kernel (PI - e) PI) in *. assert (TA : tailA e = tailA (2 * e) / 2 + b) by lra. rewrite TA.
      assert (SS : sqrt e * sqrt e = e) by (apply sqrt_sqrt; lra). assert (S0 : 0 < sqrt e) by (apply sqrt_lt_R0; lra).
      assert (S1 : sqrt e <= 1) by nra.
      assert (W : sqrt (2 * e) <= 3 / 2 * sqrt e).
      { apply Rsqr_incr_0; [|apply sqrt_pos|nra]. unfold Rsqr. rewrite sqrt_sqrt by lra. nra. }
      apply Rle_trans with (Rabs (tailA (2 * e) / 2) + Rabs b); [apply Rabs_triang|].
      unfold Rdiv. rewrite Rabs_mult, (Rabs_right (/ 2)) by lra. rewrite (Rabs_right b) by lra. nra.
Qed.

Lemma tail_bound e : 0 < e <= 1 -> Rabs (tailA e) <= 64 * sqrt e.
Proof.
  intros E. destruct (Pow_x_infinity 2 ltac:(rewrite Rabs_right; lra) (1 / 2 / e)) as [n Hn].
  apply (tail_small n); [exact E|]. specialize (Hn n ltac:(lia)). rewrite Rabs_right in Hn by (apply Rle_ge, pow_le; lra).
  replace (1 / 2) with (1 / 2 / e * e) by (field; lra). apply Rmult_le_compat_r; lra.
Qed.

Definition logF0 (t : R) : R := RInt log_kernel PI t.

Lemma logF0_derive t : 0 < t < 2 * PI -> is_derive logF0 t (log_kernel t).
Proof.
  intros H. pose proof PI_RGT_0 as HP. unfold logF0. apply (is_derive_RInt (V := R_NormedModule) log_kernel (fun t => RInt log_kernel PI t) PI t).
  - assert (PM : 0 < Rmin t (2 * PI - t)) by (apply Rmin_glb_lt; lra). exists (mkposreal _ PM). intros y Hy.
    unfold ball in Hy; cbn in Hy; unfold AbsRing_ball, abs, minus, plus, opp in Hy; cbn in Hy.
    pose proof (Rmin_l t (2 * PI - t)). pose proof (Rmin_r t (2 * PI - t)). apply Rabs_def2 in Hy.
    apply (RInt_correct (V := R_CompleteNormedModule)), log_int; lra.
  - apply log_kernel_cont, H.
Qed.

Lemma logF0_small t : 0 < t <= 1 -> Rabs (logF0 t) <= 64 * sqrt t.
Proof.
  intros H. pose proof PI2_3_2 as P3. unfold logF0. rewrite <- (opp_RInt_swap (V := R_CompleteNormedModule)) by (apply log_int; lra).
  unfold opp; cbn. rewrite Rabs_Ropp. apply tail_bound, H.
Qed.

Lemma logF0_sym t : 0 < t < 2 * PI -> logF0 (2 * PI - t) = - logF0 t.
Proof.
  intros H. pose proof PI_RGT_0 as HP. unfold logF0.
  assert (S2 : RInt (fun t => -1 * log_kernel (-1 * t + 2 * PI)) PI t = RInt log_kernel (-1 * PI + 2 * PI) (-1 * t + 2 * PI)).
  { apply (RInt_comp_lin (V := R_CompleteNormedModule)). apply log_int; lra. }
  replace (-1 * PI + 2 * PI) with PI in S2 by ring. replace (-1 * t + 2 * PI) with (2 * PI - t) in S2 by ring. rewrite <- S2.
  apply is_RInt_unique. apply (is_RInt_ext (V := R_NormedModule) (fun t => opp (log_kernel t))).
  - intros x _. replace (-1 * x + 2 * PI) with (2 * PI - x) by ring. rewrite log_kernel_sym. unfold opp; cbn. ring.
  - apply (is_RInt_opp (V := R_NormedModule)). apply (RInt_correct (V := R_CompleteNormedModule)), log_int; lra.
Qed.

Lemma logF0_lim0 : filterlim logF0 (at_right 0) (locally 0).
Proof.
  assert (Q : filterlim (fun t => 64 * sqrt t) (at_right 0) (locally 0)).
  { replace (locally 0) with (locally (64 * 0)) by (rewrite Rmult_0_r; reflexivity).
    apply (filterlim_comp _ _ _ sqrt (fun y => 64 * y) _ _ _ sq_lim0). apply (filterlim_scal_r (V := R_NormedModule)). }
  intros P [e He]. destruct (Q (ball 0 e)) as [d Hd]; [exists e; auto|].
  assert (PM : 0 < Rmin d 1) by (apply Rmin_glb_lt; [apply cond_pos|lra]). exists (mkposreal _ PM). intros y Hy Py. apply He.
  pose proof (Rmin_l d 1) as M1. pose proof (Rmin_r d 1) as M2.
  unfold ball in *; cbn -[logF0] in *; unfold AbsRing_ball, abs, minus, plus, opp in *; cbn -[logF0] in *. rewrite Ropp_0, Rplus_0_r in *.
  assert (Hy2 : Rabs (y + 0) < d) by (rewrite Rplus_0_r; lra). specialize (Hd y Hy2 Py). rewrite Rplus_0_r in Hd.
  rewrite (Rabs_right y) in Hy by lra. pose proof (logF0_small y ltac:(lra)).
  rewrite (Rabs_right (64 * sqrt y)) in Hd by (pose proof (sqrt_pos y); lra). apply Rle_lt_trans with (64 * sqrt y); [|exact Hd]. exact H.
Qed.

Lemma logF0_lim2PI : filterlim logF0 (at_left (2 * PI)) (locally 0).
Proof.
  pose proof PI_RGT_0 as HP. intros P [e He]. destruct (logF0_lim0 (ball 0 e)) as [d Hd]; [exists e; auto|].
  assert (PM : 0 < Rmin d PI) by (apply Rmin_glb_lt; [apply cond_pos|lra]). pose proof (Rmin_l d PI) as M1. pose proof (Rmin_r d PI) as M2.
  exists (mkposreal _ PM). intros y Hy Py. apply He.
  assert (B : ball 0 d (2 * PI - y)).
  { unfold ball in *; cbn -[logF0] in *; unfold AbsRing_ball, abs, minus, plus, opp in *; cbn -[logF0] in *. rewrite Ropp_0, Rplus_0_r. rewrite Rabs_minus_sym. unfold Rminus. lra. }
  specialize (Hd _ B ltac:(lra)). unfold ball in *; cbn -[logF0] in *; unfold AbsRing_ball, abs, minus, plus, opp in *; cbn -[logF0] in *.
  rewrite Ropp_0, Rplus_0_r in *. apply Rabs_def2 in Hy. rewrite logF0_sym in Hd by lra. rewrite Rabs_Ropp in Hd. exact Hd.
Qed.

Lemma log_coef0 : is_RInt_gen log_kernel (at_right 0) (at_left (2 * PI)) 0.
Proof.
  pose proof PI_RGT_0 as HP.
  assert (Dv : forall x, 0 < x < 2 * PI -> Derive logF0 x = log_kernel x) by (intros x Hx; apply is_derive_unique, logF0_derive; assumption).
  assert (FP : forall Q : R * R -> Prop, (forall a b, 0 < a < 2 * PI -> 0 < b < 2 * PI -> Q (a, b)) -> filter_prod (at_right 0) (at_left (2 * PI)) Q).
  { intros Q HQ. apply (Filter_prod _ _ _ (fun a => 0 < a < 2 * PI) (fun b => 0 < b < 2 * PI)).
    - assert (P2 : 0 < 2 * PI) by lra. exists (mkposreal _ P2). intros y Hy Py. unfold ball in Hy; cbn in Hy; unfold AbsRing_ball, abs, minus, plus, opp in Hy; cbn in Hy.
      rewrite Ropp_0, Rplus_0_r, Rabs_right in Hy by lra. lra.
    - assert (P2 : 0 < 2 * PI) by lra. exists (mkposreal _ P2). intros y Hy Py. unfold ball in Hy; cbn in Hy; unfold AbsRing_ball, abs, minus, plus, opp in Hy; cbn in Hy.
      rewrite Rabs_left in Hy by lra. lra.
    - intros a b Ha Hb. apply HQ; lra. }
  apply (is_RInt_gen_ext (V := R_NormedModule) (Derive logF0)).
  - apply FP. intros a b A B x Hx. cbn [fst snd] in Hx. apply Dv. apply (mm_in a b); lra.
  - replace 0 with (0 - 0) at 2 by ring. apply is_RInt_gen_Derive.
    + apply FP. intros a b A B x Hx. cbn [fst snd] in Hx. eexists. apply logF0_derive. apply (mm_in a b); assumption.
    + apply FP. intros a b A B x Hx. cbn [fst snd] in Hx. assert (Hx' : 0 < x < 2 * PI) by (apply (mm_in a b); assumption).
      apply (continuous_ext_loc _ log_kernel); [|apply log_kernel_cont, Hx'].
      assert (PM : 0 < Rmin x (2 * PI - x)) by (apply Rmin_glb_lt; lra). exists (mkposreal _ PM). intros y Hy.
      unfold ball in Hy; cbn in Hy; unfold AbsRing_ball, abs, minus, plus, opp in Hy; cbn in Hy. symmetry. apply Dv.
      pose proof (Rmin_l x (2 * PI - x)). pose proof (Rmin_r x (2 * PI - x)). apply Rabs_def2 in Hy. lra.
    + apply logF0_lim0.
    + apply logF0_lim2PI.
Qed.

(** The sine coefficients vanish: the product with a sine is continuous on the closed period. *)
Definition log_sin (k : nat) (t : R) : R := log_kernel t * sin (INR k * t).

Lemma log_sin_0 k : log_sin k 0 = 0.
Proof. unfold log_sin. rewrite Rmult_0_r, sin_0. ring. Qed.

Lemma log_kernel_even t : log_kernel (- t) = log_kernel t.
Proof. unfold log_kernel. replace (- t / 2) with (- (t / 2)) by field. rewrite sin_neg. f_equal. ring. Qed.

Lemma log_sin_small k t : Rabs t <= 1 -> Rabs (log_sin k t) <= 8 * INR k * sqrt (Rabs t).
Proof.
  intros H. destruct (Rtotal_order t 0) as [N|[->|N]].
  - rewrite Rabs_left in H by exact N. rewrite (Rabs_left t) by exact N.
    pose proof (log_small k (- t) ltac:(lra)) as L. unfold log_sin. rewrite log_kernel_even in L.
    replace (INR k * - t) with (- (INR k * t)) in L by ring. rewrite sin_neg in L. rewrite Ropp_mult_distr_r_reverse, Rabs_Ropp in L. exact L.
  - rewrite log_sin_0, Rabs_R0, sqrt_0. lra.
  - rewrite Rabs_right in H by lra. rewrite (Rabs_right t) by lra. apply log_small. lra.
Qed.

Lemma log_sin_cont0 k : continuous (log_sin k) 0.
Proof.
  intros P [e He]. rewrite log_sin_0 in He.
  assert (K : 0 <= INR k) by apply pos_INR. assert (D : 0 < 8 * INR k + 1) by lra. pose proof (cond_pos e) as E0.
  set (d := e / (8 * INR k + 1)). assert (D0 : 0 < d) by (apply Rdiv_lt_0_compat; lra).
  assert (PM : 0 < Rmin (d * d) 1) by (apply Rmin_glb_lt; nra). exists (mkposreal _ PM). intros y Hy.
  pose proof (Rmin_l (d * d) 1) as M1. pose proof (Rmin_r (d * d) 1) as M2. apply He.
  unfold ball in *; cbn in *; unfold AbsRing_ball, abs, minus, plus, opp in *; cbn in *. rewrite Ropp_0, Rplus_0_r in *.
  pose proof (log_sin_small k y ltac:(lra)) as L. assert (S : sqrt (Rabs y) < d). 
  { rewrite <- (sqrt_square d) by lra. apply sqrt_lt_1_alt. split; [apply Rabs_pos|lra]. }
  pose proof (sqrt_pos (Rabs y)) as S0. assert (DE : d * (8 * INR k + 1) = e) by (unfold d; field; lra).
  assert (8 * INR k * sqrt (Rabs y) <= 8 * INR k * d) by (apply Rmult_le_compat_l; lra). lra.
Qed.

Lemma log_sin_sym k t : log_sin k (2 * PI - t) = - log_sin k t.
Proof. unfold log_sin. rewrite log_kernel_sym, sin_k_sym. ring. Qed.

Lemma log_sin_cont k t : 0 <= t <= 2 * PI -> continuous (log_sin k) t.
Proof.
  intros H. destruct (Req_dec t 0) as [->|N0]; [apply log_sin_cont0|]. destruct (Req_dec t (2 * PI)) as [->|N1].
  - apply (continuous_ext (fun t => opp (log_sin k (minus (2 * PI) t)))).
    + intros x. unfold minus, plus, opp; cbn. replace (2 * PI + - x) with (2 * PI - x) by ring. rewrite log_sin_sym. ring.
    + apply (continuous_opp (V := R_NormedModule)). apply (continuous_comp (fun t => minus (2 * PI) t) (log_sin k)).
      * apply (continuous_minus (V := R_NormedModule)); [apply continuous_const|apply continuous_id].
      * unfold minus, plus, opp; cbn. replace (2 * PI + - (2 * PI)) with 0 by ring. apply log_sin_cont0.
  - apply (continuous_mult (K := R_AbsRing) log_kernel (fun t => sin (INR k * t))); [apply log_kernel_cont; lra|].
    apply (ex_derive_continuous (fun t => sin (INR k * t))). auto_derive. trivial.
Qed.

Lemma log_sin_int k a b : 0 <= a <= 2 * PI -> 0 <= b <= 2 * PI -> ex_RInt (log_sin k) a b.
Proof.
  intros A B. apply (ex_RInt_continuous (V := R_CompleteNormedModule)). intros z [Z1 Z2]. apply log_sin_cont. split.
  - eapply Rle_trans; [|exact Z1]. apply Rmin_glb; lra.
  - eapply Rle_trans; [exact Z2|]. apply Rmax_lub; lra.
Qed.

Lemma log_sin_zero k : RInt (log_sin k) 0 (2 * PI) = 0.
Proof.
  pose proof PI_RGT_0 as HP.
  assert (S2 : RInt (fun t => -1 * log_sin k (-1 * t + 2 * PI)) 0 (2 * PI) = RInt (log_sin k) (-1 * 0 + 2 * PI) (-1 * (2 * PI) + 2 * PI)).
  { apply (RInt_comp_lin (V := R_CompleteNormedModule)). apply log_sin_int; lra. }
  replace (-1 * 0 + 2 * PI) with (2 * PI) in S2 by ring. replace (-1 * (2 * PI) + 2 * PI) with 0 in S2 by ring.
  rewrite (RInt_ext _ (log_sin k)) in S2.
  - rewrite <- (opp_RInt_swap (V := R_CompleteNormedModule) (log_sin k) 0 (2 * PI)) in S2 by (apply log_sin_int; lra). unfold opp in S2; cbn -[RInt log_sin] in S2. lra.
  - intros x _. replace (-1 * x + 2 * PI) with (2 * PI - x) by ring. rewrite log_sin_sym. cbn -[log_sin]. ring_simplify. reflexivity.
Qed.

(** The integral over a compact interval is also the improper one. *)
Lemma gen_of_compact (f : R -> R) a b : a < b -> ex_RInt f a b -> (forall x, a <= x <= b -> continuous f x) ->
  is_RInt_gen f (at_right a) (at_left b) (RInt f a b).
Proof.
  intros AB I C. 
  assert (IC : forall u v, a <= u <= b -> a <= v <= b -> ex_RInt f u v).
  { intros u v U V. apply (ex_RInt_continuous (V := R_CompleteNormedModule)). intros z [Z1 Z2]. apply C. split.
    - eapply Rle_trans; [|exact Z1]. apply Rmin_glb; lra.
    - eapply Rle_trans; [exact Z2|]. apply Rmax_lub; lra. }
  destruct (bounded_continuity f a b) as [M HM]; [intros x Hx; apply C, Hx|].
  assert (M0 : 0 < M) by (specialize (HM a ltac:(lra)); pose proof (norm_ge_0 (f a)); lra).
  intros P [e He]. pose proof (cond_pos e) as E0. set (d := Rmin ((b - a) / 2) (e / (4 * M))).
  assert (D0 : 0 < d) by (apply Rmin_glb_lt; [lra|apply Rdiv_lt_0_compat; lra]).
  assert (D1 : d <= (b - a) / 2) by apply Rmin_l. assert (D2 : d <= e / (4 * M)) by apply Rmin_r.
  assert (DM : d * M <= e / 4). { apply Rle_trans with (e / (4 * M) * M); [apply Rmult_le_compat_r; lra|right; field; lra]. }
  apply (Filter_prod _ _ _ (fun u => a < u < a + d) (fun v => b - d < v < b)).
  - exists (mkposreal _ D0). intros y Hy Py. unfold ball in Hy; cbn in Hy; unfold AbsRing_ball, abs, minus, plus, opp in Hy; cbn in Hy. apply Rabs_def2 in Hy. lra.
  - exists (mkposreal _ D0). intros y Hy Py. unfold ball in Hy; cbn in Hy; unfold AbsRing_ball, abs, minus, plus, opp in Hy; cbn in Hy. apply Rabs_def2 in Hy. lra.
  - intros u v U V. exists (RInt f u v). split; [apply (RInt_correct (V := R_CompleteNormedModule)), IC; cbn -[RInt]; lra|]. apply He.
    unfold ball; cbn -[RInt]; unfold AbsRing_ball, abs, minus, plus, opp; cbn -[RInt].
    rewrite <- (RInt_Chasles f a u b) by (apply IC; lra). rewrite <- (RInt_Chasles f u v b) by (apply IC; lra). unfold plus; cbn -[RInt].
    assert (B1 : Rabs (RInt f a u) <= (u - a) * M). 
    { apply (abs_RInt_le_const f a u M); [lra|apply IC; lra|]. intros t Ht. left. apply HM. lra. }
    assert (B2 : Rabs (RInt f v b) <= (b - v) * M). 
    { apply (abs_RInt_le_const f v b M); [lra|apply IC; lra|]. intros t Ht. left. apply HM. lra. }
    replace (RInt f u v + - (RInt f a u + (RInt f u v + RInt f v b))) with (- (RInt f a u + RInt f v b)) by ring. rewrite Rabs_Ropp.
    pose proof (Rabs_triang (RInt f a u) (RInt f v b)). assert ((u - a) * M <= d * M) by (apply Rmult_le_compat_r; lra). assert ((b - v) * M <= d * M) by (apply Rmult_le_compat_r; lra). lra.
Qed.

Lemma log_sin_coef k : is_RInt_gen (fun t => log_kernel t * sin (INR k * t)) (at_right 0) (at_left (2 * PI)) 0.
Proof.
  pose proof PI_RGT_0 as HP. cut (is_RInt_gen (log_sin k) (at_right 0) (at_left (2 * PI)) (RInt (log_sin k) 0 (2 * PI))); [rewrite log_sin_zero; exact (fun h => h)|]. apply gen_of_compact; [lra|apply log_sin_int; lra|apply log_sin_cont].
Qed.

Lemma log_cos_coef k : is_RInt_gen (fun t => log_kernel t * cos (INR k * t)) (at_right 0) (at_left (2 * PI)) (if Nat.eqb k 0 then 0 else - (2 * PI / INR k)).
Proof.
  destruct (Nat.eqb_spec k 0) as [->|N]; [|apply log_coef; lia].
  apply (is_RInt_gen_ext (V := R_NormedModule) log_kernel); [|apply log_coef0].
  apply (Filter_prod _ _ _ (fun _ => True) (fun _ => True)); [apply filter_true|apply filter_true|].
  intros u v _ _ x _. cbn [INR]. rewrite Rmult_0_l, cos_0. symmetry. apply Rmult_1_r.
Qed.

(** Weights with the Fourier coefficients of the kernel integrate trigonometric polynomials. *)
Lemma log_trig (w : nat -> R) n a b m :
  (forall k, (k <= m)%nat -> sum_n (fun i => w i * cos (INR k * grid n i)) (2 * n) = if Nat.eqb k 0 then 0 else 1 / (2 * INR k)) ->
  (forall k, (k <= m)%nat -> sum_n (fun i => w i * sin (INR k * grid n i)) (2 * n) = 0) ->
  is_RInt_gen (fun t => log_kernel t * trig a b m t) (at_right 0) (at_left (2 * PI))
    (- (4 * PI) * sum_n (fun i => w i * trig a b m (grid n i)) (2 * n)).
Proof.
  assert (EX : forall (f g : R -> R) l, (forall t, f t = g t) -> is_RInt_gen f (at_right 0) (at_left (2 * PI)) l -> is_RInt_gen g (at_right 0) (at_left (2 * PI)) l).
  { intros f g l E. apply (is_RInt_gen_ext (V := R_NormedModule)). apply (Filter_prod _ _ _ (fun _ => True) (fun _ => True)); [apply filter_true|apply filter_true|]. intros u v _ _ x _. apply E. }
  induction m as [|m IH]; intros Hc Hs.
  - apply (EX (fun t => scal (a O) (log_kernel t * cos (INR 0 * t)))).
    { intros t. unfold trig, scal; cbn; unfold mult; cbn. rewrite Rmult_0_l, cos_0. ring. }
    replace (- (4 * PI) * sum_n (fun i => w i * trig a b 0 (grid n i)) (2 * n)) with (scal (a O) 0 : R).
    { apply (is_RInt_gen_scal (V := R_NormedModule)). apply (log_cos_coef 0). }
    specialize (Hc O (le_n _)). cbn [Nat.eqb] in Hc.
    rewrite (sum_n_ext _ (fun i => a O * (w i * cos (INR 0 * grid n i)))).
    + rewrite sum_n_scal, Hc. unfold scal; cbn; unfold mult; cbn. ring.
    + intros i _. unfold trig. cbn [INR sum_n]. rewrite Rmult_0_l, cos_0. ring.
  - specialize (IH (fun k Hk => Hc k (le_S _ _ Hk)) (fun k Hk => Hs k (le_S _ _ Hk))).
    apply (EX (fun t => plus (log_kernel t * trig a b m t) (plus (scal (a (S m)) (log_kernel t * cos (INR (S m) * t))) (scal (b (S m)) (log_kernel t * sin (INR (S m) * t)))))).
    { intros t. unfold trig, scal, plus; cbn -[INR]; unfold mult; cbn -[INR]. ring. }
    replace (- (4 * PI) * sum_n (fun i => w i * trig a b (S m) (grid n i)) (2 * n)) with
      (plus (- (4 * PI) * sum_n (fun i => w i * trig a b m (grid n i)) (2 * n)) (plus (scal (a (S m)) (- (2 * PI / INR (S m)))) (scal (b (S m)) 0)) : R).
    { apply (is_RInt_gen_plus (V := R_NormedModule)); [exact IH|]. 
      apply (is_RInt_gen_plus (V := R_NormedModule)); apply (is_RInt_gen_scal (V := R_NormedModule)); [exact (log_cos_coef (S m))|apply log_sin_coef]. }
    specialize (Hc (S m) (le_n _)). specialize (Hs (S m) (le_n _)). cbn [Nat.eqb] in Hc.
    rewrite (sum_n_ext (fun i => w i * trig a b (S m) (grid n i)) (fun i => w i * trig a b m (grid n i) + (a (S m) * (w i * cos (INR (S m) * grid n i)) + b (S m) * (w i * sin (INR (S m) * grid n i))))).
    + rewrite !sum_n_plus, !sum_n_scal, Hc, Hs. unfold scal, plus; cbn -[INR sum_n]; unfold mult; cbn -[INR sum_n]. field. apply not_0_INR. lia.
    + intros i _. unfold trig. cbn [sum_n]. ring.
Qed.
