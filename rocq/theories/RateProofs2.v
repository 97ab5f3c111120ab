(** Lemmas for the order of convergence (C81): smooth functions, and Kress's substitution *)
From Coq Require Import List ZArith Reals Lia Lra Psatz.
From Coquelicot Require Import Coquelicot.
From Verif Require Import BaryModel QuadModel QuadSpec QuadProofs EdgeSpec CellSpec ConvProofs RateSpec RateProofs.
Import List ListNotations.
Open Scope R_scope.

(** ** Smooth functions *)
Lemma smooth_cont k a b f : smooth k a b f -> forall t, a <= t <= b -> continuous f t.
Proof. destruct k as [|k]; [auto|]. intros (f' & D & _) t Ht. apply (ex_derive_continuous f). exists (f' t). apply D, Ht. Qed.
Lemma smooth_down k a b f : smooth (S k) a b f -> smooth k a b f.
Proof.
  revert f. induction k as [|k IH]; intros f H; [exact (smooth_cont _ _ _ _ H)|]. destruct H as (f' & D & H). exists f'. split; [exact D|apply IH, H].
Qed.
Lemma smooth_le j k a b f : (j <= k)%nat -> smooth k a b f -> smooth j a b f.
Proof. induction 1 as [|k L IH]; [auto|]. intros H. apply IH, smooth_down, H. Qed.
Lemma smooth_ext k a b f g : (forall t, f t = g t) -> smooth k a b f -> smooth k a b g.
Proof.
  destruct k as [|k]; intros E H; [intros t Ht; apply (continuous_ext f); [exact E|apply H, Ht]|]. destruct H as (f' & D & H). exists f'. split; [|exact H]. intros t Ht. apply (is_derive_ext f); [exact E|apply D, Ht].
Qed.
Lemma smooth_const k a b c : smooth k a b (fun _ => c).
Proof. revert c. induction k as [|k IH]; intros c; [intros t _; apply continuous_const|]. exists (fun _ => 0). split; [intros t _; apply (@is_derive_const R_AbsRing R_NormedModule)|apply IH]. Qed.
Lemma smooth_id k a b : smooth k a b (fun t => t).
Proof. destruct k as [|k]; [intros t _; apply continuous_id|]. exists (fun _ => 1). split; [intros t _; apply (@is_derive_id R_AbsRing)|apply smooth_const]. Qed.
Lemma smooth_plus k a b f g : smooth k a b f -> smooth k a b g -> smooth k a b (fun t => f t + g t).
Proof.
  revert f g. induction k as [|k IH]; intros f g F G; [intros t Ht; apply (@continuous_plus _ R_AbsRing R_NormedModule f g); [apply F, Ht|apply G, Ht]|].
  destruct F as (f' & Df & F), G as (g' & Dg & G). exists (fun t => f' t + g' t). split; [intros t Ht; apply (@is_derive_plus R_AbsRing R_NormedModule f g); [apply Df, Ht|apply Dg, Ht]|apply IH; assumption].
Qed.
Lemma smooth_mult k a b f g : smooth k a b f -> smooth k a b g -> smooth k a b (fun t => f t * g t).
Proof.
  revert f g. induction k as [|k IH]; intros f g F G; [intros t Ht; apply (continuous_mult f g); [apply F, Ht|apply G, Ht]|].
  pose proof (smooth_down _ _ _ _ F) as F0. pose proof (smooth_down _ _ _ _ G) as G0. destruct F as (f' & Df & F), G as (g' & Dg & G). exists (fun t => f' t * g t + f t * g' t). split.
  - intros t Ht. apply (is_derive_mult f g t (f' t) (g' t)); [apply Df, Ht|apply Dg, Ht|intros; apply Rmult_comm].
  - apply smooth_plus; apply IH; assumption.
Qed.
Lemma smooth_scal k a b c f : smooth k a b f -> smooth k a b (fun t => c * f t).
Proof. intros F. apply smooth_mult; [apply smooth_const|exact F]. Qed.
Lemma smooth_opp k a b f : smooth k a b f -> smooth k a b (fun t => - f t).
Proof. intros F. apply (smooth_ext k a b (fun t => -1 * f t)); [intros t; ring|apply smooth_scal, F]. Qed.
Lemma smooth_minus k a b f g : smooth k a b f -> smooth k a b g -> smooth k a b (fun t => f t - g t).
Proof. intros F G. apply (smooth_plus k a b f (fun t => - g t)); [exact F|apply smooth_opp, G]. Qed.
Lemma smooth_pow k a b f n : smooth k a b f -> smooth k a b (fun t => f t ^ n).
Proof. intros F. induction n as [|n IH]; cbn [pow]; [apply smooth_const|apply smooth_mult; assumption]. Qed.
Lemma smooth_inv k a b f : (forall t, a <= t <= b -> f t <> 0) -> smooth k a b f -> smooth k a b (fun t => / f t).
Proof.
  intros N. revert f N. induction k as [|k IH]; intros f N F.
  - intros t Ht. apply (continuous_comp f Rinv); [apply F, Ht|]. apply (ex_derive_continuous Rinv). auto_derive. apply N, Ht.
  - pose proof (smooth_down _ _ _ _ F) as F0. destruct F as (f' & D & F). exists (fun t => - (f' t * (/ f t * / f t))). split.
    + intros t Ht. replace (- (f' t * (/ f t * / f t))) with (- f' t / f t ^ 2) by (field; apply N, Ht). apply (is_derive_inv f t (f' t)); [apply D, Ht|apply N, Ht].
    + apply smooth_opp, smooth_mult; [exact F|]. apply smooth_mult; apply IH; assumption.
Qed.
Lemma smooth_comp k a b c d f u : (forall t, c <= t <= d -> a <= u t <= b) -> smooth k a b f -> smooth k c d u -> smooth k c d (fun t => f (u t)).
Proof.
  intros R. revert f. induction k as [|k IH]; intros f F U; [intros t Ht; apply (continuous_comp u f); [apply U, Ht|apply F, R, Ht]|].
  pose proof (smooth_down _ _ _ _ U) as U0. destruct F as (f' & Df & F), U as (u' & Du & U). exists (fun t => u' t * f' (u t)). split.
  - intros t Ht. apply (is_derive_comp f u t (f' (u t)) (u' t)); [apply Df, R, Ht|apply Du, Ht].
  - apply smooth_mult; [exact U|apply (IH f' F U0)].
Qed.
Lemma smooth_sqrt k a b f : (forall t, a <= t <= b -> 0 < f t) -> smooth k a b f -> smooth k a b (fun t => sqrt (f t)).
Proof.
  intros P. induction k as [|k IH]; intros F; [intros t Ht; apply (continuous_comp f sqrt); [apply F, Ht|apply continuous_sqrt]|].
  pose proof (smooth_down _ _ _ _ F) as F0. destruct F as (f' & D & F). exists (fun t => f' t * / (2 * sqrt (f t))). split.
  - intros t Ht. pose proof (P t Ht) as Pt. pose proof (sqrt_lt_R0 _ Pt) as Ps. apply (is_derive_comp sqrt f t (/ (2 * sqrt (f t))) (f' t)); [|apply D, Ht]. auto_derive; [exact Pt|]. field. lra.
  - apply smooth_mult; [exact F|]. apply smooth_inv; [intros t Ht; pose proof (sqrt_lt_R0 _ (P t Ht)); lra|]. apply smooth_scal, IH, F0.
Qed.
Lemma smooth_sin_cos k a b : smooth k a b sin /\ smooth k a b cos.
Proof.
  induction k as [|k (Is & Ic)]; [split; intros t _; [apply (ex_derive_continuous sin)|apply (ex_derive_continuous cos)]; auto_derive; trivial|]. split.
  - exists cos. split; [intros t _; auto_derive; [trivial|ring]|exact Ic].
  - exists (fun t => - sin t). split; [intros t _; auto_derive; [trivial|ring]|apply smooth_opp, Is].
Qed.
Lemma smooth_sin k a b f : smooth k a b f -> smooth k a b (fun t => sin (f t)).
Proof.
  revert f. assert (G : forall k f, smooth k a b f -> smooth k a b (fun t => sin (f t)) /\ smooth k a b (fun t => cos (f t))).
  { clear k. induction k as [|k IH]; intros f F.
    - split; intros t Ht; [apply (continuous_comp f sin)|apply (continuous_comp f cos)]; try apply F, Ht; [apply continuous_sin|apply continuous_cos].
    - destruct (IH f (smooth_down _ _ _ _ F)) as (Is & Ic). destruct F as (f' & D & F). split.
      + exists (fun t => f' t * cos (f t)). split; [intros t Ht; apply (is_derive_comp sin f t (cos (f t)) (f' t)); [auto_derive; [trivial|ring]|apply D, Ht]|apply smooth_mult; assumption].
      + exists (fun t => f' t * - sin (f t)). split; [intros t Ht; apply (is_derive_comp cos f t (- sin (f t)) (f' t)); [auto_derive; [trivial|ring]|apply D, Ht]|apply smooth_mult; [exact F|apply smooth_opp, Is]]. }
  intros f F. apply (G k f F).
Qed.
Lemma smooth_cos k a b f : smooth k a b f -> smooth k a b (fun t => cos (f t)).
Proof. intros F. apply (smooth_ext k a b (fun t => sin (PI / 2 + f t))); [intros t; rewrite sin_plus, cos_PI2, sin_PI2; ring|]. apply smooth_sin, smooth_plus; [apply smooth_const|exact F]. Qed.

(** ** Factors that vanish at the ends *)
Lemma flat k m a b u s : (k <= m)%nat -> u a = 0 -> u b = 0 -> smooth k a b u -> smooth k a b s -> closes k a b (fun t => u t ^ m * s t).
Proof.
  intros L Ua Ub. revert m s L. induction k as [|k IH]; intros m s L U Sm; [apply (smooth_mult 0); [apply smooth_pow, U|exact Sm]|]. destruct m as [|m]; [lia|].
  split; [rewrite Ua, Ub; cbn [pow]; ring|]. pose proof (smooth_down _ _ _ _ U) as U0. pose proof (smooth_down _ _ _ _ Sm) as S0. destruct U as (u' & Du & U), Sm as (s' & Ds & Sm).
  exists (fun t => u t ^ m * (INR (S m) * u' t * s t + u t * s' t)). split.
  - intros t Ht. replace (u t ^ m * (INR (S m) * u' t * s t + u t * s' t)) with ((INR (S m) * u' t * u t ^ pred (S m)) * s t + u t ^ S m * s' t) by (cbn [pred pow]; ring).
    apply (is_derive_mult (fun t => u t ^ S m) s t); [|apply Ds, Ht|intros; apply Rmult_comm]. apply is_derive_pow, Du, Ht.
  - apply (IH m (fun t => INR (S m) * u' t * s t + u t * s' t)); [lia|exact U0|]. apply smooth_plus; [|apply smooth_mult; assumption]. apply smooth_mult; [|exact S0]. apply smooth_scal, U.
Qed.
Lemma closes_ext k a b f g : (forall t, f t = g t) -> closes k a b f -> closes k a b g.
Proof.
  destruct k as [|k]; intros E H; [intros t Ht; apply (continuous_ext f); [exact E|apply H, Ht]|]. destruct H as (Ends & f' & D & H). split; [rewrite <- !E; exact Ends|]. exists f'. split; [|exact H]. intros t Ht. apply (is_derive_ext f); [exact E|apply D, Ht].
Qed.

(** ** Kress's substitution *)
Lemma kress_c_smooth k p : smooth k 0 (2 * PI) (kress_c p).
Proof.
  pose proof PI_RGT_0. unfold kress_c, kress_s. assert (Q : smooth k 0 (2 * PI) (fun t => t / PI - 1)) by (apply smooth_minus; [|apply smooth_const]; apply (smooth_ext _ _ _ (fun t => / PI * t)); [intros t; unfold Rdiv; ring|apply smooth_scal, smooth_id]).
  apply smooth_plus; [|apply smooth_const]. apply smooth_plus; [apply smooth_mult; [apply smooth_scal, Q|apply smooth_mult; exact Q]|]. apply (smooth_mult _ _ _ _ (fun _ => / INR p)); [exact Q|apply smooth_const].
Qed.
Lemma kress_den_smooth k p : smooth k 0 (2 * PI) (kress_den p).
Proof. unfold kress_den. apply smooth_plus; apply smooth_pow; [apply kress_c_smooth|]. apply smooth_minus; [apply smooth_const|apply kress_c_smooth]. Qed.
Definition kress_rest (p : nat) (t : R) : R := (3 * (INR p - 2) * (kress_s t * kress_s t) + 2) * / (kress_den p t) ^ 2.
Lemma kress_rest_smooth k p : (2 <= p)%nat -> smooth k 0 (2 * PI) (kress_rest p).
Proof.
  intros P2. pose proof PI_RGT_0. unfold kress_rest. apply smooth_mult.
  - apply smooth_plus; [|apply smooth_const]. apply smooth_scal. unfold kress_s. assert (Q : smooth k 0 (2 * PI) (fun t => t / PI - 1)) by (apply smooth_minus; [|apply smooth_const]; apply (smooth_ext _ _ _ (fun t => / PI * t)); [intros t; unfold Rdiv; ring|apply smooth_scal, smooth_id]). apply smooth_mult; exact Q.
  - apply smooth_inv; [intros t Ht; apply pow_nonzero; pose proof (kress_den_pos p t P2 Ht); lra|]. apply smooth_pow, kress_den_smooth.
Qed.
Lemma kress_wgt_form p t : kress_wgt p t = (kress_c p t * (1 - kress_c p t)) ^ (p - 1) * kress_rest p t.
Proof. unfold kress_wgt, kress_rest, Rdiv. ring. Qed.
Lemma kress_wgt_smooth k p : (2 <= p)%nat -> smooth k 0 (2 * PI) (kress_wgt p).
Proof.
  intros P2. apply (smooth_ext k 0 (2 * PI) (fun t => (kress_c p t * (1 - kress_c p t)) ^ (p - 1) * kress_rest p t)); [intros t; symmetry; apply kress_wgt_form|]. apply smooth_mult; [|apply kress_rest_smooth, P2]. apply smooth_pow, smooth_mult; [apply kress_c_smooth|]. apply smooth_minus; [apply smooth_const|apply kress_c_smooth].
Qed.
Lemma kress_node_smooth k p : (2 <= p)%nat -> smooth k 0 (2 * PI) (kress_node p).
Proof.
  intros P2. apply smooth_down. exists (kress_wgt p). split; [intros t Ht; apply kress_derive; assumption|apply kress_wgt_smooth, P2].
Qed.
(** The integrand after the substitution vanishes at both ends with its derivatives of order below p - 1. *)
Lemma kress_closes p k D : (2 <= p)%nat -> (k <= p - 1)%nat -> smooth k 0 (2 * PI) D -> closes k 0 (2 * PI) (fun t => kress_wgt p t * D (kress_node p t)).
Proof.
  intros P2 Hk HD. pose proof PI_RGT_0 as HP. assert (Ip : INR p <> 0) by (apply not_0_INR; lia). set (u := fun t => kress_c p t * (1 - kress_c p t)).
  apply (closes_ext k 0 (2 * PI) (fun t => u t ^ (p - 1) * (kress_rest p t * D (kress_node p t)))); [intros t; rewrite kress_wgt_form; unfold u; ring|].
  apply flat; [exact Hk|unfold u, kress_c, kress_s; field; repeat split; first [exact Ip|lra]|unfold u, kress_c, kress_s; field; repeat split; first [exact Ip|lra]|apply smooth_mult; [apply kress_c_smooth|apply smooth_minus; [apply smooth_const|apply kress_c_smooth]]|].
  apply smooth_mult; [apply kress_rest_smooth, P2|]. apply (smooth_comp k 0 (2 * PI)); [intros t Ht; apply kress_range; assumption|exact HD|apply kress_node_smooth, P2].
Qed.
