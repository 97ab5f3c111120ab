(** Lemmas for the order of convergence (C81): the trapezoid rule is exact along circles *)
From Coq Require Import List ZArith Reals Lia Lra Psatz Bool String Permutation.
From Coquelicot Require Import Coquelicot.
From Verif Require Import PyBase PolyModel PolySpec PolyProofs PolyProofs2 PolyProofs4 IntPolyModel IntPolyProofs BaryModel BBoxModel QuadModel QuadSpec QuadProofs QuadProps CurveModel CurveSpec CurveProps VertModel EdgeModel ContourModel CellModel CellSpec EdgeSpec EdgeProofs EdgeProofs2 EdgeProps EdgeProps3 EdgeProps4 CellProofs CellProps ContourProofs ContourProofs3 ContourProofs4 ContourProps CellProps2 CellProps3 Annulus LocalModel LocalSpec LocalProps2 ConvSpec ConvProofs ConvProofs2 ConvProps ConvProps2 RateSpec RateProofs RateProofs2.
From Verif Require Import ConvProofs3 ConvProofs4 ConvProps3 ConvProps4 RateProofs3 RateProofs4.
Import List ListNotations.
Open Scope R_scope.

(** Trigonometric polynomials of degree at most [d] *)
Inductive wave (d : nat) : (R -> R) -> Prop :=
  | w_cos j : (j <= d)%nat -> wave d (fun t => cos (INR j * t))
  | w_sin j : (j <= d)%nat -> wave d (fun t => sin (INR j * t))
  | w_plus f g : wave d f -> wave d g -> wave d (fun t => f t + g t)
  | w_scal c f : wave d f -> wave d (fun t => c * f t)
  | w_ext f g : (forall t, f t = g t) -> wave d f -> wave d g.
Lemma wave_le d d' f : (d <= d')%nat -> wave d f -> wave d' f.
Proof. intros L. induction 1; [apply w_cos; lia|apply w_sin; lia|apply w_plus; assumption|apply w_scal; assumption|eapply w_ext; eassumption]. Qed.
Lemma wave_const d c : wave d (fun _ => c).
Proof. apply (w_ext d (fun t => c * cos (INR 0 * t))); [intros t; cbn [INR]; rewrite Rmult_0_l, cos_0; ring|]. apply w_scal, w_cos. lia. Qed.
Lemma wave_cos d f : wave d f -> wave (S d) (fun t => f t * cos t).
Proof.
  induction 1 as [j J|j J|f g _ IHf _ IHg|c f _ IH|f g E _ IH].
  - destruct j as [|j]; [apply (w_ext _ (fun t => cos (INR 1 * t))); [intros t; cbn [INR]; rewrite Rmult_0_l, cos_0, !Rmult_1_l; reflexivity|apply w_cos; lia]|].
    apply (w_ext _ (fun t => / 2 * (cos (INR (S (S j)) * t) + cos (INR j * t)))); [|apply w_scal, w_plus; apply w_cos; lia]. intros t. rewrite !S_INR. replace ((INR j + 1 + 1) * t) with ((INR j + 1) * t + t) by ring. replace (INR j * t) with ((INR j + 1) * t - t) by ring. rewrite cos_plus, cos_minus. field.
  - destruct j as [|j]; [apply (w_ext _ (fun t => 0)); [intros t; cbn [INR]; rewrite Rmult_0_l, sin_0; ring|apply wave_const]|].
    apply (w_ext _ (fun t => / 2 * (sin (INR (S (S j)) * t) + sin (INR j * t)))); [|apply w_scal, w_plus; apply w_sin; lia]. intros t. rewrite !S_INR. replace ((INR j + 1 + 1) * t) with ((INR j + 1) * t + t) by ring. replace (INR j * t) with ((INR j + 1) * t - t) by ring. rewrite sin_plus, sin_minus. field.
  - apply (w_ext _ (fun t => f t * cos t + g t * cos t)); [intros t; ring|apply w_plus; assumption].
  - apply (w_ext _ (fun t => c * (f t * cos t))); [intros t; ring|apply w_scal; assumption].
  - apply (w_ext _ (fun t => f t * cos t)); [intros t; rewrite E; reflexivity|assumption].
Qed.
Lemma wave_sin d f : wave d f -> wave (S d) (fun t => f t * sin t).
Proof.
  induction 1 as [j J|j J|f g _ IHf _ IHg|c f _ IH|f g E _ IH].
  - destruct j as [|j]; [apply (w_ext _ (fun t => sin (INR 1 * t))); [intros t; cbn [INR]; rewrite Rmult_0_l, cos_0, !Rmult_1_l; reflexivity|apply w_sin; lia]|].
    apply (w_ext _ (fun t => / 2 * (sin (INR (S (S j)) * t) + - (1) * sin (INR j * t)))); [|apply w_scal, w_plus; [|apply w_scal]; apply w_sin; lia]. intros t. rewrite !S_INR. replace ((INR j + 1 + 1) * t) with ((INR j + 1) * t + t) by ring. replace (INR j * t) with ((INR j + 1) * t - t) by ring. rewrite sin_plus, sin_minus. field.
  - destruct j as [|j]; [apply (w_ext _ (fun t => 0)); [intros t; cbn [INR]; rewrite Rmult_0_l, sin_0; ring|apply wave_const]|].
    apply (w_ext _ (fun t => / 2 * (cos (INR j * t) + - (1) * cos (INR (S (S j)) * t)))); [|apply w_scal, w_plus; [|apply w_scal]; apply w_cos; lia]. intros t. rewrite !S_INR. replace ((INR j + 1 + 1) * t) with ((INR j + 1) * t + t) by ring. replace (INR j * t) with ((INR j + 1) * t - t) by ring. rewrite cos_plus, cos_minus. field.
  - apply (w_ext _ (fun t => f t * sin t + g t * sin t)); [intros t; ring|apply w_plus; assumption].
  - apply (w_ext _ (fun t => c * (f t * sin t))); [intros t; ring|apply w_scal; assumption].
  - apply (w_ext _ (fun t => f t * sin t)); [intros t; rewrite E; reflexivity|assumption].
Qed.
Lemma wave_mx d f a r : wave d f -> wave (S d) (fun t => f t * (a + r * cos t)).
Proof. intros W. apply (w_ext _ (fun t => a * f t + r * (f t * cos t))); [intros t; ring|]. apply w_plus; apply w_scal; [apply (wave_le d); [lia|exact W]|apply wave_cos, W]. Qed.
Lemma wave_my d f a r : wave d f -> wave (S d) (fun t => f t * (a + r * sin t)).
Proof. intros W. apply (w_ext _ (fun t => a * f t + r * (f t * sin t))); [intros t; ring|]. apply w_plus; apply w_scal; [apply (wave_le d); [lia|exact W]|apply wave_sin, W]. Qed.
Lemma wave_px d f a r k : wave d f -> wave (k + d) (fun t => f t * (a + r * cos t) ^ k).
Proof. intros W. induction k as [|k IH]; [apply (w_ext _ f); [intros t; cbn; ring|exact W]|]. apply (w_ext _ (fun t => f t * (a + r * cos t) ^ k * (a + r * cos t))); [intros t; cbn; ring|apply (wave_mx (k + d)), IH]. Qed.
Lemma wave_py d f a r k : wave d f -> wave (k + d) (fun t => f t * (a + r * sin t) ^ k).
Proof. intros W. induction k as [|k IH]; [apply (w_ext _ f); [intros t; cbn; ring|exact W]|]. apply (w_ext _ (fun t => f t * (a + r * sin t) ^ k * (a + r * sin t))); [intros t; cbn; ring|apply (wave_my (k + d)), IH]. Qed.
Lemma wave_value d q a b r : deg_le d q -> wave d (fun t => value q (a + r * cos t) (b + r * sin t)).
Proof.
  intros D. induction q as [|m q IH]; cbn [value]; [apply wave_const|]. apply w_plus; [|apply IH; intros m' I; apply D; right; exact I].
  pose proof (D m (or_introl eq_refl)) as L. apply (wave_le (my (malpha m) + (mx (malpha m) + 0))); [lia|]. apply wave_py, wave_px, wave_const.
Qed.
Lemma rdiv_deg d f : deg_le d f -> deg_le d (rdiv f).
Proof. intros D m I. unfold rdiv in I. apply in_map_iff in I. destruct I as (m0 & <- & I). cbn [malpha]. apply D, I. Qed.

Lemma trap_sum_plus h f g N : trap_sum h (fun t => f t + g t) N = trap_sum h f N + trap_sum h g N.
Proof. unfold trap_sum. rewrite <- Rmult_plus_distr_l. f_equal. induction (seq 0 N) as [|i l IH]; cbn [map]; unfold sum_list in *; cbn [fold_right]; [ring|]. rewrite IH. field. Qed.
Lemma trap_sum_scal h c f N : trap_sum h (fun t => c * f t) N = c * trap_sum h f N.
Proof. unfold trap_sum. replace (c * (h * sum_list (map (fun i => (f (INR i * h) + f (INR (S i) * h)) / 2) (seq 0 N)))) with (h * (c * sum_list (map (fun i => (f (INR i * h) + f (INR (S i) * h)) / 2) (seq 0 N)))) by ring. f_equal. induction (seq 0 N) as [|i l IH]; cbn [map]; unfold sum_list in *; cbn [fold_right]; [ring|]. rewrite IH. field. Qed.
Lemma trap_sum_ext h f g N : (forall t, f t = g t) -> trap_sum h f N = trap_sum h g N.
Proof. intros E. unfold trap_sum. do 2 f_equal. apply map_ext. intros i. rewrite !E. reflexivity. Qed.
Lemma sum_seq_n f m : sum_list (map f (seq 0 m)) = QuadSpec.sum_n f m.
Proof. induction m as [|m IH]; [reflexivity|]. rewrite seq_S, map_app. cbn [map QuadSpec.sum_n Nat.add]. rewrite <- IH. rewrite ContourProofs.sum_app. unfold sum_list at 2. cbn [fold_right]. ring. Qed.
Lemma wave_exact d f n : wave d f -> (d < 2 * n)%nat -> f 0 = f (2 * PI) /\ is_RInt f 0 (2 * PI) (trap_sum (2 * PI / INR (2 * n)) f (2 * n)).
Proof.
  intros W L. assert (N0 : (0 < n)%nat) by lia. assert (NR : INR n <> 0) by (apply not_0_INR; lia). assert (E2 : INR (2 * n) = 2 * INR n) by (rewrite mult_INR; reflexivity).
  assert (Bas : forall (g : R -> R) (v : R), g 0 = g (2 * PI) -> is_RInt g 0 (2 * PI) v -> 2 * PI / INR (2 * n) * QuadSpec.sum_n (fun i => g (QuadSpec.grid n i)) (2 * n) = v -> g 0 = g (2 * PI) /\ is_RInt g 0 (2 * PI) (trap_sum (2 * PI / INR (2 * n)) g (2 * n))).
  { intros g v Ends II <-. split; [exact Ends|]. rewrite <- left_sum by (replace (INR (2 * n) * (2 * PI / INR (2 * n))) with (2 * PI) by (rewrite E2; field; exact NR); exact Ends). rewrite sum_seq_n. rewrite (QuadProofs.sum_n_ext _ (fun i => g (QuadSpec.grid n i))); [exact II|]. intros i _. f_equal. unfold QuadSpec.grid. rewrite E2. field. exact NR. }
  induction W as [j J|j J|f g _ IHf _ IHg|c f _ IH|f g E _ IH].
  - destruct j as [|j].
    + apply (Bas (fun t => cos (INR 0 * t)) (2 * PI)); [cbn [INR]; rewrite !Rmult_0_l; reflexivity| |].
      * apply (is_RInt_ext (fun _ => 1)); [intros t _; cbn [INR]; rewrite Rmult_0_l, cos_0; reflexivity|]. replace (2 * PI) with (Hierarchy.scal (2 * PI - 0) 1) at 2 by (unfold Hierarchy.scal; cbn; unfold mult; cbn; ring). apply (is_RInt_const (V := R_NormedModule)).
      * rewrite grid_sum_cos, Nat.mod_0_l by lia. cbn [Nat.eqb]. rewrite E2. field. exact NR.
    + apply (Bas (fun t => cos (INR (S j) * t)) 0); [rewrite Rmult_0_r; replace (INR (S j) * (2 * PI)) with (0 + 2 * INR (S j) * PI) by ring; rewrite cos_period; reflexivity|apply int_cos; lia|]. rewrite grid_sum_cos, Nat.mod_small by lia. cbn [Nat.eqb]. ring.
  - destruct j as [|j].
    + apply (Bas (fun t => sin (INR 0 * t)) 0); [cbn [INR]; rewrite !Rmult_0_l; reflexivity| |rewrite grid_sum_sin by lia; ring].
      apply (is_RInt_ext (fun _ => 0)); [intros t _; cbn [INR]; rewrite Rmult_0_l, sin_0; reflexivity|]. replace 0 with (Hierarchy.scal (2 * PI - 0) 0) at 2 by (unfold Hierarchy.scal; cbn; unfold mult; cbn; ring). apply (is_RInt_const (V := R_NormedModule)).
    + apply (Bas (fun t => sin (INR (S j) * t)) 0); [rewrite Rmult_0_r; replace (INR (S j) * (2 * PI)) with (0 + 2 * INR (S j) * PI) by ring; rewrite sin_period; reflexivity|apply int_sin; lia|]. rewrite grid_sum_sin by lia. ring.
  - destruct IHf as (A & B), IHg as (A' & B'). split; [rewrite A, A'; reflexivity|]. rewrite trap_sum_plus. apply (is_RInt_plus (V := R_NormedModule) f g); assumption.
  - destruct IH as (A & B). split; [rewrite A; reflexivity|]. rewrite trap_sum_scal. apply (is_RInt_scal (V := R_NormedModule) f); assumption.
  - destruct IH as (A & B). split; [rewrite <- !E; exact A|]. rewrite <- (trap_sum_ext _ f g) by exact E. apply (is_RInt_ext f); [intros t _; apply E|exact B].
Qed.

(** Polynomials along circles are such *)
Lemma round_wave d f o e c r : deg_le d f -> round_edge e c r -> wave (S d) (line_integrand (poly_field f) o (traced (ring_X r) e) (ring_DX r)).
Proof.
  intros D Rd. pose proof Rd as (_ & _ & _ & Hr & _). pose proof (wave_value d (rdiv f) (fst c) (snd c) r (rdiv_deg d f D)) as W.
  apply (w_ext _ (fun t => (o * r * r) * value (rdiv f) (fst c + r * cos t) (snd c + r * sin t) + ((o * r * fst c) * (value (rdiv f) (fst c + r * cos t) (snd c + r * sin t) * cos t) + (o * r * snd c) * (value (rdiv f) (fst c + r * cos t) (snd c + r * sin t) * sin t)))).
  - intros t. rewrite flux_integrand by (rewrite ring_norm by exact Hr; nra). rewrite (round_traced _ _ _ _ Rd). unfold cross, ring_DX, px, py. cbn [fst snd]. pose proof (sin2_cos2 t) as Q. unfold Rsqr in Q. set (v := value _ _ _). replace (o * (v * ((fst c + r * cos t) * (r * cos t) - (snd c + r * sin t) * (- r * sin t)))) with (o * r * v * (r * (sin t * sin t + cos t * cos t) + fst c * cos t + snd c * sin t)) by ring. rewrite Q. ring.
  - apply w_plus; [apply w_scal, (wave_le d); [lia|exact W]|]. apply w_plus; apply w_scal; [apply wave_cos, W|apply wave_sin, W].
Qed.
Lemma round_exact d f o e c r p n qd e' : deg_le d f -> round_edge e c r -> e_qtype e = "trap"%string -> (2 <= p)%Z -> (4 <= n)%Z -> (Z.of_nat d + 1 < 2 * n)%Z -> o = 1%Z \/ o = (-1)%Z -> get_quad_dict (PInt n) p = Ok qd -> resampled qd o e e' ->
  smp_sum (poly_field f) e' = line_integral (poly_field f) (IZR o) (traced (ring_X r) e) (ring_DX r) (fst (e_tb e)) (snd (e_tb e)).
Proof.
  intros D Rd Q Hp Hn Hd Ho Eq R. pose proof PI_RGT_0 as HP. set (L := line_integrand (poly_field f) (IZR o) (traced (ring_X r) e) (ring_DX r)). pose proof (round_wave d f (IZR o) e c r D Rd) as W. fold L in W. destruct (wave_exact (S d) L (Z.to_nat n) W ltac:(lia)) as (Ends & EX).
  pose proof (round_smooth e c r Rd) as HS. pose proof (round_velocity e c r Rd) as HV. pose proof Rd as (_ & Et & _).
  assert (Er : forall t, rule_fun p e L t = L t). { intros t. unfold rule_fun, rule_dphi, rule_phi. rewrite Q. cbn [String.eqb Ascii.eqb Bool.eqb]. unfold param_dt, param_arg. rewrite Et. cbn [fst snd]. replace ((2 * PI - 0) / (2 * PI)) with 1 by (field; lra). unfold param_dt. rewrite Et. cbn [fst snd]. replace ((2 * PI - 0) / (2 * PI)) with 1 by (field; lra). rewrite !Rmult_1_l, Rplus_0_l, Rmult_1_r. reflexivity. }
  rewrite (edge_side_sum (poly_field f) o e (ring_X r) (ring_DX r) p (ring_DX r) n qd e' (poly_field_continuous f) HS Hp HV Ho Hn); [|rewrite !Er; exact Ends|exact Eq|exact R]. fold L. rewrite (trap_sum_ext _ _ L _ Er). symmetry. unfold line_integral. fold L. rewrite Et. cbn [fst snd]. apply (is_RInt_unique (V:=R_CompleteNormedModule)). exact EX.
Qed.
