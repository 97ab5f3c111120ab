(** Lemmas for the order of convergence (C81): integrands along smooth curves, segments and circles *)
From Coq Require Import List ZArith Reals Lia Lra Psatz Bool String Permutation.
From Coquelicot Require Import Coquelicot.
From Verif Require Import PyBase PolyModel PolySpec PolyProofs PolyProofs2 PolyProofs4 IntPolyModel IntPolyProofs BaryModel BBoxModel QuadModel QuadSpec QuadProofs QuadProps CurveModel CurveSpec CurveProps VertModel EdgeModel ContourModel CellModel CellSpec EdgeSpec EdgeProofs EdgeProofs2 EdgeProps EdgeProps3 EdgeProps4 CellProofs CellProps ContourProofs ContourProofs3 ContourProofs4 ContourProps CellProps2 CellProps3 Annulus LocalModel LocalSpec LocalProps2 ConvSpec ConvProofs ConvProofs2 ConvProps ConvProps2 RateSpec RateProofs RateProofs2.
From Verif Require Import ConvProofs3 ConvProofs4 ConvProps3 ConvProps4 RateProofs3.
Import List ListNotations.
Open Scope R_scope.

Lemma velocity_pos e X DX Y' : smooth_edge e X DX -> velocity e X Y' -> forall t, fst (e_tb e) <= t <= snd (e_tb e) -> 0 < norm2 (Y' t).
Proof.
  intros (Hq & Ht & Hsp & HX & HDX & HR & HF) HV t Hi. destruct (C22_derivatives _ _ _ Hsp HX) as (DX' & DDX & HDX' & HDDX & HDer). rewrite HDX in HDX'. apply Ok_inj in HDX'. subst DX'.
  pose proof (diary_c_pos _ _ _ HF) as HS. set (S := diary_sim (X (fst (e_tb e))) (X (snd (e_tb e))) (e_diary e)) in *.
  assert (DY : pt_derive (traced X e) t (lin S (DX t))) by (apply sapp_derive, HDer). rewrite <- (derive_unique (traced X e) t _ _ DY (HV t Hi)), norm2_lin. apply Rmult_lt_0_compat; [exact HS|apply HR, Hi].
Qed.
Lemma integrand_smooth k a b G o Y Y' : smooth_field k G -> (forall t, a <= t <= b -> 0 < norm2 (Y' t)) -> smooth_curve k a b Y -> smooth_curve k a b Y' -> smooth k a b (line_integrand G o Y Y').
Proof.
  intros HG HN (S1 & S2) (T1 & T2). assert (N2 : smooth k a b (fun t => norm2 (Y' t))) by (unfold norm2; apply smooth_plus; apply smooth_mult; assumption).
  assert (N1 : smooth k a b (fun t => EdgeSpec.norm (Y' t))) by (unfold EdgeSpec.norm; apply smooth_sqrt; assumption).
  assert (NI : smooth k a b (fun t => / EdgeSpec.norm (Y' t))). { apply smooth_inv; [|exact N1]. intros t Ht. unfold EdgeSpec.norm. apply Rgt_not_eq, sqrt_lt_R0, HN, Ht. }
  apply (smooth_ext k a b (fun t => G (fst (Y t), snd (Y t)) (o * (/ EdgeSpec.norm (Y' t) * snd (Y' t)), o * (- (/ EdgeSpec.norm (Y' t) * fst (Y' t)))) * EdgeSpec.norm (Y' t))).
  - intros t. unfold line_integrand, normal_of, cw, pt_scale. cbn [fst snd]. rewrite <- surjective_pairing. reflexivity.
  - apply smooth_mult; [|exact N1]. apply HG; [exact S1|exact S2| |]; apply smooth_scal; [|apply smooth_opp]; apply smooth_mult; assumption.
Qed.
Lemma periods {A} (f : R -> A) T : (forall t, f (t + T) = f t) -> forall (n : Z) t, f (t + IZR n * T) = f t.
Proof.
  intros H. assert (P : forall (n : nat) t, f (t + INR n * T) = f t). { induction n as [|n IH]; intros t; [cbn [INR]; f_equal; ring|]. rewrite S_INR. replace (t + (INR n + 1) * T) with ((t + INR n * T) + T) by ring. rewrite H. apply IH. }
  intros n t. destruct (Z.le_gt_cases 0 n) as [L|L].
  - rewrite <- (Z2Nat.id n) by lia. rewrite <- INR_IZR_INZ. apply P.
  - replace n with (- Z.of_nat (Z.to_nat (- n)))%Z by lia. rewrite opp_IZR, <- INR_IZR_INZ. set (m := Z.to_nat (- n)). rewrite <- (P m (t + - INR m * T)). f_equal. ring.
Qed.
Lemma into_period a T t : 0 < T -> exists n : Z, a <= t + IZR n * T <= a + T.
Proof.
  intros HT. exists (- Int_part ((t - a) / T))%Z. rewrite opp_IZR. destruct (base_Int_part ((t - a) / T)) as (A & B). set (q := IZR (Int_part ((t - a) / T))) in *. assert (E : t - a = (t - a) / T * T) by (field; lra). set (x := (t - a) / T) in *. nra.
Qed.
Lemma fits_fast G o e X DX p Y' k : smooth_field k G -> smooth_edge e X DX -> velocity e X Y' -> rule_fits k p e (traced X e) Y' -> fast k p e (line_integrand G o (traced X e) Y').
Proof.
  intros HG HS HV HF. pose proof (velocity_pos e X DX Y' HS HV) as N. pose proof HS as (_ & Ht & _). destruct HF as [(Q & K & S1 & S2)|(Q & S & P)]; [left; split; [exact Q|]; split; [exact K|apply integrand_smooth; assumption]|right].
  split; [exact Q|]. split.
  - intros c d. destruct (S c d) as (S1 & S2). apply integrand_smooth; [exact HG| |exact S1|exact S2]. intros t _. destruct (into_period (fst (e_tb e)) (snd (e_tb e) - fst (e_tb e)) t ltac:(lra)) as (n & Hn). rewrite <- (periods Y' _ (fun t => proj2 (P t)) n t). apply N. lra.
  - intros t. unfold line_integrand. destruct (P t) as (-> & ->). reflexivity.
Qed.
Lemma value_smooth k a b p x y : smooth k a b x -> smooth k a b y -> smooth k a b (fun t => value p (x t) (y t)).
Proof.
  intros Hx Hy. induction p as [|m p IH]; cbn [value]; [apply smooth_const|]. apply smooth_plus; [|exact IH]. apply smooth_mult; [|apply smooth_pow, Hy]. apply smooth_scal, smooth_pow, Hx.
Qed.
Lemma poly_field_smooth k f : smooth_field k (poly_field f).
Proof.
  intros a b x y u v Hx Hy Hu Hv. unfold poly_field. cbn [fst snd]. apply smooth_plus; (apply smooth_mult; [|assumption]); (apply smooth_mult; [assumption|]); apply value_smooth; assumption.
Qed.

(** ** Segments and circles *)
Lemma straight_curve k a b e u v : straight e u v -> smooth_curve k a b (traced line_X e) /\ smooth_curve k a b (seg_v u v).
Proof.
  intros S. split; [|split; unfold seg_v; apply smooth_const].
  split; [apply (smooth_ext k a b (fun t => fst u + (/ (2 * PI) * t) * fst (pt_sub v u)))|apply (smooth_ext k a b (fun t => snd u + (/ (2 * PI) * t) * snd (pt_sub v u)))]; try (intros t; rewrite (straight_traced _ _ _ t S); unfold pt_add, pt_scale; cbn [fst snd]; unfold Rdiv; ring);
  (apply smooth_plus; [apply smooth_const|]; apply smooth_mult; [apply smooth_scal, smooth_id|apply smooth_const]).
Qed.
Lemma round_curve k a b e c r : round_edge e c r -> smooth_curve k a b (traced (ring_X r) e) /\ smooth_curve k a b (ring_DX r).
Proof.
  intros Rd. split; split.
  - apply (smooth_ext k a b (fun t => fst c + r * cos t)); [intros t; rewrite (round_traced _ _ _ t Rd); reflexivity|]. apply smooth_plus; [apply smooth_const|apply smooth_scal, smooth_cos, smooth_id].
  - apply (smooth_ext k a b (fun t => snd c + r * sin t)); [intros t; rewrite (round_traced _ _ _ t Rd); reflexivity|]. apply smooth_plus; [apply smooth_const|apply smooth_scal, smooth_sin, smooth_id].
  - apply smooth_scal, smooth_sin, smooth_id.
  - apply smooth_scal, smooth_cos, smooth_id.
Qed.
Lemma runs_fits k p z e u v : runs z e u v -> e_qtype e = "kress"%string -> (Z.of_nat k + 1 <= p)%Z -> rule_fits k p e (traced line_X e) (joined e).
Proof.
  intros Rn Q K. left. split; [exact Q|]. split; [exact K|]. destruct Rn as [[_ S]|[_ S]]; rewrite (straight_joined _ _ _ S); eapply straight_curve, S.
Qed.
Lemma round_fits k p e c r : round_edge e c r -> e_qtype e = "kress"%string /\ (Z.of_nat k + 1 <= p)%Z \/ e_qtype e = "trap"%string -> rule_fits k p e (traced (ring_X r) e) (ring_DX r).
Proof.
  intros Rd [(Q & K)|Q]; [left; split; [exact Q|]; split; [exact K|]; apply (round_curve _ _ _ _ _ _ Rd)|right]. split; [exact Q|]. split; [intros; apply (round_curve _ _ _ _ _ _ Rd)|]. pose proof Rd as (_ & -> & _). cbn [fst snd]. rewrite Rminus_0_r. intros t. rewrite !(round_traced _ _ _ _ Rd). unfold px, py, ring_DX. rewrite sin_plus, cos_plus, sin_2PI, cos_2PI. split; f_equal; ring.
Qed.
Lemma bounded_fits k p H z b l i e : bounded_by H z b l -> In i (outline_ids l) -> nth_error H i = Some e -> e_qtype e = "kress"%string /\ (Z.of_nat k + 1 <= p)%Z \/ e_curve e = Circle /\ e_qtype e = "trap"%string ->
  rule_fits k p e (traced (shape_X H i) e) (shape_V H i).
Proof.
  assert (G : forall i e u v, nth_error H i = Some e -> (if b then runs z e u v else runs z e v u) -> e_qtype e = "kress"%string /\ (Z.of_nat k + 1 <= p)%Z \/ e_curve e = Circle /\ e_qtype e = "trap"%string -> rule_fits k p e (traced (shape_X H i) e) (shape_V H i)).
  { clear. intros i e u v E Rn Q. unfold shape_X, shape_V. rewrite E. destruct b; rewrite (runs_line _ _ _ _ Rn) in *; (destruct Q as [(Q & K)|(Q & _)]; [|discriminate]); apply (runs_fits _ _ _ _ _ _ Rn); assumption. }
  destruct l as [x0 x1 y0 y1 i1 i2 i3 i4|c r i0]; cbn [bounded_by outline_ids].
  - intros (Lx & Ly & e1 & e2 & e3 & e4 & N1 & N2 & N3 & N4 & R1 & R2 & R3 & R4) I E. destruct I as [<-|[<-|[<-|[<-|[]]]]].
    + rewrite N1 in E. injection E as <-. apply (G _ _ _ _ N1 R1).
    + rewrite N2 in E. injection E as <-. apply (G _ _ _ _ N2 R2).
    + rewrite N3 in E. injection E as <-. apply (G _ _ _ _ N3 R3).
    + rewrite N4 in E. injection E as <-. apply (G _ _ _ _ N4 R4).
  - intros (e0 & N0 & Rd & _) [<-|[]] E Q. rewrite N0 in E. injection E as <-. unfold shape_X, shape_V. rewrite N0. pose proof Rd as (-> & _ & -> & _). apply (round_fits k p _ c r Rd). tauto.
Qed.
