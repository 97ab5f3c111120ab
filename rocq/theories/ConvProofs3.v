(** Lemmas for the convergence of integrals of polynomials (C79): cones and rectangles. *)
From Coq Require Import List ZArith Reals Lia Lra Psatz Bool String Permutation.
From Coquelicot Require Import Coquelicot.
From Verif Require Import PyBase PolyModel PolySpec PolyProofs PolyProofs2 PolyProofs4 IntPolyModel IntPolyProofs BaryModel BBoxModel QuadModel CurveModel CurveSpec CurveProps VertModel EdgeModel EdgeSpec EdgeProofs EdgeProofs2 EdgeProps EdgeProps3 EdgeProps4 ConvSpec ConvProofs ConvProofs2 ConvProps2.
Import List ListNotations.
Open Scope R_scope.

(** Equality of reals, whatever structure the type is given *)
Ltac req := match goal with |- @eq _ ?a ?b => change (@eq R a b) end.

(** ** Cones *)
Lemma mono_cone c x y a b : is_RInt (fun s => s * (c * (s * x) ^ a * (s * y) ^ b)) 0 1 (c / (2 + INR (a + b)) * x ^ a * y ^ b).
Proof.
  set (k := c / (2 + INR (a + b)) * x ^ a * y ^ b). assert (P : 0 < 2 + INR (a + b)) by (pose proof (pos_INR (a + b)); lra).
  replace k with (minus (k * 1 ^ (a + b + 2)) (k * 0 ^ (a + b + 2))) by (rewrite pow1, pow_i by lia; unfold minus, plus, opp; cbn; ring).
  apply (is_RInt_derive (fun s => k * s ^ (a + b + 2)) (fun s => s * (c * (s * x) ^ a * (s * y) ^ b))).
  - intros s _. auto_derive; [trivial|]. replace (Init.Nat.pred (a + b + 2)) with (S (a + b)) by lia. rewrite !Rpow_mult_distr. replace (a + b + 2)%nat with (2 + (a + b))%nat by lia. rewrite (plus_INR 2). cbn [INR]. rewrite <- tech_pow_Rmult, pow_add. unfold k. field. lra.
  - intros s _. apply (ex_derive_continuous (fun s => s * (c * (s * x) ^ a * (s * y) ^ b))). auto_derive. trivial.
Qed.
Lemma value_cone p x y : is_RInt (fun s => s * value p (s * x) (s * y)) 0 1 (value (rdiv p) x y).
Proof.
  induction p as [|m p IH]; cbn [rdiv map value].
  - apply (is_RInt_ext (fun _ => 0)); [intros s _; change (0 = s * 0); ring|]. refine (eq_rect _ (fun v => is_RInt (fun _ => 0) 0 1 v) (is_RInt_const 0 1 0) _ _). change ((1 - 0) * 0 = 0). ring.
  - fold (rdiv p). cbn [malpha mcoef]. set (a := mx (malpha m)). set (b := my (malpha m)). set (c := mcoef m : R). apply is_RInt_ext with (fun s => plus (s * (c * (s * x) ^ a * (s * y) ^ b)) (s * value p (s * x) (s * y))).
    { intros s _. change (s * (c * (s * x) ^ a * (s * y) ^ b) + s * value p (s * x) (s * y) = s * (c * (s * x) ^ a * (s * y) ^ b + value p (s * x) (s * y))). ring. }
    apply (is_RInt_plus (V:=R_NormedModule)); [apply mono_cone|exact IH].
Qed.
Lemma flux_integrand p o (Y Y' : R -> pt) t : 0 < norm2 (Y' t) -> line_integrand (poly_field p) o Y Y' t = o * (value (rdiv p) (fst (Y t)) (snd (Y t)) * cross (Y t) (Y' t)).
Proof.
  intros H. pose proof (norm_pos _ H) as Pn. unfold line_integrand, poly_field, normal_of, cw, pt_scale, cross. cbn [fst snd]. field. lra.
Qed.
Lemma cone_integrand p (Y Y' : R -> pt) t : RInt (fun s => peval RS p (s * fst (Y t)) (s * snd (Y t)) * cross (Y t) (pt_scale s (Y' t))) 0 1 = value (rdiv p) (fst (Y t)) (snd (Y t)) * cross (Y t) (Y' t).
Proof.
  apply is_RInt_unique. pose proof (is_RInt_scal _ _ _ (cross (Y t) (Y' t)) _ (value_cone p (fst (Y t)) (snd (Y t)))) as X. rewrite Rmult_comm. refine (is_RInt_ext _ _ _ _ _ _ X).
  intros s _. match goal with |- ?l = _ => change l with (cross (Y t) (Y' t) * (s * value p (s * fst (Y t)) (s * snd (Y t)))) end. rewrite peval_value. unfold cross, pt_scale. cbn [fst snd]. req. ring.
Qed.
Lemma flux_cone p o (Y Y' : R -> pt) a b : a <= b -> (forall t, a <= t <= b -> 0 < norm2 (Y' t)) -> ex_RInt (fun t => value (rdiv p) (fst (Y t)) (snd (Y t)) * cross (Y t) (Y' t)) a b ->
  line_integral (poly_field p) o Y Y' a b = o * cone_integral (peval RS p) Y Y' a b.
Proof.
  intros L H E. unfold line_integral, cone_integral. rewrite (RInt_ext _ (fun t => o * (value (rdiv p) (fst (Y t)) (snd (Y t)) * cross (Y t) (Y' t)))).
  - rewrite (RInt_ext (fun t => RInt _ 0 1) (fun t => value (rdiv p) (fst (Y t)) (snd (Y t)) * cross (Y t) (Y' t))) by (intros t _; apply cone_integrand).
    apply (RInt_scal (V:=R_CompleteNormedModule) (fun t => value (rdiv p) (fst (Y t)) (snd (Y t)) * cross (Y t) (Y' t)) a b o). exact E.
  - intros t Ht. rewrite Rmin_left, Rmax_right in Ht by lra. apply flux_integrand, H. lra.
Qed.

(** ** Rectangles *)
Lemma int_pow k a b : is_RInt (fun x => x ^ k) a b ((b ^ S k - a ^ S k) / INR (S k)).
Proof.
  assert (P : INR (S k) <> 0) by (apply not_0_INR; lia). replace ((b ^ S k - a ^ S k) / INR (S k)) with (minus (b ^ S k / INR (S k)) (a ^ S k / INR (S k))) by (unfold minus, plus, opp; cbn [AbelianGroup.plus]; cbn; field; exact P).
  apply (is_RInt_derive (fun x => x ^ S k / INR (S k)) (fun x => x ^ k)).
  - intros x _. auto_derive; [trivial|]. cbn [Init.Nat.pred]. field. exact P.
  - intros x _. apply (ex_derive_continuous (fun x => x ^ k)). auto_derive. trivial.
Qed.

(** The flux of the field through the sides of a rectangle, against the double integral *)
Definition xside (p : poly RS) (a c b d : R) : R := RInt (fun y => c * value (rdiv p) c y) b d - RInt (fun y => a * value (rdiv p) a y) b d.
Definition yside (p : poly RS) (a c b d : R) : R := RInt (fun x => d * value (rdiv p) x d) a c - RInt (fun x => b * value (rdiv p) x b) a c.
Lemma ex_value_x p y a c : ex_RInt (fun x => value p x y) a c.
Proof. apply (@ex_RInt_continuous R_CompleteNormedModule). intros x _. apply (ex_derive_continuous (fun x => value p x y)). eexists. apply is_derive_Reals. apply value_map_dx_lim. Qed.
Lemma ex_value_y p x b d : ex_RInt (fun y => value p x y) b d.
Proof. apply (@ex_RInt_continuous R_CompleteNormedModule). intros y _. apply (ex_derive_continuous (fun y => value p x y)). eexists. apply is_derive_Reals. apply value_map_dy_lim. Qed.
Lemma RInt_plusR (f g : R -> R) a b : ex_RInt f a b -> ex_RInt g a b -> RInt (fun x => f x + g x) a b = RInt f a b + RInt g a b.
Proof. intros F G. exact (RInt_plus (V:=R_CompleteNormedModule) f g a b F G). Qed.
Lemma RInt_scalR (f : R -> R) k a b : ex_RInt f a b -> RInt (fun x => k * f x) a b = k * RInt f a b.
Proof. intros F. exact (RInt_scal (V:=R_CompleteNormedModule) f a b k F). Qed.
Lemma ex_scalR (f : R -> R) k a b : ex_RInt f a b -> ex_RInt (fun x => k * f x) a b.
Proof. intros F. exact (ex_RInt_scal (V:=R_NormedModule) f a b k F). Qed.
Definition pint (k : nat) (a b : R) : R := (b ^ S k - a ^ S k) / INR (S k).
Lemma RInt_pow k a b : RInt (fun x => x ^ k) a b = pint k a b.
Proof. apply is_RInt_unique, int_pow. Qed.
Lemma ex_pow k a b : ex_RInt (fun x => x ^ k) a b.
Proof. eexists. apply int_pow. Qed.
(** The integral of a polynomial over a rectangle, by its coefficients *)
Fixpoint rint (p : poly RS) (a c b d : R) : R :=
  match p with [] => 0 | m :: p => (mcoef m : R) * pint (mx (malpha m)) a c * pint (my (malpha m)) b d + rint p a c b d end.
Fixpoint yint (p : poly RS) (x b d : R) : R :=
  match p with [] => 0 | m :: p => (mcoef m : R) * pint (my (malpha m)) b d * x ^ mx (malpha m) + yint p x b d end.
Fixpoint xint (p : poly RS) (y a c : R) : R :=
  match p with [] => 0 | m :: p => (mcoef m : R) * pint (mx (malpha m)) a c * y ^ my (malpha m) + xint p y a c end.
Lemma RInt_0 a b : RInt (fun _ : R => 0) a b = 0.
Proof. rewrite RInt_const. change ((b - a) * 0 = 0). ring. Qed.
Lemma yint_ok p x b d : RInt (fun y => value p x y) b d = yint p x b d.
Proof.
  induction p as [|m p IH]; cbn [value yint]; [apply RInt_0|]. rewrite <- IH. set (k := mcoef m : R). set (i := mx (malpha m)). set (j := my (malpha m)).
  etransitivity; [exact (RInt_plusR (fun y => k * x ^ i * y ^ j) (fun y => value p x y) b d (ex_scalR (fun y => y ^ j) (k * x ^ i) b d (ex_pow j b d)) (ex_value_y p x b d))|]. f_equal.
  rewrite RInt_scalR by apply ex_pow. rewrite RInt_pow. req. ring.
Qed.
Lemma xint_ok p y a c : RInt (fun x => value p x y) a c = xint p y a c.
Proof.
  induction p as [|m p IH]; cbn [value xint]; [apply RInt_0|]. rewrite <- IH. set (k := mcoef m : R). set (i := mx (malpha m)). set (j := my (malpha m)).
  assert (E : ex_RInt (fun x => k * x ^ i * y ^ j) a c). { apply (ex_RInt_ext (fun x => (k * y ^ j) * x ^ i)); [intros x _; req; ring|]. apply ex_scalR, ex_pow. }
  etransitivity; [exact (RInt_plusR (fun x => k * x ^ i * y ^ j) (fun x => value p x y) a c E (ex_value_x p y a c))|]. f_equal.
  rewrite (RInt_ext _ (fun x => (k * y ^ j) * x ^ i)) by (intros x _; req; ring). rewrite RInt_scalR by apply ex_pow. rewrite RInt_pow. req. ring.
Qed.
Lemma ex_yint p b d a c : ex_RInt (fun x => yint p x b d) a c.
Proof.
  induction p as [|m p IH]; cbn [yint]; [apply ex_RInt_const|]. apply (ex_RInt_plus (V:=R_NormedModule) (fun x => (mcoef m : R) * pint (my (malpha m)) b d * x ^ mx (malpha m))); [apply ex_scalR, ex_pow|exact IH].
Qed.
Lemma rint_ok p a c b d : RInt (fun x => RInt (fun y => value p x y) b d) a c = rint p a c b d.
Proof.
  rewrite (RInt_ext _ (fun x => yint p x b d)) by (intros x _; apply yint_ok). induction p as [|m p IH]; cbn [yint rint]; [apply RInt_0|]. rewrite <- IH. set (k := mcoef m : R). set (i := mx (malpha m)). set (j := my (malpha m)).
  etransitivity; [exact (RInt_plusR (fun x => k * pint j b d * x ^ i) (fun x => yint p x b d) a c (ex_scalR (fun x => x ^ i) (k * pint j b d) a c (ex_pow i a c)) (ex_yint p b d a c))|]. f_equal.
  rewrite RInt_scalR by apply ex_pow. rewrite RInt_pow. req. ring.
Qed.
Lemma pint_step k a b : INR (S k) * pint k a b = b ^ S k - a ^ S k.
Proof. unfold pint. field. apply not_0_INR. lia. Qed.
Lemma green_rectangle p a c b d : xside p a c b d + yside p a c b d = RInt (fun x => RInt (fun y => value p x y) b d) a c.
Proof.
  rewrite rint_ok. unfold xside, yside.
  rewrite (RInt_scalR (fun y => value (rdiv p) c y) c b d (ex_value_y _ _ _ _)), (RInt_scalR (fun y => value (rdiv p) a y) a b d (ex_value_y _ _ _ _)), (RInt_scalR (fun x => value (rdiv p) x d) d a c (ex_value_x _ _ _ _)), (RInt_scalR (fun x => value (rdiv p) x b) b a c (ex_value_x _ _ _ _)).
  rewrite (yint_ok (rdiv p) c), (yint_ok (rdiv p) a), (xint_ok (rdiv p) d), (xint_ok (rdiv p) b).
  induction p as [|m p IH]; cbn [rdiv map yint xint rint]; [ring|]. fold (rdiv p). cbn [malpha mcoef]. set (i := mx (malpha m)). set (j := my (malpha m)). set (k := mcoef m : R).
  transitivity (k / (2 + INR (morder (malpha m))) * (pint j b d * (c ^ S i - a ^ S i) + pint i a c * (d ^ S j - b ^ S j)) + (c * yint (rdiv p) c b d - a * yint (rdiv p) a b d + (d * xint (rdiv p) d a c - b * xint (rdiv p) b a c))); [cbn [pow]; ring|].
  rewrite IH, <- !pint_step. unfold morder. fold i j. rewrite plus_INR, !S_INR. pose proof (pos_INR i). pose proof (pos_INR j). field. lra.
Qed.

(** ** Straight edges *)
Definition line_X (t : R) : pt := (t / (2 * PI), 0).
Definition line_DX (_ : R) : pt := (1 / (2 * PI), 0).
Definition seg_v (u v : pt) (_ : R) : pt := pt_scale (1 / (2 * PI)) (pt_sub v u).
Lemma straight_traced e u v t : straight e u v -> traced line_X e t = pt_add u (pt_scale (t / (2 * PI)) (pt_sub v u)).
Proof.
  intros (_ & Et & (va & vb & Ed & Ea & Eb) & _). pose proof PI_RGT_0 as HP. unfold traced. rewrite Et, Ed. cbn [fst snd diary_sim step_sim]. rewrite Ea, Eb. unfold line_X. replace (0 / (2 * PI)) with 0 by (field; lra). replace (2 * PI / (2 * PI)) with 1 by (field; lra).
  clear Ea Eb. destruct u as [u1 u2], v as [v1 v2]. replace (join_sim (0, 0) (1, 0) (u1, u2) (v1, v2)) with (Sim (v1 - u1, v2 - u2) (u1, u2) false).
  2:{ unfold join_sim, pt_div, pt_mul, pt_conj, pt_sub, pt_scale, norm2. cbn [fst snd]. replace ((1 - 0) * (1 - 0) + (0 - 0) * (0 - 0)) with 1 by ring. rewrite Rinv_1. f_equal; f_equal; ring. }
  unfold sapp, sim_comp, sim_id, sapp, lin, pt_mul, pt_sub, pt_add, pt_scale. cbn [s_c s_d s_flip xorb fst snd]. f_equal; unfold Rdiv; ring.
Qed.
Lemma straight_velocity e u v : straight e u v -> velocity e line_X (seg_v u v).
Proof.
  intros S t _. split.
  - apply (is_derive_ext (fun t => fst u + t / (2 * PI) * (fst v - fst u))); [intros s; rewrite (straight_traced _ _ _ _ S); reflexivity|]. unfold seg_v, pt_scale, pt_sub. cbn [fst snd]. auto_derive; [trivial|]. unfold Rdiv. ring.
  - apply (is_derive_ext (fun t => snd u + t / (2 * PI) * (snd v - snd u))); [intros s; rewrite (straight_traced _ _ _ _ S); reflexivity|]. unfold seg_v, pt_scale, pt_sub. cbn [fst snd]. auto_derive; [trivial|]. unfold Rdiv. ring.
Qed.
Lemma straight_smooth e u v : straight e u v -> TOL <= pdist u v -> smooth_edge e line_X line_DX.
Proof.
  intros (Ec & Et & (va & vb & Ed & Ea & Eb) & Eq) Ht. pose proof PI_RGT_0 as HP. unfold smooth_edge. rewrite Ec, Et, Ed. split; [exact Eq|]. split; [cbn; lra|]. split; [exact I|]. split; [reflexivity|]. split; [reflexivity|]. split.
  - intros t _. unfold line_DX, norm2. cbn [fst snd]. assert (0 < 1 / (2 * PI)) by (apply Rdiv_lt_0_compat; lra). nra.
  - cbn [diary_fine step_fine fst snd]. split; [|exact I]. assert (D1 : pdist (line_X 0) (line_X (2 * PI)) = 1). { unfold pdist, line_X. cbn [fst snd]. replace (0 / (2 * PI) - 2 * PI / (2 * PI)) with (-1) by (field; lra). replace (-1 * -1 + (0 - 0) * (0 - 0)) with 1 by ring || replace ((-1) ^ 2 + (0 - 0) ^ 2) with 1 by ring. apply sqrt_1. }
    rewrite Ea, Eb, D1. unfold TOL in *. repeat split; lra.
Qed.

Lemma seg_regular u v t : 0 < pdist u v -> 0 < norm2 (seg_v u v t).
Proof.
  intros H. pose proof PI_RGT_0 as HP. unfold seg_v. rewrite norm2_scale. apply Rmult_lt_0_compat; [assert (0 < 1 / (2 * PI)) by (apply Rdiv_lt_0_compat; lra); nra|]. unfold pdist in H. unfold norm2, pt_sub. cbn [fst snd].
  assert (P : 0 <= (fst v - fst u) * (fst v - fst u) + (snd v - snd u) * (snd v - snd u)) by (apply Rplus_le_le_0_compat; apply Rle_0_sqr). destruct (Rle_lt_or_eq_dec _ _ P) as [L|E]; [exact L|]. exfalso. match type of H with 0 < sqrt ?x => replace x with 0 in H by (etransitivity; [exact E|ring]) end. rewrite sqrt_0 in H. lra.
Qed.
(** The flux through a segment, in a parameter from 0 to 1 *)
Definition seg_flux (p : poly RS) (u v : pt) : R := cross u v * RInt (fun s => value (rdiv p) (fst u + s * (fst v - fst u)) (snd u + s * (snd v - snd u))) 0 1.
Lemma ex_seg p (u v : pt) a b : ex_RInt (fun s => value p (fst u + s * (fst v - fst u)) (snd u + s * (snd v - snd u))) a b.
Proof.
  apply (@ex_RInt_continuous R_CompleteNormedModule). intros s _. induction p as [|m p IH]; cbn [value]; [apply continuous_const|]. set (k := mcoef m : R). set (i := mx (malpha m)). set (j := my (malpha m)).
  apply (@continuous_plus _ R_AbsRing R_NormedModule (fun s => k * (fst u + s * (fst v - fst u)) ^ i * (snd u + s * (snd v - snd u)) ^ j)); [|exact IH]. apply (ex_derive_continuous (fun s => k * (fst u + s * (fst v - fst u)) ^ i * (snd u + s * (snd v - snd u)) ^ j)). auto_derive. trivial.
Qed.
Lemma straight_flux p o e u v : straight e u v -> 0 < pdist u v -> line_integral (poly_field p) o (traced line_X e) (seg_v u v) 0 (2 * PI) = o * seg_flux p u v.
Proof.
  intros S H. pose proof PI_RGT_0 as HP. unfold line_integral. set (f := fun s => value (rdiv p) (fst u + s * (fst v - fst u)) (snd u + s * (snd v - snd u))).
  transitivity (RInt (fun t => o * cross u v * (/ (2 * PI) * f (/ (2 * PI) * t + 0))) 0 (2 * PI)).
  - apply RInt_ext. intros t _. rewrite (flux_integrand p o _ _ t (seg_regular u v t H)). rewrite (straight_traced e u v t S). unfold f, pt_add, pt_scale, seg_v, pt_sub, cross, pt_scale. cbn [fst snd]. replace (/ (2 * PI) * t + 0) with (t / (2 * PI)) by (unfold Rdiv; ring). req. unfold Rdiv. ring.
  - pose proof (RInt_comp_lin (V:=R_CompleteNormedModule) f (/ (2 * PI)) 0 0 (2 * PI)) as X. replace (/ (2 * PI) * 0 + 0) with 0 in X by ring. replace (/ (2 * PI) * (2 * PI) + 0) with 1 in X by (field; lra). specialize (X (ex_seg (rdiv p) u v 0 1)).
    assert (E : ex_RInt (fun t => / (2 * PI) * f (/ (2 * PI) * t + 0)) 0 (2 * PI)).
    { apply (ex_RInt_comp_lin (V:=R_NormedModule) f (/ (2 * PI)) 0 0 (2 * PI)). replace (/ (2 * PI) * 0 + 0) with 0 by ring. replace (/ (2 * PI) * (2 * PI) + 0) with 1 by (field; lra). apply (ex_seg (rdiv p) u v 0 1). }
    etransitivity; [exact (RInt_scalR (fun t => / (2 * PI) * f (/ (2 * PI) * t + 0)) (o * cross u v) 0 (2 * PI) E)|]. unfold seg_flux. fold f. rewrite Rmult_assoc. f_equal. f_equal. exact X.
Qed.
Lemma seg_flux_rev p u v : seg_flux p v u = - seg_flux p u v.
Proof.
  unfold seg_flux. set (f := fun s => value (rdiv p) (fst u + s * (fst v - fst u)) (snd u + s * (snd v - snd u))).
  assert (E : RInt (fun s => value (rdiv p) (fst v + s * (fst u - fst v)) (snd v + s * (snd u - snd v))) 0 1 = RInt f 0 1).
  { pose proof (RInt_comp_lin (V:=R_CompleteNormedModule) f (-1) 1 0 1) as X. replace (-1 * 0 + 1) with 1 in X by ring. replace (-1 * 1 + 1) with 0 in X by ring. specialize (X (ex_seg (rdiv p) u v 1 0)).
    rewrite <- (opp_RInt_swap (V:=R_CompleteNormedModule) f) in X by apply (ex_seg (rdiv p) u v 0 1).
    assert (E1 : ex_RInt (fun y => f (-1 * y + 1)) 0 1). { apply (ex_RInt_ext (fun s => value (rdiv p) (fst v + s * (fst u - fst v)) (snd v + s * (snd u - snd v)))); [intros s _; unfold f; f_equal; ring|apply (ex_seg (rdiv p) v u 0 1)]. }
    pose proof (RInt_scalR (fun y => f (-1 * y + 1)) (-1) 0 1 E1) as X2. change (RInt (fun y => -1 * f (-1 * y + 1)) 0 1 = - RInt f 0 1) in X. rewrite X2 in X.
    rewrite (RInt_ext _ (fun y => f (-1 * y + 1))) by (intros s _; unfold f; f_equal; ring). change (@eq R (RInt (fun y => f (-1 * y + 1)) 0 1) (RInt f 0 1)). lra. }
  rewrite E. unfold cross. ring.
Qed.
(** The sides of a rectangle *)
Lemma seg_horizontal p a c y : seg_flux p (a, y) (c, y) = - RInt (fun x => y * value (rdiv p) x y) a c.
Proof.
  unfold seg_flux, cross. cbn [fst snd]. rewrite (RInt_scalR (fun x => value (rdiv p) x y) y a c (ex_value_x _ _ _ _)).
  set (f := fun x => value (rdiv p) x y). pose proof (RInt_comp_lin (V:=R_CompleteNormedModule) f (c - a) a 0 1) as X. replace ((c - a) * 0 + a) with a in X by ring. replace ((c - a) * 1 + a) with c in X by ring. specialize (X (ex_value_x (rdiv p) y a c)).
  assert (E1 : ex_RInt (fun s => f ((c - a) * s + a)) 0 1). { apply (ex_RInt_ext (fun s => value (rdiv p) (fst (a, y) + s * (fst (c, y) - fst (a, y))) (snd (a, y) + s * (snd (c, y) - snd (a, y))))); [intros s _; unfold f; cbn [fst snd]; f_equal; ring|apply (ex_seg (rdiv p) (a, y) (c, y) 0 1)]. }
  pose proof (RInt_scalR (fun s => f ((c - a) * s + a)) (c - a) 0 1 E1) as X2. change (RInt (fun s => (c - a) * f ((c - a) * s + a)) 0 1 = RInt f a c) in X. rewrite X2 in X. rewrite <- X.
  rewrite (RInt_ext _ (fun s => f ((c - a) * s + a))) by (intros s _; unfold f; f_equal; ring). req. ring.
Qed.
Lemma seg_vertical p x b d : seg_flux p (x, b) (x, d) = RInt (fun y => x * value (rdiv p) x y) b d.
Proof.
  unfold seg_flux, cross. cbn [fst snd]. rewrite (RInt_scalR (fun y => value (rdiv p) x y) x b d (ex_value_y _ _ _ _)).
  set (f := fun y => value (rdiv p) x y). pose proof (RInt_comp_lin (V:=R_CompleteNormedModule) f (d - b) b 0 1) as X. replace ((d - b) * 0 + b) with b in X by ring. replace ((d - b) * 1 + b) with d in X by ring. specialize (X (ex_value_y (rdiv p) x b d)).
  assert (E1 : ex_RInt (fun s => f ((d - b) * s + b)) 0 1). { apply (ex_RInt_ext (fun s => value (rdiv p) (fst (x, b) + s * (fst (x, d) - fst (x, b))) (snd (x, b) + s * (snd (x, d) - snd (x, b))))); [intros s _; unfold f; cbn [fst snd]; f_equal; ring|apply (ex_seg (rdiv p) (x, b) (x, d) 0 1)]. }
  pose proof (RInt_scalR (fun s => f ((d - b) * s + b)) (d - b) 0 1 E1) as X2. change (RInt (fun s => (d - b) * f ((d - b) * s + b)) 0 1 = RInt f b d) in X. rewrite X2 in X. rewrite <- X.
  rewrite (RInt_ext _ (fun s => f ((d - b) * s + b))) by (intros s _; unfold f; f_equal; ring). req. ring.
Qed.
Lemma rectangle_flux p a c b d : seg_flux p (a, b) (c, b) + seg_flux p (c, b) (c, d) + seg_flux p (c, d) (a, d) + seg_flux p (a, d) (a, b) = RInt (fun x => RInt (fun y => value p x y) b d) a c.
Proof.
  rewrite <- green_rectangle. rewrite (seg_flux_rev p (a, d) (c, d)), (seg_flux_rev p (a, b) (a, d)), !seg_horizontal, !seg_vertical. unfold xside, yside. ring.
Qed.

(** The end points of a straight edge, as an edge of a rectangle *)
Definition joined (e : edge) (t : R) : pt := match e_diary e with [SJoin a b] => seg_v (coord a) (coord b) t | _ => (0, 0) end.
Lemma straight_joined e u v : straight e u v -> joined e = seg_v u v.
Proof. intros (_ & _ & (a & b & Ed & <- & <-) & _). unfold joined. rewrite Ed. reflexivity. Qed.
Lemma pdist_sym u v : pdist u v = pdist v u.
Proof. unfold pdist. f_equal. ring. Qed.
Lemma runs_smooth z e u v : runs z e u v -> TOL <= pdist u v -> smooth_edge e line_X line_DX /\ velocity e line_X (joined e).
Proof.
  intros [[_ S]|[_ S]] D; rewrite (straight_joined _ _ _ S); (split; [apply (straight_smooth _ _ _ S); [rewrite pdist_sym; exact D|exact D] || (apply (straight_smooth _ _ _ S); first [exact D|rewrite pdist_sym; exact D])|apply straight_velocity, S]).
Qed.
Lemma runs_flux p z e u v : runs z e u v -> 0 < pdist u v -> line_integral (poly_field p) (side z e) (traced line_X e) (joined e) (fst (e_tb e)) (snd (e_tb e)) = seg_flux p u v.
Proof.
  intros [[Z0 S]|[Z0 S]] D; rewrite (straight_joined _ _ _ S); pose proof (proj1 (proj2 S)) as Et; rewrite Et; cbn [fst snd]; unfold side; destruct (Z.eqb_spec z (e_pos e)); try contradiction.
  - rewrite (straight_flux p 1 e u v S D). ring.
  - rewrite pdist_sym in D. rewrite (straight_flux p (-1) e v u S D), (seg_flux_rev p u v). ring.
Qed.

(** The boundary integral as a sum of cones *)
Lemma cone_edge p o e X DX Y' : smooth_edge e X DX -> velocity e X Y' -> line_integral (poly_field p) o (traced X e) Y' (fst (e_tb e)) (snd (e_tb e)) = o * cone_integral (peval RS p) (traced X e) Y' (fst (e_tb e)) (snd (e_tb e)).
Proof.
  intros (Hq & Ht & Hsp & HX & HDX & HR & HF) HV. destruct (C22_derivatives _ _ _ Hsp HX) as (DX' & DDX & HDX' & HDDX & HDer). rewrite HDX in HDX'. apply Ok_inj in HDX'. subst DX'.
  pose proof (diary_c_pos _ _ _ HF) as HS. set (S := diary_sim (X (fst (e_tb e))) (X (snd (e_tb e))) (e_diary e)) in *. set (Y1 := fun t => lin S (DX t)).
  assert (DY : forall t, pt_derive (traced X e) t (Y1 t)) by (intros t; apply sapp_derive, HDer). assert (DY1 : forall t, pt_derive Y1 t (lin S (DDX t))) by (intros t; apply lin_derive, HDer).
  assert (NY : forall t, fst (e_tb e) <= t <= snd (e_tb e) -> 0 < norm2 (Y1 t)). { intros t Hi. unfold Y1. rewrite norm2_lin. apply Rmult_lt_0_compat; [exact HS|apply HR, Hi]. }
  assert (EQ : forall t, fst (e_tb e) <= t <= snd (e_tb e) -> Y1 t = Y' t) by (intros t Hi; apply (derive_unique (traced X e) t); [apply DY|apply HV, Hi]).
  apply flux_cone; [lra|intros t Hi; rewrite <- EQ by exact Hi; apply NY, Hi|].
  apply (ex_RInt_ext (line_integrand (poly_field p) 1 (traced X e) Y1)).
  - intros t Hi. rewrite Rmin_left, Rmax_right in Hi by lra. rewrite flux_integrand by (apply NY; lra). rewrite <- EQ by lra. req. ring.
  - apply (@ex_RInt_continuous R_CompleteNormedModule). intros t Hi. rewrite Rmin_left, Rmax_right in Hi by lra. apply (field_continuous _ 1 _ _ t _ _ (poly_field_continuous p) (DY t) (DY1 t) (NY t Hi)).
Qed.
