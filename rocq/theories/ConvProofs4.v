(** Proofs about the convergence of integrals (C79): the flux through a circle is the integral over the disc. *)
From Coq Require Import List ZArith Reals Lia Lra Psatz Bool String Permutation.
From Coquelicot Require Import Coquelicot.
From Verif Require Import PyBase PolyModel PolySpec PolyProofs PolyProofs2 PolyProofs4 IntPolyModel IntPolyProofs BaryModel BBoxModel QuadModel QuadSpec QuadProofs QuadProps CurveModel CurveSpec CurveProps VertModel EdgeModel ContourModel CellModel CellSpec EdgeSpec EdgeProofs EdgeProofs2 EdgeProps EdgeProps3 EdgeProps4 CellProofs CellProps ContourProofs ContourProofs3 ContourProofs4 ContourProps CellProps2 CellProps3 Annulus LocalModel LocalSpec LocalProps2 ConvSpec ConvProofs ConvProofs2 ConvProps ConvProps2 ConvProofs3.
Import List ListNotations.
Open Scope R_scope.

(** ** Functions of two variables *)
Lemma cont_1d (h : R -> R -> R) r t : continuity_2d_pt h r t -> continuous (h r) t.
Proof.
  intros H. apply continuity_pt_filterlim. intros eps He. destruct (H (mkposreal eps He)) as (d & Hd). exists d. split; [apply cond_pos|]. intros x [_ Hx]. apply Hd; [rewrite Rminus_eq_0, Rabs_R0; apply cond_pos|exact Hx].
Qed.
Lemma ex_1d (h : R -> R -> R) r a b : (forall t, continuity_2d_pt h r t) -> ex_RInt (h r) a b.
Proof. intros H. apply (@ex_RInt_continuous R_CompleteNormedModule). intros t _. apply cont_1d, H. Qed.
Lemma derive_RInt (h h' : R -> R -> R) r a b : (forall r t, is_derive (fun r => h r t) r (h' r t)) -> (forall r t, continuity_2d_pt h r t) -> (forall r t, continuity_2d_pt h' r t) ->
  is_derive (fun r => RInt (h r) a b) r (RInt (h' r) a b).
Proof.
  intros D C C'. rewrite (RInt_ext (h' r) (fun t => Derive (fun u => h u t) r)) by (intros t _; symmetry; apply is_derive_unique, D).
  apply (is_derive_RInt_param h a b r).
  - apply filter_forall. intros x t _. eexists. apply D.
  - intros t _. apply (continuity_2d_pt_ext h'); [intros x y; symmetry; apply is_derive_unique, D|apply C'].
  - apply filter_forall. intros x. apply ex_1d. intros t. apply C.
Qed.

(** ** Polynomials in polar coordinates *)
Section Polar.
Variable c : pt.
Definition px (r t : R) : R := fst c + r * cos t.
Definition py (r t : R) : R := snd c + r * sin t.
Lemma cont_r r t : continuity_2d_pt (fun r _ => r) r t. Proof. apply continuity_2d_pt_id1. Qed.
Lemma cont_cos r t : continuity_2d_pt (fun _ t => cos t) r t.
Proof. apply (continuity_1d_2d_pt_comp cos (fun _ t => t)); [apply continuity_cos|apply continuity_2d_pt_id2]. Qed.
Lemma cont_sin r t : continuity_2d_pt (fun _ t => sin t) r t.
Proof. apply (continuity_1d_2d_pt_comp sin (fun _ t => t)); [apply continuity_sin|apply continuity_2d_pt_id2]. Qed.
Lemma cont_px r t : continuity_2d_pt px r t.
Proof. apply (continuity_2d_pt_plus (fun _ _ => fst c) (fun r t => r * cos t)); [apply continuity_2d_pt_const|]. apply (continuity_2d_pt_mult (fun r _ => r) (fun _ t => cos t)); [apply cont_r|apply cont_cos]. Qed.
Lemma cont_py r t : continuity_2d_pt py r t.
Proof. apply (continuity_2d_pt_plus (fun _ _ => snd c) (fun r t => r * sin t)); [apply continuity_2d_pt_const|]. apply (continuity_2d_pt_mult (fun r _ => r) (fun _ t => sin t)); [apply cont_r|apply cont_sin]. Qed.
Lemma cont_pow2 (f : R -> R -> R) k r t : continuity_2d_pt f r t -> continuity_2d_pt (fun r t => f r t ^ k) r t.
Proof. intros H. induction k as [|k IH]; cbn [pow]; [apply continuity_2d_pt_const|]. apply (continuity_2d_pt_mult f (fun r t => f r t ^ k)); assumption. Qed.
Lemma cont_value p r t : continuity_2d_pt (fun r t => value p (px r t) (py r t)) r t.
Proof.
  induction p as [|m p IH]; cbn [value]; [apply continuity_2d_pt_const|]. set (k := mcoef m : R). set (i := mx (malpha m)). set (j := my (malpha m)).
  apply (continuity_2d_pt_plus (fun r t => k * px r t ^ i * py r t ^ j) (fun r t => value p (px r t) (py r t))); [|exact IH].
  apply (continuity_2d_pt_mult (fun r t => k * px r t ^ i) (fun r t => py r t ^ j)); [|apply cont_pow2, cont_py]. apply (continuity_2d_pt_mult (fun _ _ => k) (fun r t => px r t ^ i)); [apply continuity_2d_pt_const|apply cont_pow2, cont_px].
Qed.
Lemma value_chain p (x y : R -> R) s x' y' : is_derive x s x' -> is_derive y s y' ->
  is_derive (fun s => value p (x s) (y s)) s (value (map (m_dx RS) p) (x s) (y s) * x' + value (map (m_dy RS) p) (x s) (y s) * y').
Proof.
  intros Dx Dy. induction p as [|m p IH]; cbn [map value]; [replace (0 * x' + 0 * y') with 0 by ring; apply (@is_derive_const R_AbsRing R_NormedModule)|].
  set (A := value (map (m_dx RS) p) (x s) (y s)) in *. set (B := value (map (m_dy RS) p) (x s) (y s)) in *.
  match goal with |- is_derive _ _ ?v => replace v with ((mcoef (m_dx RS m) * x s ^ mx (malpha (m_dx RS m)) * y s ^ my (malpha (m_dx RS m)) * x' + mcoef (m_dy RS m) * x s ^ mx (malpha (m_dy RS m)) * y s ^ my (malpha (m_dy RS m)) * y') + (A * x' + B * y')) by (cbn; ring) end.
  apply (@is_derive_plus R_AbsRing R_NormedModule (fun s => mcoef m * x s ^ mx (malpha m) * y s ^ my (malpha m)) (fun s => value p (x s) (y s))); [|exact IH].
  destruct m as [[a b] k]. cbn [malpha mx my mcoef]. set (kr := k : R). assert (Dxe : is_derive (fun s => x s) s x') by exact Dx. assert (Dye : is_derive (fun s => y s) s y') by exact Dy.
  auto_derive; [repeat split; eexists; eassumption|]. replace (Derive (fun s => x s) s) with x' by (symmetry; apply is_derive_unique; exact Dx). replace (Derive (fun s => y s) s) with y' by (symmetry; apply is_derive_unique; exact Dy).
  unfold m_dx, m_dy. cbn [malpha mx my mcoef]. destruct a as [|a], b as [|b]; cbn [mcoef malpha mx my szero smul sofZ RS Init.Nat.pred]; rewrite <- ?INR_IZR_INZ; fold kr; cbn [pow INR]; try ring.
  all: cbn; ring.
Qed.

Variable p : poly RS.
Let g (x y : R) : R := value (rdiv p) x y.
Let gx (x y : R) : R := value (map (m_dx RS) (rdiv p)) x y.
Let gy (x y : R) : R := value (map (m_dy RS) (rdiv p)) x y.
(** The flux through the circle of radius [r], per angle, its derivative, and the flux along the circle *)
Definition across (r t : R) : R := r * ((px r t * cos t + py r t * sin t) * g (px r t) (py r t)).
Definition across' (r t : R) : R :=
  (px r t * cos t + py r t * sin t) * g (px r t) (py r t) + r * ((cos t * cos t + sin t * sin t) * g (px r t) (py r t) + (px r t * cos t + py r t * sin t) * (gx (px r t) (py r t) * cos t + gy (px r t) (py r t) * sin t)).
Definition along (r t : R) : R := (py r t * cos t - px r t * sin t) * g (px r t) (py r t).
Definition along' (r t : R) : R := r * (value p (px r t) (py r t)) - across' r t.
Lemma across_rule (U V G : R -> R) (r ct st u v w : R) : is_derive U r u -> is_derive V r v -> is_derive G r w ->
  is_derive (fun r => r * ((U r * ct + V r * st) * G r)) r ((U r * ct + V r * st) * G r + r * ((u * ct + v * st) * G r + (U r * ct + V r * st) * w)).
Proof.
  intros Dx Dy Dg. auto_derive; [repeat split; first [eexists; exact Dx|eexists; exact Dy|eexists; exact Dg]|].
  replace (Derive (fun x => U x) r) with u by (symmetry; apply is_derive_unique; exact Dx). replace (Derive (fun x => V x) r) with v by (symmetry; apply is_derive_unique; exact Dy). replace (Derive (fun x => G x) r) with w by (symmetry; apply is_derive_unique; exact Dg). ring.
Qed.
Lemma along_rule (U V G : R -> R) (t u v w : R) : is_derive U t u -> is_derive V t v -> is_derive G t w ->
  is_derive (fun t => (V t * cos t - U t * sin t) * G t) t ((v * cos t - V t * sin t - (u * sin t + U t * cos t)) * G t + (V t * cos t - U t * sin t) * w).
Proof.
  intros Dx Dy Dg. auto_derive; [repeat split; first [eexists; exact Dx|eexists; exact Dy|eexists; exact Dg]|].
  replace (Derive (fun x => U x) t) with u by (symmetry; apply is_derive_unique; exact Dx). replace (Derive (fun x => V x) t) with v by (symmetry; apply is_derive_unique; exact Dy). replace (Derive (fun x => G x) t) with w by (symmetry; apply is_derive_unique; exact Dg). ring.
Qed.
Lemma across_derive (r t : R) : is_derive (fun r => across r t) r (across' r t).
Proof.
  assert (Dx : is_derive (fun r => px r t) r (cos t)) by (unfold px; auto_derive; [trivial|ring]). assert (Dy : is_derive (fun r => py r t) r (sin t)) by (unfold py; auto_derive; [trivial|ring]).
  exact (across_rule (fun r => px r t) (fun r => py r t) (fun r => g (px r t) (py r t)) r (cos t) (sin t) _ _ _ Dx Dy (value_chain (rdiv p) (fun r => px r t) (fun r => py r t) r _ _ Dx Dy)).
Qed.
Lemma along_derive (r t : R) : is_derive (fun t => along r t) t (along' r t).
Proof.
  assert (Dx : is_derive (fun t => px r t) t (- r * sin t)) by (unfold px; auto_derive; [trivial|ring]). assert (Dy : is_derive (fun t => py r t) t (r * cos t)) by (unfold py; auto_derive; [trivial|ring]).
  pose proof (along_rule (fun t => px r t) (fun t => py r t) (fun t => g (px r t) (py r t)) t _ _ _ Dx Dy (value_chain (rdiv p) (fun t => px r t) (fun t => py r t) t _ _ Dx Dy)) as X. cbv beta in X.
  refine (eq_rect _ (fun v => is_derive (fun t => along r t) t v) X _ _). unfold along', across'. rewrite <- (euler p (px r t) (py r t)). fold (gx (px r t) (py r t)) (gy (px r t) (py r t)) (g (px r t) (py r t)).
  assert (Q : sin t * sin t = 1 - cos t * cos t) by (pose proof (sin2_cos2 t) as Q; unfold Rsqr in Q; lra). set (a := gx _ _). set (b := gy _ _). set (d := g _ _). set (x := px r t). set (y := py r t). set (s := sin t) in *. set (k := cos t) in *. req.
  transitivity ((r * k * k - y * s + r * (s * s) - x * k) * d + (y * k * r * (b * k - a * s) - x * r * (k * s * b - (s * s) * a))); [ring|]. rewrite Q.
  transitivity (r * (2 * d + x * a + y * b) - ((x * k + y * s) * d + r * ((k * k + (1 - k * k)) * d + (x * k * (a * k + b * s) + y * (s * k * a + (1 - k * k) * b))))); [ring|]. rewrite <- Q. ring.
Qed.
Lemma cont_g q r t : continuity_2d_pt (fun r t => value q (px r t) (py r t)) r t. Proof. apply cont_value. Qed.
Lemma cont_radial r t : continuity_2d_pt (fun r t => px r t * cos t + py r t * sin t) r t.
Proof. apply (continuity_2d_pt_plus (fun r t => px r t * cos t) (fun r t => py r t * sin t)); [apply (continuity_2d_pt_mult px (fun _ t => cos t)); [apply cont_px|apply cont_cos]|apply (continuity_2d_pt_mult py (fun _ t => sin t)); [apply cont_py|apply cont_sin]]. Qed.
Lemma across_cont r t : continuity_2d_pt across r t.
Proof. apply (continuity_2d_pt_mult (fun r _ => r) (fun r t => (px r t * cos t + py r t * sin t) * g (px r t) (py r t))); [apply cont_r|]. apply (continuity_2d_pt_mult (fun r t => px r t * cos t + py r t * sin t) (fun r t => g (px r t) (py r t))); [apply cont_radial|apply cont_value]. Qed.
Lemma across_cont' r t : continuity_2d_pt across' r t.
Proof.
  apply (continuity_2d_pt_plus (fun r t => (px r t * cos t + py r t * sin t) * g (px r t) (py r t)) (fun r t => r * ((cos t * cos t + sin t * sin t) * g (px r t) (py r t) + (px r t * cos t + py r t * sin t) * (gx (px r t) (py r t) * cos t + gy (px r t) (py r t) * sin t)))).
  - apply (continuity_2d_pt_mult (fun r t => px r t * cos t + py r t * sin t) (fun r t => g (px r t) (py r t))); [apply cont_radial|apply cont_value].
  - apply (continuity_2d_pt_mult (fun r _ => r) (fun r t => (cos t * cos t + sin t * sin t) * g (px r t) (py r t) + (px r t * cos t + py r t * sin t) * (gx (px r t) (py r t) * cos t + gy (px r t) (py r t) * sin t))); [apply cont_r|].
    apply (continuity_2d_pt_plus (fun r t => (cos t * cos t + sin t * sin t) * g (px r t) (py r t)) (fun r t => (px r t * cos t + py r t * sin t) * (gx (px r t) (py r t) * cos t + gy (px r t) (py r t) * sin t))).
    + apply (continuity_2d_pt_mult (fun _ t => cos t * cos t + sin t * sin t) (fun r t => g (px r t) (py r t))); [|apply cont_value]. apply (continuity_2d_pt_plus (fun _ t => cos t * cos t) (fun _ t => sin t * sin t)); [apply (continuity_2d_pt_mult (fun _ t => cos t) (fun _ t => cos t)); apply cont_cos|apply (continuity_2d_pt_mult (fun _ t => sin t) (fun _ t => sin t)); apply cont_sin].
    + apply (continuity_2d_pt_mult (fun r t => px r t * cos t + py r t * sin t) (fun r t => gx (px r t) (py r t) * cos t + gy (px r t) (py r t) * sin t)); [apply cont_radial|].
      apply (continuity_2d_pt_plus (fun r t => gx (px r t) (py r t) * cos t) (fun r t => gy (px r t) (py r t) * sin t)); [apply (continuity_2d_pt_mult (fun r t => gx (px r t) (py r t)) (fun _ t => cos t)); [apply cont_value|apply cont_cos]|apply (continuity_2d_pt_mult (fun r t => gy (px r t) (py r t)) (fun _ t => sin t)); [apply cont_value|apply cont_sin]].
Qed.
Definition shell (r t : R) : R := value p (px r t) (py r t) * r.
Lemma shell_cont r t : continuity_2d_pt shell r t.
Proof. apply (continuity_2d_pt_mult (fun r t => value p (px r t) (py r t)) (fun r _ => r)); [apply cont_value|apply cont_r]. Qed.
Lemma along_cont' r t : continuity_2d_pt along' r t.
Proof. apply (continuity_2d_pt_minus (fun r t => r * value p (px r t) (py r t)) across'); [|apply across_cont']. apply (continuity_2d_pt_mult (fun r _ => r) (fun r t => value p (px r t) (py r t))); [apply cont_r|apply cont_value]. Qed.
(** The flux along a whole turn is zero. *)
Lemma shell_turn r : RInt (across' r) 0 (2 * PI) = RInt (shell r) 0 (2 * PI).
Proof.
  assert (Z : is_RInt (along' r) 0 (2 * PI) (minus (along r (2 * PI)) (along r 0))). { apply (is_RInt_derive (along r) (along' r)); intros t _; [apply along_derive|apply cont_1d, along_cont']. }
  assert (P0 : along r (2 * PI) = along r 0) by (unfold along, px, py; rewrite cos_2PI, sin_2PI, cos_0, sin_0; reflexivity). rewrite P0 in Z.
  apply (is_RInt_unique (V:=R_CompleteNormedModule)) in Z. assert (Z0 : RInt (along' r) 0 (2 * PI) = 0) by (etransitivity; [exact Z|]; unfold minus, plus, opp; cbn; ring).
  assert (E1 : ex_RInt (shell r) 0 (2 * PI)) by (apply (ex_1d shell); intros; apply shell_cont). assert (E2 : ex_RInt (across' r) 0 (2 * PI)) by (apply (ex_1d across'); intros; apply across_cont').
  assert (X : RInt (along' r) 0 (2 * PI) = RInt (shell r) 0 (2 * PI) - RInt (across' r) 0 (2 * PI)).
  { rewrite (RInt_ext _ (fun t => minus (shell r t) (across' r t))) by (intros t _; unfold along', shell; req; unfold minus, plus, opp; cbn; ring). apply (RInt_minus (V:=R_CompleteNormedModule) (shell r) (across' r) 0 (2 * PI) E1 E2). }
  req. lra.
Qed.
Lemma shell_derive r : ex_derive (fun r => RInt (shell r) 0 (2 * PI)) r.
Proof.
  eexists. apply (derive_RInt shell (fun r t => (value (map (m_dx RS) p) (px r t) (py r t) * cos t + value (map (m_dy RS) p) (px r t) (py r t) * sin t) * r + value p (px r t) (py r t) * 1)).
  - clear r. intros r t. assert (Dx : is_derive (fun r => px r t) r (cos t)) by (unfold px; auto_derive; [trivial|ring]). assert (Dy : is_derive (fun r => py r t) r (sin t)) by (unfold py; auto_derive; [trivial|ring]).
    apply (is_derive_mult (fun r => value p (px r t) (py r t)) (fun r => r) r _ 1); [exact (value_chain p (fun r => px r t) (fun r => py r t) r _ _ Dx Dy)|exact (@is_derive_id R_AbsRing r)|intros; apply Rmult_comm].
  - apply shell_cont.
  - clear r. intros r t. apply (continuity_2d_pt_plus (fun r t => (value (map (m_dx RS) p) (px r t) (py r t) * cos t + value (map (m_dy RS) p) (px r t) (py r t) * sin t) * r) (fun r t => value p (px r t) (py r t) * 1)).
    + apply (continuity_2d_pt_mult (fun r t => value (map (m_dx RS) p) (px r t) (py r t) * cos t + value (map (m_dy RS) p) (px r t) (py r t) * sin t) (fun r _ => r)); [|apply cont_r].
      apply (continuity_2d_pt_plus (fun r t => value (map (m_dx RS) p) (px r t) (py r t) * cos t) (fun r t => value (map (m_dy RS) p) (px r t) (py r t) * sin t)); [apply (continuity_2d_pt_mult (fun r t => value (map (m_dx RS) p) (px r t) (py r t)) (fun _ t => cos t)); [apply cont_value|apply cont_cos]|apply (continuity_2d_pt_mult (fun r t => value (map (m_dy RS) p) (px r t) (py r t)) (fun _ t => sin t)); [apply cont_value|apply cont_sin]].
    + apply (continuity_2d_pt_mult (fun r t => value p (px r t) (py r t)) (fun _ _ => 1)); [apply cont_value|apply continuity_2d_pt_const].
Qed.
Lemma disc_flux rad : RInt (across rad) 0 (2 * PI) = RInt (fun r => RInt (shell r) 0 (2 * PI)) 0 rad.
Proof.
  symmetry. apply is_RInt_unique. assert (Z : RInt (across 0) 0 (2 * PI) = 0) by (rewrite (RInt_ext _ (fun _ => 0)) by (intros t _; unfold across; req; ring); apply RInt_0).
  replace (RInt (across rad) 0 (2 * PI)) with (minus (RInt (across rad) 0 (2 * PI)) (RInt (across 0) 0 (2 * PI))) by (rewrite Z; unfold minus, plus, opp; cbn; ring).
  apply (is_RInt_derive (fun r => RInt (across r) 0 (2 * PI)) (fun r => RInt (shell r) 0 (2 * PI))); intros r _.
  - rewrite <- shell_turn. apply (derive_RInt across across'); [apply across_derive|apply across_cont|apply across_cont'].
  - apply (ex_derive_continuous (fun r => RInt (shell r) 0 (2 * PI))), shell_derive.
Qed.
End Polar.

(** ** Circular edges *)
Definition ring_X (rad : R) (t : R) : pt := (rad * cos t, rad * sin t).
Definition ring_DX (rad : R) (t : R) : pt := (- rad * sin t, rad * cos t).
Lemma round_traced e c rad t : round_edge e c rad -> traced (ring_X rad) e t = (px c rad t, py c rad t).
Proof.
  intros (_ & Et & _ & _ & (a & Ed & Ea) & _). unfold traced. rewrite Et, Ed. cbn [fst snd diary_sim step_sim]. rewrite Ea. unfold ring_X, sapp, sim_comp, sim_id, sapp, lin, pt_mul, pt_add. cbn [s_c s_d s_flip xorb fst snd]. unfold px, py. f_equal; ring.
Qed.
Lemma round_velocity e c rad : round_edge e c rad -> velocity e (ring_X rad) (ring_DX rad).
Proof.
  intros S t _. split.
  - apply (is_derive_ext (fun t => px c rad t)); [intros s; rewrite (round_traced _ _ _ _ S); reflexivity|]. unfold px, ring_DX. cbn [fst snd]. auto_derive; [trivial|]. ring.
  - apply (is_derive_ext (fun t => py c rad t)); [intros s; rewrite (round_traced _ _ _ _ S); reflexivity|]. unfold py, ring_DX. cbn [fst snd]. auto_derive; [trivial|]. ring.
Qed.
Lemma ring_norm rad t : 0 < rad -> norm2 (ring_DX rad t) = rad * rad.
Proof. intros H. unfold norm2, ring_DX. cbn [fst snd]. pose proof (sin2_cos2 t) as Q. unfold Rsqr in Q. replace (- rad * sin t * (- rad * sin t) + rad * cos t * (rad * cos t)) with (rad * rad * (sin t * sin t + cos t * cos t)) by ring. rewrite Q. ring. Qed.
Lemma round_smooth e c rad : round_edge e c rad -> smooth_edge e (ring_X rad) (ring_DX rad).
Proof.
  intros (Ec & Et & Er & Hr & (a & Ed & Ea) & Eq). pose proof PI_RGT_0 as HP. unfold smooth_edge. rewrite Ec, Et, Ed. split; [exact Eq|]. split; [cbn; lra|]. split; [exact I|]. cbn [cX cDX]. rewrite Er. split; [reflexivity|]. split; [reflexivity|]. split.
  - intros t _. rewrite ring_norm by exact Hr. nra.
  - cbn. repeat split.
Qed.
Lemma round_flux p o e c rad : round_edge e c rad -> line_integral (poly_field p) o (traced (ring_X rad) e) (ring_DX rad) (fst (e_tb e)) (snd (e_tb e)) = o * disc_integral (peval RS p) c rad.
Proof.
  intros S. pose proof S as (_ & Et & _ & Hr & _). rewrite Et. cbn [fst snd]. unfold line_integral, disc_integral.
  transitivity (RInt (fun t => o * across c p rad t) 0 (2 * PI)).
  - apply RInt_ext. intros t _. rewrite flux_integrand by (rewrite ring_norm by exact Hr; nra). rewrite (round_traced _ _ _ _ S). unfold across, cross, ring_DX. cbn [fst snd]. req. ring.
  - etransitivity; [exact (RInt_scalR (across c p rad) o 0 (2 * PI) (ex_1d (across c p) rad 0 (2 * PI) (across_cont c p rad)))|]. f_equal. rewrite disc_flux. apply RInt_ext. intros r _. apply RInt_ext. intros t _. unfold shell. rewrite peval_value. reflexivity.
Qed.
