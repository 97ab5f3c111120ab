(** C55: anti-Laplacians of harmonic functions. *)
From Coq Require Import List ZArith Reals Lia Lra Bool.
From Coquelicot Require Import Coquelicot.
From Verif Require Import PyBase PolyModel PolySpec BaryModel VertModel EdgeModel EdgeSpec EdgeProps4 ContourModel CellModel CellSpec CellProofs CellProps ContourProofs ContourProofs3 ContourProps CellProps3 TraceModel TraceSpec TraceProofs LocalProofs3 LocalModel LocalSpec LocalProofs LocalProofs2 LocalProofs5 FftModel FftSpec FftProofs FftProofs2 FftProofs3 FftProps AntilapModel AntilapSpec AntilapProofs AntilapProofs2 AntilapProofs3.
From Verif Require Import Annulus DiscCell.
Import List ListNotations.
Open Scope R_scope.

(** For every harmonic u with conjugate v and complex antiderivative r + is of u + iv, the code's
    array for (x1 r + x2 s)/4 holds that function on the boundary, its Laplacian is u, and the
    gradient whose normal component the code returns is its gradient. *)
Theorem C55_components contains H c ess (U : pt -> Prop) u v r s : ready contains H c -> boundary_edges H c ess -> conjugate U u v -> antiderivatives U u v r s ->
  exists g1 g2, laplacian U (fun x y => (x * r x y + y * s x y) / 4) g1 g2 u /\
  from_components H c (samples_of (concat ess) (at_smp r)) (samples_of (concat ess) (at_smp s)) (samples_of (concat ess) (at_smp u)) (samples_of (concat ess) (at_smp v)) =
  Ok (samples_of (concat ess) (at_smp (fun x y => (x * r x y + y * s x y) / 4)), samples_of (concat ess) (weighted_in sN g1 g2)).
Proof.
  intros Rd B C A. destruct (ready_uniform _ _ _ _ Rd B) as (F & _). exists (four1 r u v), (four2 s u v). split.
  - eapply lap_ext; [exact (four_lap U u v r s C A)|..]; try reflexivity. intros x y. unfold four. field.
  - rewrite (components_ok F). f_equal. apply f_equal2; [|reflexivity]. apply s_ext. intros q. unfold at_smp, four. field.
Qed.
Print Assumptions C55_components.

(** Away from the centre, what the code adds for the pair (b, c) has the rational function as
    Laplacian, and its gradient is the one the code uses ... *)
Theorem C55_rational (xi : pt) b c : laplacian (fun z => z <> xi) (fun x y => m_val xi (x, y) b c) (fun x y => m_x1 xi (x, y) b c) (fun x y => m_x2 xi (x, y) b c) (poles [(xi, (b, c))]).
Proof.
  eapply lap_ext; [exact (m_lap xi b c)|reflexivity|reflexivity|reflexivity|]. intros x y _. rewrite <- rat_poles, rat_cons. unfold rat, np_sum. cbn. ring.
Qed.
Print Assumptions C55_rational.
(** ... and what it adds for a logarithmic coefficient has log|x - xi| as Laplacian. *)
Theorem C55_logarithm (xi : pt) : laplacian (fun z => z <> xi) (fun x y => lam_val xi (x, y)) (fun x y => lam_x1 xi (x, y)) (fun x y => lam_x2 xi (x, y)) (fun x y => ln (sqrt ((x - fst xi)² + (y - snd xi)²))).
Proof. eapply lap_ext; [exact (lam_lap xi)|reflexivity|reflexivity|reflexivity|]. intros x y N. symmetry. apply log_y_sqrt, N. Qed.
Print Assumptions C55_logarithm.
(** The two sums that the code subtracts from psi and psi_hat are conjugate. *)
Theorem C55_conjugate hs : conjugate (fun z => Forall (fun h : pt * (R * R) => z <> fst h) hs) (poles hs) (poles_hat hs).
Proof. eapply conj_ext; [exact (rats_conj _ hs (fun z A => A))| |]; intros x y; symmetry; [apply rat_poles|apply rat_hat_poles]. Qed.
Print Assumptions C55_conjugate.

(** Along a curve that runs once around a centre in the negative direction, as the boundary of a hole
    does, the two line integrals of the code are those coefficients: - b and c times 2 pi. *)
Theorem C55_residues (xi : pt) b c (rho theta drho dtheta : R -> R) (T : R) :
  (forall t, 0 < rho t) -> (forall t, derivable_pt_lim rho t (drho t)) -> (forall t, derivable_pt_lim theta t (dtheta t)) -> (forall t, continuous drho t) -> (forall t, continuous dtheta t) -> rho T = rho 0 -> theta T = theta 0 - 2 * PI ->
  let x t := fst xi + rho t * cos (theta t) in let y t := snd xi + rho t * sin (theta t) in
  exists dx dy, (forall t, derivable_pt_lim x t (dx t) /\ derivable_pt_lim y t (dy t)) /\
  is_RInt (fun t => poles_hat [(xi, (b, c))] (x t) (y t) * dx t + poles [(xi, (b, c))] (x t) (y t) * dy t) 0 T (b * (-2 * PI)) /\
  is_RInt (fun t => poles [(xi, (b, c))] (x t) (y t) * dx t - poles_hat [(xi, (b, c))] (x t) (y t) * dy t) 0 T (c * (2 * PI)).
Proof.
  intros P Dr Dt Cr Ct Er Et x y.
  assert (Dr' : forall t, is_derive rho t (drho t)) by (intros t; apply is_derive_Reals, Dr). assert (Dt' : forall t, is_derive theta t (dtheta t)) by (intros t; apply is_derive_Reals, Dt).
  assert (Er' : forall t, ex_derive rho t) by (intros t; exists (drho t); apply Dr'). assert (Et' : forall t, ex_derive theta t) by (intros t; exists (dtheta t); apply Dt').
  assert (Er2 : forall t, Derive (fun x => rho x) t = drho t) by (intros t; apply is_derive_unique, Dr'). assert (Et2 : forall t, Derive (fun x => theta x) t = dtheta t) by (intros t; apply is_derive_unique, Dt').
  exists (fun t => drho t * cos (theta t) - rho t * sin (theta t) * dtheta t), (fun t => drho t * sin (theta t) + rho t * cos (theta t) * dtheta t). split; [|].
  - intros t. split; apply is_derive_Reals; unfold x, y; (auto_derive; [repeat split; auto|]); rewrite Er2, Et2; ring.
  - assert (Pn : forall t, rho t <> 0) by (intros t; specialize (P t); lra).
    assert (N : forall t, (x t - fst xi)² + (y t - snd xi)² = rho t * rho t) by (intros t; unfold x, y; replace (fst xi + rho t * cos (theta t) - fst xi) with (rho t * cos (theta t)) by ring; replace (snd xi + rho t * sin (theta t) - snd xi) with (rho t * sin (theta t)) by ring; pose proof (sin2_cos2 (theta t)) as Q; unfold Rsqr in *; transitivity (rho t * rho t * (sin (theta t) * sin (theta t) + cos (theta t) * cos (theta t))); [ring|rewrite Q; ring]).
    assert (X1 : forall t, x t - fst xi = rho t * cos (theta t)) by (intros t; unfold x; ring). assert (X2 : forall t, y t - snd xi = rho t * sin (theta t)) by (intros t; unfold y; ring).
    assert (SC : forall t, sin (theta t) * sin (theta t) = 1 - cos (theta t) * cos (theta t)) by (intros t; pose proof (sin2_cos2 (theta t)) as Q; unfold Rsqr in Q; lra).
    assert (K : forall k l, is_RInt (fun t => k * (drho t / rho t) + l * dtheta t) 0 T (l * (-2 * PI))).
    { intros k l. replace (l * (-2 * PI)) with (minus (k * ln (rho T) + l * theta T) (k * ln (rho 0) + l * theta 0)) by (unfold minus, plus, opp; cbn; rewrite Er, Et; ring).
      apply (is_RInt_derive (fun t => k * ln (rho t) + l * theta t)).
      - intros t _. auto_derive; [repeat split; auto|]. rewrite Er2, Et2. field. apply Pn.
      - intros t _. apply (continuous_plus (fun t => k * (drho t / rho t)) (fun t => l * dtheta t)); [|apply (continuous_mult (fun _ => l) dtheta); [apply continuous_const|apply Ct]]. apply (continuous_mult (fun _ => k) (fun t => drho t / rho t)); [apply continuous_const|]. apply (continuous_mult drho (fun t => / rho t)); [apply Cr|]. apply continuous_Rinv_comp; [|apply Pn]. apply (ex_derive_continuous (K := R_AbsRing) (V := R_NormedModule)), Er'. }
    split.
    + apply (is_RInt_ext (fun t => c * (drho t / rho t) + b * dtheta t)); [|apply K]. intros t _. unfold poles, poles_hat. cbn [map]. rewrite !sum_cons. change (sum_list []) with 0. rewrite !N, X1, X2. specialize (SC t). specialize (Pn t). set (C0 := cos (theta t)) in *. set (S0 := sin (theta t)) in *. cbn. field_simplify; [|exact Pn|exact Pn]. replace (S0 ^ 2) with (1 - C0 ^ 2) by (rewrite <- Rsqr_pow2; unfold Rsqr; lra). field. exact Pn.
    + replace (c * (2 * PI)) with ((- c) * (-2 * PI)) by ring. apply (is_RInt_ext (fun t => b * (drho t / rho t) + - c * dtheta t)); [|apply K]. intros t _. unfold poles, poles_hat. cbn [map]. rewrite !sum_cons. change (sum_list []) with 0. rewrite !N, X1, X2. specialize (SC t). specialize (Pn t). set (C0 := cos (theta t)) in *. set (S0 := sin (theta t)) in *. cbn. field_simplify; [|exact Pn|exact Pn]. replace (S0 ^ 2) with (1 - C0 ^ 2) by (rewrite <- Rsqr_pow2; unfold Rsqr; lra). field. exact Pn.
Qed.
Print Assumptions C55_residues.

Lemma anti_shift (U : pt -> Prop) u v r s k k' : antiderivatives U u v r s -> antiderivatives U u v (fun x y => r x y - k) (fun x y => s x y - k').
Proof.
  intros [A B]. split; intros x y I.
  - split; (eapply d_val; [apply d_minus; [apply A, I|apply d_const]|ring]).
  - split; (eapply d_val; [apply d_minus; [apply B, I|apply d_const]|ring]).
Qed.
(** A cell without holes: if the antiderivative is resolved by the samples, the code returns the
    boundary values and the weighted normal derivative of a function whose Laplacian is u. *)
Theorem C55_simply contains Nn H c ess lc (U : pt -> Prop) u v r s : ready contains H c -> boundary_edges H c ess -> c_holes c = 0%Z -> conjugate U u v -> antiderivatives U u v r s ->
  resolved_on (concat ess) (at_smp r) (weighted_in sT u (fun x y => - v x y)) -> resolved_on (concat ess) (at_smp s) (weighted_in sT v u) ->
  exists f g1 g2, laplacian U f g1 g2 u /\
  anti_laplacian Nn H c (samples_of (concat ess) (at_smp u)) (samples_of (concat ess) (at_smp v)) lc = Ok (samples_of (concat ess) (at_smp f), samples_of (concat ess) (weighted_in sN g1 g2)).
Proof.
  intros Rd B Hz C A Rr Rs. destruct (ready_uniform _ _ _ _ Rd B) as (F & NE & _). destruct (simply_ok F NE u v r s Hz (ready_nedges _ _ _ _ Rd B) Rr Rs) as (k & k' & E). cbv zeta in E.
  eexists _, _, _. split; [|unfold anti_laplacian; rewrite Hz; exact E]. apply four_lap; [exact C|apply anti_shift, A].
Qed.
Print Assumptions C55_simply.
(** A cell with holes, with either strategy: if the solver recovers the antiderivative of what
    remains without the rational functions, the code returns the boundary values and the weighted
    normal derivative of a function whose Laplacian is u plus the logarithms. *)
Theorem C55_multiply contains Nn H c ess xs lc (U : pt -> Prop) u v r s : ready contains H c -> boundary_edges H c ess -> (0 < c_holes c)%Z -> centers c xs -> List.length lc = Z.to_nat (c_holes c) ->
  conjugate U u v -> (forall z, U z -> Forall (fun xi => z <> xi) xs) ->
  let hs := combine xs (map (residue u v) (tl ess)) in let u0 := fun x y => u x y - poles hs x y in let v0 := fun x y => v x y - poles_hat hs x y in
  antiderivatives U u0 v0 r s -> solved Nn ess r u0 (fun x y => - v0 x y) -> solved Nn ess s v0 u0 ->
  exists f g1 g2, laplacian U f g1 g2 (fun x y => u x y + logs xs lc x y) /\
  anti_laplacian Nn H c (samples_of (concat ess) (at_smp u)) (samples_of (concat ess) (at_smp v)) lc = Ok (samples_of (concat ess) (at_smp f), samples_of (concat ess) (weighted_in sN g1 g2)).
Proof.
  intros Rd B Hp Cx Ll C Off hs u0 v0 A So So'. destruct (ready_uniform _ _ _ _ Rd B) as (F & NE & N & U').
  eexists _, _, _. split; [|unfold anti_laplacian; replace (Z.eqb (c_holes c) 0) with false by (symmetry; apply Z.eqb_neq; lia); exact (multiply_ok F NE U' Nn xs lc u v r s Cx Ll So So')]. fold hs. fold u0. fold v0.
  assert (Lx : List.length xs = List.length (map (residue u v) (tl ess)) /\ List.length xs = List.length lc). { rewrite map_length, (centers_length c xs Cx), Ll. destruct F as (FF & EH & _). rewrite EH. pose proof (Forall2_len _ _ _ FF) as LF. destruct ess; cbn [tl List.length] in *; split; lia. }
  destruct Lx as [L1 L2]. assert (Oh : forall z, U z -> Forall (fun h : hole => z <> fst (fst h)) (combine hs lc)).
  { intros z I. specialize (Off z I). rewrite Forall_forall in *. intros [[xi bc] al] In1. cbn [fst]. apply Off. apply in_combine_l in In1. unfold hs in In1. apply in_combine_l in In1. exact In1. }
  assert (Cj : conjugate U u0 v0).
  { assert (P : conjugate U (poles hs) (poles_hat hs)). { eapply conj_sub; [|exact (C55_conjugate hs)]. intros z I. specialize (Off z I). rewrite Forall_forall in *. intros [xi bc] In1. cbn [fst]. apply Off. unfold hs in In1. apply in_combine_l in In1. exact In1. }
    eapply conj_ext; [exact (conj_add U _ _ _ _ C (conj_scal U (-1) _ _ P))| |]; intros x y; unfold u0, v0; ring. }
  eapply lap_ext; [exact (lap_add U _ _ _ _ _ _ _ _ (four_lap U u0 v0 r s Cj A) (holes_lap U (combine hs lc) Oh))|reflexivity|reflexivity|reflexivity|].
  intros x y I. pose proof (h_lap_spec xs _ lc x y L1 L2 (Off _ I)) as E. change (combine xs (map (residue u v) (tl ess))) with hs in E. transitivity (u0 x y + (poles hs x y + logs xs lc x y)); [unfold u0; ring|]. rewrite <- E; reflexivity.
Qed.
Print Assumptions C55_multiply.

(** Example: on the disc around (1, 0), u = x and v = y, with antiderivative (x + iy)^2/2 *)
Lemma disc_contour e : e_smp e = map (fun i => disc_smp (angle i)) (seq 0 9) -> contour_smp [e] = map (fun i => disc_smp (angle i)) (seq 0 8).
Proof. intros E. unfold contour_smp, open_smp. cbn [map concat]. rewrite E, app_nil_r. reflexivity. Qed.
Lemma disc_nodes e (f : sample -> R) (g : R -> R) : e_smp e = map (fun i => disc_smp (angle i)) (seq 0 9) -> (forall t, f (disc_smp t) = g t) -> samples_of [e] f = samples (2 * PI * INR (List.length [e])) (List.length (contour_smp [e])) g.
Proof.
  intros E G. unfold samples_of. rewrite (disc_contour e E). unfold samples. rewrite map_map, !map_length, seq_length. apply map_ext. intros i. rewrite G. f_equal. unfold angle. cbn [List.length]. simpl (INR 8). simpl (INR 1). field.
Qed.
Lemma trig_terms L T t d : L <> 0 -> d = trig L (map (dfull L) T) t -> derivable_pt_lim (trig L T) t d.
Proof. intros LZ ->. apply trig_d, LZ. Qed.
Example C55_example : exists H c e, unit_disc H c e /\ exists f g1 g2, laplacian (fun _ => True) f g1 g2 (fun x y => x) /\
  forall Nn, anti_laplacian Nn H c (samples_of [e] (at_smp (fun x y => x))) (samples_of [e] (at_smp (fun x y => y))) [] = Ok (samples_of [e] (at_smp f), samples_of [e] (weighted_in sN g1 g2)).
Proof.
  destruct unit_disc_exists as (H & c & e & D). exists H, c, e. split; [exact D|]. destruct D as (Rd & B & En & Es & Hz). pose proof PI_neq0 as PN.
  set (r := fun x y : R => (x * x - y * y) / 2). set (s := fun x y : R => x * y).
  assert (C : conjugate (fun _ => True) (fun x y => x) (fun x y => y)). { exists (fun _ _ => 1), (fun _ _ => 0). split; intros x y _; split; try apply d_id; try apply d_const. eapply d_val; [apply d_const|ring]. }
  assert (A : antiderivatives (fun _ => True) (fun x y => x) (fun x y => y) r s). { split; intros x y _; split; apply is_derive_Reals; unfold r, s; auto_derive; try exact I; field. }
  assert (T2 : forall t, cos (2 * t) = cos t * cos t - sin t * sin t /\ sin (2 * t) = 2 * sin t * cos t) by (intros t; split; [apply cos_2a|apply sin_2a]).
  assert (F2 : forall t, 2 * PI * IZR 2 / (2 * PI * INR (List.length [e])) * t = 2 * t) by (intros t; cbn; field; exact PN). assert (F1 : forall t, 2 * PI * IZR 1 / (2 * PI * INR (List.length [e])) * t = t) by (intros t; cbn; field; exact PN). assert (F0 : forall t, 2 * PI * IZR 0 / (2 * PI * INR (List.length [e])) * t = 0) by (intros t; cbn; field; exact PN).
  assert (LZ : 2 * PI * INR (List.length [e]) <> 0) by (cbn; lra). assert (L8 : List.length (contour_smp [e]) = 8%nat) by (rewrite (disc_contour e Es), map_length, seq_length; reflexivity).
  assert (Rr : resolved_on [e] (at_smp r) (weighted_in sT (fun x y => x) (fun x y => - y))).
  { exists [(0%Z, (1 / 2, 0)); (1%Z, (1, 0)); (2%Z, (1 / 2, 0))], (fun t => - sin t - sin (2 * t)). rewrite L8. split; [repeat constructor; cbn; lia|]. rewrite <- L8. split; [|split].
    - apply disc_nodes; [exact Es|]. intros t. unfold trig. cbn [map]. rewrite !sum_cons. change (sum_list []) with 0. cbn [tval_at]. rewrite F0, F1, F2, cos_0, sin_0. destruct (T2 t) as [-> _]. unfold at_smp, r, disc_smp. cbn [sx fst snd]. pose proof (sin2_cos2 t) as Q. unfold Rsqr in Q. nra.
    - intros t. apply trig_terms; [exact LZ|]. unfold trig. cbn [map dfull]. rewrite !sum_cons. change (sum_list []) with 0. cbn [tval_at]. rewrite F0, F1, F2, sin_0, cos_0. cbn [List.length INR]. field. exact PN.
    - apply disc_nodes; [exact Es|]. intros t. destruct (T2 t) as [_ ->]. unfold weighted_in, at_smp, disc_smp. cbn [sx sT sw fst snd]. ring. }
  assert (Rs : resolved_on [e] (at_smp s) (weighted_in sT (fun x y => y) (fun x y => x))).
  { exists [(1%Z, (0, 1)); (2%Z, (0, 1 / 2))], (fun t => cos t + cos (2 * t)). rewrite L8. split; [repeat constructor; cbn; lia|]. rewrite <- L8. split; [|split].
    - apply disc_nodes; [exact Es|]. intros t. unfold trig. cbn [map]. rewrite !sum_cons. change (sum_list []) with 0. cbn [tval_at]. rewrite F1, F2. destruct (T2 t) as [_ ->]. unfold at_smp, s, disc_smp. cbn [sx fst snd]. field.
    - intros t. apply trig_terms; [exact LZ|]. unfold trig. cbn [map dfull]. rewrite !sum_cons. change (sum_list []) with 0. cbn [tval_at]. rewrite F1, F2. cbn [List.length INR]. field. exact PN.
    - apply disc_nodes; [exact Es|]. intros t. destruct (T2 t) as [-> _]. unfold weighted_in, at_smp, disc_smp. cbn [sx sT sw fst snd]. ring. }
  destruct (ready_uniform _ _ _ _ Rd B) as (F & NE & _). destruct (simply_ok F NE (fun x y => x) (fun x y => y) r s Hz (ready_nedges _ _ _ _ Rd B) Rr Rs) as (k & k' & E). cbv zeta in E.
  eexists _, _, _. split; [|intros Nn; unfold anti_laplacian; rewrite Hz; exact E]. apply four_lap; [exact C|apply anti_shift, A].
Qed.
