(** A concrete cell with a hole for examples: between the circle of radius 4 around 0 and the circle
    of radius 1 around (1, 0), eight samples each. *)
From Coq Require Import List ZArith Reals Lia Lra Bool String Permutation.
From Verif Require Import PyBase PolyModel PolySpec BaryModel QuadModel CurveModel VertModel EdgeModel EdgeSpec EdgeProofs EdgeProps EdgeProps3 EdgeProps4 ContourModel CellModel CellSpec CellProofs CellProps ContourProofs ContourProofs2 ContourProofs3 ContourProps InteriorProofs ContourProofs4 CellProofs2 Annulus CellProps2 CellProps3 CellProps4 CellProps5 DiscCell LocalSpec.
Import List ListNotations.
Open Scope R_scope.

Definition velocity (s : sample) : pt := (fst (sT s) * sw s, snd (sT s) * sw s).
Lemma raw_velocity X Nn k x ddx r t : 0 < r -> let q := raw_sample x (1 * (- r * sin t), 1 * (r * cos t)) ddx 1 in velocity (Smp X (sT q) Nn (sw q) k) = (- r * sin t, r * cos t).
Proof.
  intros P q. unfold q, velocity, raw_sample. cbn [sT sw fst snd]. assert (E : (1 * (- r * sin t)) ^ 2 + (1 * (r * cos t)) ^ 2 = r * r) by (pose proof (sin2_cos2 t) as S; unfold Rsqr in S; transitivity (r * r * (sin t * sin t + cos t * cos t)); [ring|rewrite S; ring]). rewrite E, sqrt_square by lra. apply f_equal2; field; lra.
Qed.
Lemma ring_velocity x r p n e : 0 < r -> parameterize dict4 (ring x r p n) = Ok e -> e_param e = true /\ e_npts e = 9%Z /\ map velocity (e_smp e) = map (fun i => (- r * sin (angle i), r * cos (angle i))) (seq 0 9).
Proof.
  intros P E. pose proof PI_RGT_0. assert (X : exists e, parameterize dict4 (ring x r p n) = Ok e /\ e_param e = true /\ e_npts e = 9%Z /\ map velocity (e_smp e) = map (fun i => (- r * sin (angle i), r * cos (angle i))) (seq 0 9)); [|destruct X as (e' & E' & X); assert (e' = e) by congruence; subst; exact X]. clear E.
  eexists. split; [reflexivity|]. split; [reflexivity|]. split; [reflexivity|]. unfold translate, on_smp, log. unfold ring. ecbn. cbn [fst dict4 q_t q_wgt].
  assert (D : 1 / 2 * (2 * PI - 0) / PI = 1) by (field; lra). rewrite !D. change (circle_R [("radius"%string, r)]) with r. unfold linspace. rewrite !map_map.
  assert (T : forall i, 1 * (0 + INR i * ((2 * PI - 0) / INR 8)) + 0 = angle i) by (intros i; unfold angle; simpl (INR 8); field).
  cbn [seq map combine fst snd]. rewrite !T. repeat (apply f_equal2; [apply raw_velocity, P|]). reflexivity.
Qed.

Definition outflow (s : sample) : pt := (fst (sN s) * sw s, snd (sN s) * sw s).
Lemma raw_outflow X Tt k x ddx r t : 0 < r -> let q := raw_sample x (1 * (- r * sin t), 1 * (r * cos t)) ddx 1 in outflow (Smp X Tt (sN q) (sw q) k) = (r * cos t, r * sin t).
Proof.
  intros P q. unfold q, outflow, raw_sample. cbn [sN sw fst snd]. assert (E : (1 * (- r * sin t)) ^ 2 + (1 * (r * cos t)) ^ 2 = r * r) by (pose proof (sin2_cos2 t) as S; unfold Rsqr in S; transitivity (r * r * (sin t * sin t + cos t * cos t)); [ring|rewrite S; ring]). rewrite E, sqrt_square by lra. apply f_equal2; field; lra.
Qed.
Lemma ring_outflow x r p n e : 0 < r -> parameterize dict4 (ring x r p n) = Ok e -> map outflow (e_smp e) = map (fun i => (r * cos (angle i), r * sin (angle i))) (seq 0 9).
Proof.
  intros P E. pose proof PI_RGT_0. assert (X : exists e, parameterize dict4 (ring x r p n) = Ok e /\ map outflow (e_smp e) = map (fun i => (r * cos (angle i), r * sin (angle i))) (seq 0 9)); [|destruct X as (e' & E' & X); assert (e' = e) by congruence; subst; exact X]. clear E.
  eexists. split; [reflexivity|]. unfold translate, on_smp, log. unfold ring. ecbn. cbn [fst dict4 q_t q_wgt].
  assert (D : 1 / 2 * (2 * PI - 0) / PI = 1) by (field; lra). rewrite !D. change (circle_R [("radius"%string, r)]) with r. unfold linspace. rewrite !map_map.
  assert (T : forall i, 1 * (0 + INR i * ((2 * PI - 0) / INR 8)) + 0 = angle i) by (intros i; unfold angle; simpl (INR 8); field).
  cbn [seq map combine fst snd]. rewrite !T. repeat (apply f_equal2; [apply raw_outflow, P|]). reflexivity.
Qed.

(** Around each circle the velocities sum to zero, in both directions. *)
Definition closed_sum (l : list pt) : Prop := sum_list (map fst l) = 0 /\ sum_list (map snd l) = 0.
Lemma oct_angles : sin (angle 0) = 0 /\ cos (angle 0) = 1 /\ sin (angle 1) = 1 / sqrt 2 /\ cos (angle 1) = 1 / sqrt 2 /\ sin (angle 2) = 1 /\ cos (angle 2) = 0 /\ sin (angle 3) = 1 / sqrt 2 /\ cos (angle 3) = - (1 / sqrt 2) /\
  sin (angle 4) = 0 /\ cos (angle 4) = -1 /\ sin (angle 5) = - (1 / sqrt 2) /\ cos (angle 5) = - (1 / sqrt 2) /\ sin (angle 6) = -1 /\ cos (angle 6) = 0 /\ sin (angle 7) = - (1 / sqrt 2) /\ cos (angle 7) = 1 / sqrt 2 /\ sin (angle 8) = 0 /\ cos (angle 8) = 1.
Proof.
  unfold angle. assert (E : forall n, INR n * (PI / 4) = IZR (Z.of_nat n) * (PI / 4)) by (intros n; rewrite INR_IZR_INZ; reflexivity). rewrite !E. cbn [Z.of_nat Pos.of_succ_nat Pos.succ]. pose proof angles as A. replace (0 * (PI / 4)) with 0 by ring. replace (8 * (PI / 4)) with (2 * PI) by field. rewrite sin_0, cos_0, sin_2PI, cos_2PI. repeat split; try apply A; try reflexivity.
Qed.
Lemma ring_closed x r p n o e0 e : 0 < r -> like e0 x r p n -> resampled dict4 o e0 e -> e_npts e = 9%Z /\ closed_sum (map velocity (open_smp e)) /\ Exists (fun s => fst (outflow s) <> snd (outflow s)) (open_smp e).
Proof.
  intros P L (e1 & E & ->). unfold like in L. rewrite L in E. destruct (ring_velocity x r p n e1 P E) as (Pa & N & V). pose proof (ring_outflow x r p n e1 P E) as O1. pose proof oct_angles as (S0 & C0 & S1 & C1 & S2 & C2 & S3 & C3 & S4 & C4 & S5 & C5 & S6 & C6 & S7 & C7 & S8 & C8).
  cbn [seq map] in V, O1. rewrite S0, C0, S1, C1, S2, C2, S3, C3, S4, C4, S5, C5, S6, C6, S7, C7, S8, C8 in V, O1. unfold open_smp. destruct (Z.eqb o (-1)).
  - unfold reverse_orientation. rewrite Pa. cbn [with_smp e_npts e_smp]. split; [exact N|]. destruct (e_smp e1) as [|a0 [|a1 [|a2 [|a3 [|a4 [|a5 [|a6 [|a7 [|a8 [|]]]]]]]]]]; try discriminate V. cbn [map] in V. injection V as V0 W0 V1 W1 V2 W2 V3 W3 V4 W4 V5 W5 V6 W6 V7 W7 V8 W8. cbn [map rev app removelast]. cbn [map] in O1. injection O1 as P0 Q0 _ _ _ _ _ _ _ _ _ _ _ _ _ _ P8 Q8. split; [|left; unfold outflow; cbn [reverse_sample sN sw fst snd]; lra]. unfold closed_sum, velocity. cbn [map fst snd reverse_sample sT sw sum_list fold_right]. split; lra.
  - split; [exact N|]. destruct (e_smp e1) as [|a0 [|a1 [|a2 [|a3 [|a4 [|a5 [|a6 [|a7 [|a8 [|]]]]]]]]]]; try discriminate V. cbn [map] in V. injection V as V0 W0 V1 W1 V2 W2 V3 W3 V4 W4 V5 W5 V6 W6 V7 W7 V8 W8. cbn [removelast]. cbn [map] in O1. injection O1 as P0 Q0 _ _ _ _ _ _ _ _ _ _ _ _ _ _ P8 Q8. split; [|left; unfold outflow; cbn [fst snd]; lra]. unfold closed_sum, velocity. cbn [map fst snd sum_list fold_right]. split; lra.
Qed.

(** The cell: parameterized, one hole, the centre of the hole known *)
Lemma ring_points : exists H c ess xi, ready disc H c /\ boundary_edges H c ess /\ c_holes c = 1%Z /\ centers c [xi] /\ List.length ess = 2%nat /\
  Forall (fun l => exists e, l = [e] /\ e_npts e = 9%Z /\ closed_sum (map velocity (open_smp e)) /\ Exists (fun s => fst (outflow s) <> snd (outflow s)) (open_smp e)) ess /\
  Permutation (map (fun l => map sx (contour_smp l)) ess) [removelast (oct 0 4 1); removelast (oct 1 1 (-1))].
Proof.
  pose proof (ring_cell_outer (5, 5)%Z 1 ltac:(lra)) as B. set (c := made _ _ _ _ _) in B. assert (Ci : circles c) by (exists 1%Z, [1; -1]%Z, (5, 5)%Z, 1; right; left; reflexivity). destruct (circles_param rings c rings_like Ci) as (H' & c' & P).
  assert (Rd : ready disc H' c') by (exists rings, 1%Z, [1; 0]%nat, (5, 5)%Z, 1, 1, c, (PInt 4), 7%Z, dict4, false, rings; split; [exact B|]; split; [exact dict4_ok|exact P]).
  destruct (ready_fresh _ _ _ Rd) as (ess & F & _). assert (BE : boundary_edges H' c' ess) by (unfold boundary_edges; destruct F as (F & _); eapply Forall2_impl; [|exact F]; intros k es Fk; apply Fk).
  pose proof (circles_wf _ Ci) as W.
  destruct (param_edge _ _ _ _ _ _ _ _ _ (unset 1 1 1) O 1%nat 1%Z dict4_ok W P (or_introl eq_refl) eq_refl eq_refl) as (a1 & e1 & A1 & E1 & R1). destruct (param_edge _ _ _ _ _ _ _ _ _ (unset 1 0 (-1)) O 0%nat (-1)%Z dict4_ok W P (or_intror (or_introl eq_refl)) eq_refl eq_refl) as (a0 & e0 & A0 & E0 & R0). cbn [rings nth_error] in A0, A1. injection A0 as <-. injection A1 as <-.
  destruct (ring_closed 0 4 1 (-1) _ _ _ ltac:(lra) (like_self _ _ _ _) R1) as (N1 & Z1). destruct (ring_closed 1 1 2 1 _ _ _ ltac:(lra) (like_self _ _ _ _) R0) as (N0 & Z0).
  destruct (ring_resampled 0 4 1 (-1) _ _ _ (like_self _ _ _ _) R1) as (_ & X1). destruct (ring_resampled 1 1 2 1 _ _ _ (like_self _ _ _ _) R0) as (_ & X0).
  destruct (param_cell_ok disc (fun _ _ => True) (fun _ _ _ _ _ _ => I) dict4 _ _ _ _ _ _ _ dict4_ok W P) as (ess0 & ess' & Pr). pose proof (Permutation_map fst (p_edges _ _ _ _ _ _ _ _ _ Pr)) as PE. rewrite !map_map in PE. cbn [fst] in PE. change (map (fun x => k_edges x) (c_comps c)) with [[1%nat]; [0%nat]] in PE.
  destruct F as (FF & Hh & _). assert (K : forall k, In k (c_comps c') -> k_edges k = [1%nat] \/ k_edges k = [0%nat]) by (intros k Ik; apply (in_map (fun x => k_edges x)) in Ik; apply (Permutation_in _ PE) in Ik; cbn in Ik; destruct Ik as [<-|[<-|[]]]; auto).
  pose proof (Permutation_length PE) as Lc. rewrite map_length in Lc. cbn in Lc.
  assert (Ints : forall k, In k (c_comps c') -> exists v, k_int k = Some v).
  { intros k Ik. destruct (In_nth_error _ _ Ik) as (i & Ei). destruct (C41_component_points disc H' c' i k Rd Ei) as (x0 & x1 & y0 & y1 & Bx & Q). destruct (K k Ik) as [Ek|Ek]; rewrite Ek in Bx; unfold polygon in Bx; cbn [map concat] in Bx; [rewrite E1 in Bx|rewrite E0 in Bx]; rewrite app_nil_r, map_removelast' in Bx; [rewrite X1 in Bx|rewrite X0 in Bx]; cbn [Z.eqb Pos.eqb] in Bx.
    - change (removelast (oct 0 4 1)) with (firstn 8 (oct 0 4 1)) in Bx. rewrite (oct_box 0 4 1) in Bx by (lra || auto). apply Ok_inj in Bx. injection Bx as -> -> -> ->. destruct Q as (v & Ev & _); [unfold Rmin; destruct Rle_dec; lra|eauto].
    - change (removelast (oct 1 1 (-1))) with (firstn 8 (oct 1 1 (-1))) in Bx. rewrite (oct_box 1 1 (-1)) in Bx by (lra || auto). apply Ok_inj in Bx. injection Bx as -> -> -> ->. destruct Q as (v & Ev & _); [unfold Rmin; destruct Rle_dec; lra|eauto]. }
  destruct (c_comps c') as [|k [|k' [|? ?]]] eqn:Ec; try discriminate Lc. destruct (Ints k' (or_intror (or_introl eq_refl))) as (v & Ev).
  exists H', c', ess, (coord v). split; [exact Rd|]. split; [exact BE|]. split; [rewrite Hh; reflexivity|]. split; [unfold centers; rewrite Ec; constructor; [eauto|constructor]|]. unfold boundary_edges in BE. rewrite Ec in BE. inversion BE as [|? l1 ? ls R2 BE']; subst. inversion BE' as [|? l2 ? ls' R3 BE'']; subst. inversion BE''; subst. split; [reflexivity|].
  assert (One : forall k0 l, In k0 [k; k'] -> refs H' (k_edges k0) l -> exists e, l = [e] /\ e_npts e = 9%Z /\ closed_sum (map velocity (open_smp e)) /\ Exists (fun s => fst (outflow s) <> snd (outflow s)) (open_smp e)).
  { intros k0 l Ik Rf. destruct (K k0 Ik) as [Ek|Ek]; rewrite Ek in Rf; inversion Rf as [|? e ? ? Ee Rf']; subst; inversion Rf'; subst; exists e; split; try reflexivity; [replace e with e1 by congruence|replace e with e0 by congruence]; auto. }
  split; [constructor; [exact (One k l1 (or_introl eq_refl) R2)|]; constructor; [exact (One k' l2 (or_intror (or_introl eq_refl)) R3)|constructor]|].
  set (g := fun ids : list nat => match ids with [1%nat] => removelast (oct 0 4 1) | _ => removelast (oct 1 1 (-1)) end). pose proof (Permutation_map g PE) as PG. cbn [map g] in PG. cbn [map].
  assert (G : forall k0 l, In k0 [k; k'] -> refs H' (k_edges k0) l -> map sx (contour_smp l) = g (k_edges k0)).
  { intros k0 l Ik Rf. destruct (K k0 Ik) as [Ek|Ek]; rewrite Ek in *; inversion Rf as [|? e ? ? Ee Rf']; subst; inversion Rf'; subst; unfold contour_smp, open_smp; cbn [map concat g]; rewrite app_nil_r, map_removelast'; [replace e with e1 by congruence; rewrite X1|replace e with e0 by congruence; rewrite X0]; reflexivity. }
  rewrite (G k l1 (or_introl eq_refl) R2), (G k' l2 (or_intror (or_introl eq_refl)) R3). exact PG.
Qed.
Lemma ring_exists : exists H c ess xi, ready disc H c /\ boundary_edges H c ess /\ c_holes c = 1%Z /\ centers c [xi] /\ List.length ess = 2%nat /\
  Forall (fun l => exists e, l = [e] /\ e_npts e = 9%Z /\ closed_sum (map velocity (open_smp e)) /\ Exists (fun s => fst (outflow s) <> snd (outflow s)) (open_smp e)) ess.
Proof. destruct ring_points as (H & c & ess & xi & Rd & B & Hh & Cx & Le & Fe & _). exists H, c, ess, xi. repeat (split; [assumption|]). exact Fe. Qed.

