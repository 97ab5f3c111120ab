(** A concrete cell for examples about local functions: the disc of radius 1 around (1, 0), sampled
    at eight points. *)
From Coq Require Import List ZArith Reals Lia Lra Bool String.
From Verif Require Import PyBase PolyModel PolySpec BaryModel QuadModel CurveModel VertModel EdgeModel EdgeSpec EdgeProofs EdgeProps EdgeProps3 EdgeProps4 ContourModel CellModel CellSpec CellProofs CellProps ContourProofs ContourProofs2 ContourProofs3 ContourProps InteriorProofs ContourProofs4 CellProofs2 Annulus CellProps2 CellProps3 CellProps4 CellProps5.
Import List ListNotations.
Open Scope R_scope.

(** The angles, and the sample at an angle *)
Definition angle (i : nat) : R := INR i * (PI / 4).
Definition disc_smp (t : R) : sample := Smp (cos t + 1, sin t) (- sin t, cos t) (cos t, sin t) 1 (-1).
Lemma unit_smp t : raw_sample (1 * cos t, 1 * sin t) (1 * (- (1) * sin t), 1 * (1 * cos t)) (1 ^ 2 * (- (1) * cos t), 1 ^ 2 * (- (1) * sin t)) 1 = Smp (cos t, sin t) (- sin t, cos t) (cos t, sin t) 1 (-1).
Proof.
  unfold raw_sample. cbn [fst snd]. assert (E : (1 * (- (1) * sin t)) ^ 2 + (1 * (1 * cos t)) ^ 2 = 1) by (pose proof (sin2_cos2 t) as S; unfold Rsqr in S; lra). rewrite E, sqrt_1.
  assert (K : (1 ^ 2 * (- (1) * cos t) * (1 * (1 * cos t) / 1) + 1 ^ 2 * (- (1) * sin t) * - (1 * (- (1) * sin t) / 1)) / 1 = -1) by (pose proof (sin2_cos2 t) as S; unfold Rsqr in S; lra). rewrite K.
  f_equal; try (apply f_equal2; lra); lra.
Qed.
Lemma unit_ring p n e : parameterize dict4 (ring 1 1 p n) = Ok e -> e_param e = true /\ e_npts e = 9%Z /\ e_smp e = map (fun i => disc_smp (angle i)) (seq 0 9).
Proof.
  intros E. pose proof PI_RGT_0. assert (X : exists e, parameterize dict4 (ring 1 1 p n) = Ok e /\ e_param e = true /\ e_npts e = 9%Z /\ e_smp e = map (fun i => disc_smp (angle i)) (seq 0 9)); [|destruct X as (e' & E' & X); assert (e' = e) by congruence; subst; exact X]. clear E.
  eexists. split; [reflexivity|]. split; [reflexivity|]. split; [reflexivity|]. unfold translate, on_smp, log. unfold ring. ecbn. cbn [fst dict4 q_t q_wgt].
  assert (D : 1 / 2 * (2 * PI - 0) / PI = 1) by (field; lra). rewrite !D. change (circle_R [("radius"%string, 1)]) with 1. unfold linspace. rewrite !map_map.
  assert (T : forall i, 1 * (0 + INR i * ((2 * PI - 0) / INR 8)) + 0 = angle i) by (intros i; unfold angle; simpl (INR 8); field).
  assert (G : forall l, map (fun s => Smp (fst (sx s) + vx (mkvert 1 0), snd (sx s) + vy (mkvert 1 0)) (sT s) (sN s) (sw s) (sk s)) (map (fun tw : R * R => raw_sample (1 * cos (1 * fst tw + 0), 1 * sin (1 * fst tw + 0)) (1 * (- (1) * sin (1 * fst tw + 0)), 1 * (1 * cos (1 * fst tw + 0))) (1 ^ 2 * (- (1) * cos (1 * fst tw + 0)), 1 ^ 2 * (- (1) * sin (1 * fst tw + 0))) (snd tw)) (combine (map (fun i => 0 + INR i * ((2 * PI - 0) / INR 8)) l) (map (fun _ => 1) l))) = map (fun i => disc_smp (angle i)) l).
  { induction l as [|i l IH]; [reflexivity|]. cbn [map combine]. rewrite IH. f_equal. cbn [fst snd]. rewrite T, unit_smp. cbn [sx sT sN sw sk fst snd mkvert vx vy]. unfold disc_smp. f_equal. apply f_equal2; ring. }
  exact (G (seq 0 9)).
Qed.

(** The cell: parameterized, with one contour of one edge *)
Definition unit_disc (H : heap) (c : cell) (e : edge) : Prop :=
  ready disc H c /\ boundary_edges H c [[e]] /\ e_npts e = 9%Z /\ e_smp e = map (fun i => disc_smp (angle i)) (seq 0 9) /\ c_holes c = 0%Z.
Lemma unit_ring_qtype p n e : parameterize dict4 (ring 1 1 p n) = Ok e -> e_qtype e = "trap"%string.
Proof. unfold parameterize. cbn [ring e_qtype e_tb e_curve e_opts String.eqb Ascii.eqb Bool.eqb bind cX cDX cDDX]. intros E. apply Ok_inj in E. subst e. reflexivity. Qed.
Lemma unit_disc_trap : exists H c e, unit_disc H c e /\ e_qtype e = "trap"%string.
Proof.
  pose proof (disc_cell (5, 5)%Z 1 ltac:(lra)) as B. set (c := made _ _ _ _ _) in B. assert (Ci : circles c) by (exists 2%Z, [1]%Z, (5, 5)%Z, 1; right; right; reflexivity). destruct (circles_param rings c rings_like Ci) as (H' & c' & P).
  assert (Rd : ready disc H' c') by (exists rings, 2%Z, [0]%nat, (5, 5)%Z, 1, 1, c, (PInt 4), 7%Z, dict4, false, rings; split; [exact B|]; split; [exact dict4_ok|exact P]).
  destruct (ready_fresh _ _ _ Rd) as (ess & F & _). assert (BE : boundary_edges H' c' ess) by (unfold boundary_edges; destruct F as (F & _); eapply Forall2_impl; [|exact F]; intros k es Fk; apply Fk).
  pose proof (circles_wf _ Ci) as W. destruct (param_edge _ _ _ _ _ _ _ _ _ (unset 2 0 1) O O 1%Z dict4_ok W P (or_introl eq_refl) eq_refl eq_refl) as (a0 & e0 & A0 & E0 & R0). cbn [rings nth_error] in A0. injection A0 as <-.
  destruct R0 as (e1 & E & E'). cbn [Z.eqb Pos.eqb] in E'. subst e0. destruct (unit_ring _ _ _ E) as (_ & N & S).
  destruct (param_cell_ok disc (fun _ _ => True) (fun _ _ _ _ _ _ => I) dict4 _ _ _ _ _ _ _ dict4_ok W P) as (ess0 & ess' & Pr). pose proof (Permutation.Permutation_map fst (p_edges _ _ _ _ _ _ _ _ _ Pr)) as PE. rewrite !map_map in PE. cbn [fst] in PE. change (map (fun x => k_edges x) (c_comps c)) with [[0%nat]] in PE. apply Permutation.Permutation_sym, Permutation.Permutation_length_1_inv in PE.
  exists H', c', e1. destruct F as (_ & Hh & _). assert (X : exists k, c_comps c' = [k] /\ k_edges k = [0%nat]) by (destruct (c_comps c') as [|k [|? ?]]; try discriminate; exists k; split; [reflexivity|]; cbn [map] in PE; congruence). destruct X as (k & Ek & Ke).
  split; [|exact (unit_ring_qtype _ _ _ E)]. split; [exact Rd|]. split; [|split; [exact N|split; [exact S|]]].
  - unfold boundary_edges. rewrite Ek. constructor; [|constructor]. rewrite Ke. unfold refs. constructor; [exact E0|constructor].
  - rewrite Hh, Ek. reflexivity.
Qed.
Lemma unit_disc_exists : exists H c e, unit_disc H c e.
Proof. destruct unit_disc_trap as (H & c & e & U & _). exists H, c, e. exact U. Qed.

(** The same cell with interior points on a grid of 5 by 5; the centre is one of them. *)
Lemma unit_disc_int : exists H c e pts, unit_disc H c e /\ c_int c = Some pts /\ In (1, 0) pts.
Proof.
  pose proof (disc_cell (5, 5)%Z (1 / 10) ltac:(lra)) as B. set (c := made _ _ _ _ _) in B. assert (Ci : circles c) by (exists 2%Z, [1]%Z, (5, 5)%Z, (1 / 10); right; right; reflexivity). destruct (circles_param rings c rings_like Ci) as (H' & c1 & P0).
  destruct (C41_square_total disc rings 2 [0]%nat 5 (1/10) (1/10) c _ _ _ _ _ _ B dict4_ok P0) as (pts & P). set (c' := with_int c1 (Some pts)) in P.
  assert (Rd : ready disc H' c') by (exists rings, 2%Z, [0]%nat, (5, 5)%Z, (1 / 10), (1 / 10), c, (PInt 4), 7%Z, dict4, true, rings; split; [exact B|]; split; [exact dict4_ok|exact P]).
  destruct (ready_fresh _ _ _ Rd) as (ess & F & _). assert (BE : boundary_edges H' c' ess) by (unfold boundary_edges; destruct F as (F & _); eapply Forall2_impl; [|exact F]; intros k es Fk; apply Fk).
  pose proof (circles_wf _ Ci) as W. destruct (param_edge _ _ _ _ _ _ _ _ _ (unset 2 0 1) O O 1%Z dict4_ok W P (or_introl eq_refl) eq_refl eq_refl) as (a0 & e0 & A0 & E0 & R0). cbn [rings nth_error] in A0. injection A0 as <-.
  destruct R0 as (e1 & E & E'). cbn [Z.eqb Pos.eqb] in E'. subst e0. destruct (unit_ring _ _ _ E) as (_ & N & S).
  destruct (param_cell_ok disc (fun _ _ => True) (fun _ _ _ _ _ _ => I) dict4 _ _ _ _ _ _ _ dict4_ok W P) as (ess0 & ess' & Pr). pose proof (Permutation.Permutation_map fst (p_edges _ _ _ _ _ _ _ _ _ Pr)) as PE. rewrite !map_map in PE. cbn [fst] in PE. change (map (fun x => k_edges x) (c_comps c)) with [[0%nat]] in PE. apply Permutation.Permutation_sym, Permutation.Permutation_length_1_inv in PE.
  destruct F as (_ & Hh & _). assert (X : exists k, c_comps c' = [k] /\ k_edges k = [0%nat]) by (destruct (c_comps c') as [|k [|? ?]]; try discriminate; exists k; split; [reflexivity|]; cbn [map] in PE; congruence). destruct X as (k & Ek & Ke).
  exists H', c', e1, pts. split; [split; [exact Rd|]; split; [|split; [exact N|split; [exact S|]]]|split; [reflexivity|]].
  - unfold boundary_edges. rewrite Ek. constructor; [|constructor]. rewrite Ke. unfold refs. constructor; [exact E0|constructor].
  - rewrite Hh, Ek. reflexivity.
  - destruct (C41_interior_points_partial disc rings 2 [0]%nat 5 (1/10) (1/10) c _ _ _ _ _ _ B ltac:(lia) dict4_ok P) as (x0 & x1 & y0 & y1 & pts' & T & Ep & Q). cbn [c' with_int c_int] in Ep. injection Ep as <-. apply Q.
    assert (PG : polygon H' [0]%nat = map (fun i => sx (disc_smp (angle i))) (seq 0 8)) by (unfold polygon; cbn [map concat]; rewrite E0, S, app_nil_r; change (removelast (map (fun i => disc_smp (angle i)) (seq 0 9))) with (map (fun i => disc_smp (angle i)) (seq 0 8)); rewrite map_map; reflexivity).
    unfold tight in T. unfold in_cell, cell_edges. rewrite Ek in *. cbn [map concat app] in *. rewrite Ke, PG in *. rewrite ?app_nil_r in T. rewrite app_nil_r.
    assert (A0 : angle 0 = 0) by (unfold angle; cbn; ring). assert (A2 : angle 2 = PI / 2) by (unfold angle; cbn; field). assert (A4 : angle 4 = PI) by (unfold angle; cbn; field). assert (A6 : angle 6 = 3 * (PI / 2)) by (unfold angle; cbn; field).
    assert (D : forall q, In q (map (fun i => sx (disc_smp (angle i))) (seq 0 8)) -> 0 <= fst q <= 2 /\ -1 <= snd q <= 1). { intros q I. apply in_map_iff in I. destruct I as (i & <- & _). cbn. pose proof (COS_bound (angle i)). pose proof (SIN_bound (angle i)). lra. }
    assert (I0 : In (2, 0) (map (fun i => sx (disc_smp (angle i))) (seq 0 8))) by (apply in_map_iff; exists 0%nat; split; [cbn [disc_smp sx]; rewrite A0, cos_0, sin_0; apply f_equal2; ring|apply in_seq; lia]).
    assert (I2 : In (1, 1) (map (fun i => sx (disc_smp (angle i))) (seq 0 8))) by (apply in_map_iff; exists 2%nat; split; [cbn [disc_smp sx]; rewrite A2, cos_PI2, sin_PI2; apply f_equal2; ring|apply in_seq; lia]).
    assert (I4 : In (0, 0) (map (fun i => sx (disc_smp (angle i))) (seq 0 8))) by (apply in_map_iff; exists 4%nat; split; [cbn [disc_smp sx]; rewrite A4, cos_PI, sin_PI; apply f_equal2; ring|apply in_seq; lia]).
    assert (I6 : In (1, -1) (map (fun i => sx (disc_smp (angle i))) (seq 0 8))) by (apply in_map_iff; exists 6%nat; split; [cbn [disc_smp sx]; rewrite A6, cos_3PI2, sin_3PI2; apply f_equal2; ring|apply in_seq; lia]).
    assert (BX : x0 = 0 /\ x1 = 2 /\ y0 = -1 /\ y1 = 1).
    { destruct T as [T1 (a & b & u & v & Ia & Ib & Iu & Iv & <- & <- & <- & <-)]. pose proof (D _ Ia). pose proof (D _ Ib). pose proof (D _ Iu). pose proof (D _ Iv). pose proof (T1 _ I0). pose proof (T1 _ I2). pose proof (T1 _ I4). pose proof (T1 _ I6). cbn [fst snd] in *. lra. }
    destruct BX as (-> & -> & -> & ->). cbn [fst snd]. split; [exists 2%nat; split; [lia|]; cbn; lra|]. split; [exists 2%nat; split; [lia|]; cbn; lra|]. split; [split; [|constructor]|].
    + unfold disc. cbn [seq map nth disc_smp sx fst snd]. rewrite A0, A4, cos_0, sin_0, cos_PI, sin_PI. apply Rltb_true. unfold pdist. cbn [fst snd]. apply sqrt_lt_1; lra.
    + intros s (j & e & t & Ij & Ej & It & <-). destruct Ij as [<-|[]]. assert (e = e1) by congruence. subst e. rewrite S in It. apply in_map_iff in It. destruct It as (i & <- & _). assert (Dd : pdist (sx (disc_smp (angle i))) (1, 0) = 1).
      { unfold pdist. cbn [disc_smp sx fst snd]. replace (_ + _) with 1; [apply sqrt_1|]. pose proof (sin2_cos2 (angle i)) as Sc. unfold Rsqr in Sc. lra. }
      rewrite Dd, Rmin_left by lra. apply Rmax_lub; lra.
Qed.
