(** C70: the traces of an edge span the polynomials of its degree. *)
From Coq Require Import List ZArith Reals Lia Lra Bool Arith.
From Verif Require Import PyBase PolyModel PolySpec PolyProofs PolyProofs2 PolyProofs3 PolyProofs4 LegendreModel LegendreProofs LegendreProofs2 BBoxModel BaryModel BarySpec BaryProofs EdgeSpaceModel EdgeSpaceSpec EdgeSpaceProofs EdgeSpaceProps PolyErr PolyErr2 CellProofs BaryProps SpanSpec SpanProofs SpanProofs2.
Import ListNotations.
Open Scope R_scope.

Lemma abs_both a e : Rabs a <= e -> - e <= a <= e.
Proof. intros H. pose proof (Rle_abs a). pose proof (Rle_abs (- a)) as Q. rewrite Rabs_Ropp in Q. lra. Qed.
Lemma roomy_one p sx sy : roomy p sx sy -> 4 * (INR p + 1) ^ 4 * tol <= 1.
Proof. intros H. specialize (H 0%nat 0%nat ltac:(lia)). cbn [pow] in H. lra. Qed.
Lemma four_big p : 4 <= 4 * (INR p + 1) ^ 4.
Proof. pose proof (pos_INR p). assert (1 ^ 4 <= (INR p + 1) ^ 4) by (apply pow_incr; lra). rewrite pow1 in *. lra. Qed.
Lemma roomy_tol p sx sy m n : roomy p sx sy -> (m + n <= p)%nat -> tol <= (1 / sx) ^ m * (1 / sy) ^ n.
Proof. intros H L. specialize (H m n L). pose proof (four_big p). pose proof tol_pos. nra. Qed.
Lemma at_box deg sx sy tx ty m n : 0 < sx -> 0 < sy -> roomy deg sx sy -> (1 <= deg)%nat -> (m + n <= deg)%nat ->
  top (m + n) m n ((1 / sx) ^ m * (1 / sy) ^ n * (ilc m m * ilc n n)) (pcompose RS (tensor deg m n) (pscale RS (mkpoly RS [(1, 1%nat, 0%nat); (- tx, 0%nat, 0%nat)]) (1 / sx)) (pscale RS (mkpoly RS [(1, 0%nat, 1%nat); (- ty, 0%nat, 0%nat)]) (1 / sy))).
Proof.
  intros Px Py H Hd L. assert (Qx : 0 < 1 / sx) by (apply Rdiv_lt_0_compat; lra). assert (Qy : 0 < 1 / sy) by (apply Rdiv_lt_0_compat; lra). pose proof (fun k => pow_lt _ k Qx) as Wx. pose proof (fun k => pow_lt _ k Qy) as Wy.
  assert (Bx : forall i, (i <= deg)%nat -> tol <= Rabs ((1 / sx) ^ i)) by (intros i Hi; rewrite Rabs_right by (apply Rgt_ge, Wx); pose proof (roomy_tol _ _ _ i 0%nat H ltac:(lia)) as Q; cbn [pow] in Q; rewrite Rmult_1_r in Q; exact Q).
  assert (By : forall i, (i <= deg)%nat -> tol <= Rabs ((1 / sy) ^ i)) by (intros i Hi; rewrite Rabs_right by (apply Rgt_ge, Wy); pose proof (roomy_tol _ _ _ 0%nat i H ltac:(lia)) as Q; cbn [pow] in Q; rewrite Rmult_1_l in Q; exact Q).
  apply top_compose.
  - apply tensor_top; [exact (roomy_one _ _ _ H)|exact L].
  - apply top_x. specialize (Bx 1%nat Hd). rewrite pow_1 in Bx. exact Bx.
  - apply top_y. specialize (By 1%nat Hd). rewrite pow_1 in By. exact By.
  - intros i Hi. apply Bx. lia.
  - intros i Hi. apply By. lia.
  - rewrite Rabs_right by (apply Rgt_ge, Rmult_lt_0_compat; auto). apply (roomy_tol deg); assumption.
  - rewrite Rabs_mult, (Rabs_right (_ ^ m * _)) by (apply Rgt_ge, Rmult_lt_0_compat; auto). pose proof (lead_big deg m n L) as B. specialize (H m n L). pose proof (four_big deg) as F. pose proof tol_pos as TP. set (q := 4 * (INR deg + 1) ^ 4) in *. assert (I : 0 < / q) by (apply Rinv_0_lt_compat; lra). replace tol with (q * tol * / q) by (field; lra). apply Rmult_le_compat; try lra. nra.
Qed.
Lemma deg_lin c0 cx cy p : islin c0 cx cy p -> deg_le 1 p.
Proof. intros [C H]. apply coef_deg_le; [exact C|]. intros i j L. rewrite H. destruct i as [|[|i]], j as [|[|j]]; try reflexivity; lia. Qed.
Lemma correct_top e z0 z1 l0 l1 D m n c f : (2 <= D)%nat -> c <> 0 -> canonical l0 -> canonical l1 -> deg_le 1 l0 -> deg_le 1 l1 -> top D m n c f ->
  exists s, (s = 1 \/ s = -1) /\ top D m n (s * c) (correct e z0 z1 l0 l1 f).
Proof.
  intros HD N C0 C1 D0 D1 T. pose proof (top_self _ _ _ _ _ T) as Ec. pose proof T as (E & C & Dg & H). assert (B : tol <= Rabs c) by (destruct (canonical_coef_big f m n C) as [Q|Q]; rewrite Ec in Q; [contradiction|exact Q]).
  unfold correct. set (a0 := peval RS f (fst z0) (snd z0)). set (a1 := peval RS f (fst z1) (snd z1)). set (r := padd RS (pscale RS l0 a0) (pscale RS l1 a1)).
  assert (Cr : canonical r) by apply padd_canonical. assert (Zr : forall i j, (2 <= i + j)%nat -> coef r i j = 0).
  { intros i j L. unfold r. rewrite coef_padd, !coef_pscale by (try apply pscale_canonical; assumption). rewrite (deg_coef 1 l0 i j D0), (deg_coef 1 l1 i j D1) by lia. rewrite !Rmult_0_l, !cutoff_zero, Rplus_0_r. apply cutoff_zero. }
  assert (Tg : top D m n c (psub RS f r)).
  { split; [exact E|]. split; [apply consolidate_canonical|]. assert (K : forall i j, (2 <= i + j)%nat -> coef (psub RS f r) i j = coef f i j) by (intros i j L; rewrite coef_psub by assumption; rewrite (Zr i j L), Rminus_0_r; apply canonical_cutoff, C). split; [apply coef_deg_le; [apply consolidate_canonical|]; intros i j L; rewrite K by lia; apply (deg_coef D f); assumption|]. intros i j L. rewrite K by lia. apply H, L. }
  destruct (Rltb _ _).
  - exists (-1). split; [right; reflexivity|]. replace (-1 * c) with (c * -1) by ring. apply top_pscale; [exact Tg|]. rewrite Rabs_mult, (Rabs_left (-1)) by lra. lra.
  - exists 1. split; [left; reflexivity|]. rewrite Rmult_1_l. exact Tg.
Qed.
Lemma ilc_ilead n : ilc n n = ileg_lead n.
Proof.
  assert (L : forall n, lc n n = leg_lead n /\ lc (S n) (S n) = leg_lead (S n)).
  { clear n. induction n as [|n [IH1 IH2]]; [split; [reflexivity|cbn; field]|]. split; [exact IH2|]. rewrite lc_SS. cbn [shift]. rewrite IH2, (lc_zero n (S (S n))) by (intros k; lia). cbn [leg_lead]. rewrite S_INR. pose proof (pos_INR n). field. split; lra. }
  destruct n as [|[|n]]; [reflexivity|reflexivity|]. unfold ilc, ileg_lead. rewrite (lc_zero n (S (S n))), (proj1 (L (S (S n)))), Rminus_0_r by (intros k; lia). reflexivity.
Qed.
Lemma ileg_lead_nz n : ileg_lead n <> 0.
Proof. rewrite <- ilc_ilead. apply ilc_lead. Qed.

Lemma lead_nz sx sy m n : 0 < sx -> 0 < sy -> (1 / sx) ^ m * (1 / sy) ^ n * (ileg_lead m * ileg_lead n) <> 0.
Proof.
  intros Px Py. assert (Qx : 1 / sx <> 0) by (apply Rgt_not_eq, Rdiv_lt_0_compat; lra). assert (Qy : 1 / sy <> 0) by (apply Rgt_not_eq, Rdiv_lt_0_compat; lra). repeat apply Rmult_integral_contrapositive_currified; try apply pow_nonzero; try assumption; apply ileg_lead_nz.
Qed.
Lemma nonloop e deg vs fs : ev_loop e = false -> build_spanning_set e deg = Ok (vs, fs) -> exists z0 rest, ev_pts e = z0 :: rest /\ tol <= pdist (last (ev_pts e) z0) z0.
Proof.
  intros El E. unfold build_spanning_set in E. destruct (pre_traces e deg); [|discriminate]. cbn [bind] in E. rewrite El in E. destruct (ev_pts e) as [|z0 rest] eqn:Epts; [discriminate|]. exists z0, rest. split; [reflexivity|]. set (z1 := last (z0 :: rest) z0) in *. destruct (Rlt_dec (pdist z1 z0) tol) as [Q|Q]; [|lra]. unfold barycentric_coordinates_edge in E. rewrite bary_degenerate in E by (right; left; exact Q). discriminate.
Qed.
(** The set that is built has a member for each pair of exponents, led by that monomial alone, with the
    coefficient that the product of two integrated Legendre functions has on the box around the
    samples. The sign is that of the average over the edge. *)
Lemma leading_in e deg vs fs sx sy : (1 <= deg)%nat -> halves (ev_pts e) sx sy -> roomy deg sx sy -> build_spanning_set e deg = Ok (vs, fs) ->
  forall m n, (2 <= m + n <= deg)%nat -> exists q s, In q fs /\ (s = 1 \/ s = -1) /\ (ev_loop e = true -> s = 1) /\ top (m + n) m n (s * ((1 / sx) ^ m * (1 / sy) ^ n * (ileg_lead m * ileg_lead n))) q.
Proof.
  intros Hd Hh Hr E m n L. destruct (maps_ok _ _ _ Hh) as (tx & ty & Px & Py & Eq). assert (Ne : ev_pts e <> []) by (intros Q; destruct Hh as (wx & wy & (_ & a & _ & I & _) & _); rewrite Q in I; destruct I). destruct (pre_ok e deg Ne Hd) as (pre & Ep & Lp & _). destruct (pre_nth e deg _ _ pre Hd Eq Ep) as (y1 & y2 & s1 & s2 & _ & _ & H0 & H1 & H2 & H). destruct (H m n L) as (k & K2 & Kd & Hk). clear H.
  pose proof (at_box deg sx sy tx ty m n Px Py Hr Hd ltac:(lia)) as T. rewrite !ilc_ilead in T. set (q := pcompose RS (tensor deg m n) _ _) in *. destruct (ev_loop e) eqn:El.
  - unfold build_spanning_set in E. rewrite Ep in E. cbn [bind] in E. rewrite El in E. apply Ok_inj in E. injection E as -> ->. exists q, 1. split; [apply nth_error_In with k, Hk|]. split; [left; reflexivity|]. split; [reflexivity|]. rewrite Rmult_1_l. exact T.
  - destruct (nonloop e deg vs fs El E) as (z0 & rest & Epts & Db). set (z1 := last (ev_pts e) z0) in *. destruct (bary_edge_ok z0 z1 Db) as (_ & Eb). cbv zeta in Eb. set (z2 := edge_apex z0 z1) in *. set (h := cross3 z0 z1 z2) in *.
    destruct (spanning_ok e deg z0 rest _ _ _ pre El Epts Hd Ep Lp Eb) as (gs & Eg & ->). rewrite E in Eg. injection Eg as -> ->.
    destruct (correct_top e z0 z1 (bary_one h z2 z0 z1) (bary_one h z0 z1 z2) (m + n) _ _ _ q ltac:(lia) (lead_nz sx sy m n Px Py) (proj1 (bary_one_lin _ _ _ _)) (proj1 (bary_one_lin _ _ _ _)) (deg_lin _ _ _ _ (bary_one_lin _ _ _ _)) (deg_lin _ _ _ _ (bary_one_lin _ _ _ _)) T) as (s & Hs & Ts).
    exists (correct e z0 z1 (bary_one h z2 z0 z1) (bary_one h z0 z1 z2) q), s. split; [|split; [exact Hs|]; split; [discriminate|exact Ts]]. apply in_or_app. left. apply in_map. apply in_or_app. destruct (Nat.lt_ge_cases k (deg + 1)) as [Lk|Lk].
    + left. apply nth_error_In with (k - 2)%nat. rewrite nth_error_firstn by lia. change (nth_error (skipn 2 pre) (k - 2) = Some q). rewrite nth_error_skipn. replace (2 + (k - 2))%nat with k by lia. exact Hk.
    + right. apply nth_error_In with (k - (deg + 2))%nat. rewrite nth_error_skipn. replace (deg + 2 + (k - (deg + 2)))%nat with k by lia. exact Hk.
Qed.

Theorem C70_leading e deg vs fs sx sy : (1 <= deg)%nat -> halves (ev_pts e) sx sy -> roomy deg sx sy -> build_spanning_set e deg = Ok (vs, fs) ->
  forall m n, (2 <= m + n <= deg)%nat -> exists q s, In q fs /\ (s = 1 \/ s = -1) /\ (ev_loop e = true -> s = 1) /\
    coef q m n = s * (ileg_lead m * ileg_lead n / (sx ^ m * sy ^ n)) /\ forall i j, (m + n <= i + j)%nat -> (i, j) <> (m, n) -> coef q i j = 0.
Proof.
  intros Hd Hh Hr E m n L. destruct (leading_in e deg vs fs sx sy Hd Hh Hr E m n L) as (q & s & I & Hs & Hl & T). exists q, s. split; [exact I|]. split; [exact Hs|]. split; [exact Hl|]. destruct (maps_ok _ _ _ Hh) as (_ & _ & Px & Py & _). split.
  - rewrite (top_self _ _ _ _ _ T). unfold Rdiv. rewrite !Rmult_1_l, Rinv_mult, !pow_inv. ring.
  - destruct T as (_ & _ & Dg & H). intros i j Hij N. destruct (Nat.eq_dec (i + j) (m + n)) as [Q|Q]; [|apply (deg_coef _ q i j Dg); lia]. rewrite H by exact Q. destruct (Nat.eqb_spec i m) as [->|]; [|reflexivity]. destruct (Nat.eqb_spec j n) as [->|]; [|reflexivity]. destruct N. reflexivity.
Qed.
Print Assumptions C70_leading.

(** What the endpoints must satisfy: no coefficient of their three linear functions is dropped. *)
Definition ends_kept (z0 z1 : pt) : Prop :=
  let z2 := edge_apex z0 z1 in let h := cross3 z0 z1 z2 in bary_sig h z2 z0 z1 /\ bary_sig h z0 z1 z2 /\ bary_sig h z1 z2 z0.

(** On a loop and on an edge with two ends, the traces that are built span all polynomials of the
    degree of the edge, as functions of the plane. *)
Theorem C70_spans e deg vs fs sx sy : (1 <= deg)%nat -> halves (ev_pts e) sx sy -> roomy deg sx sy -> build_spanning_set e deg = Ok (vs, fs) ->
  (ev_loop e = false -> forall z0 rest, ev_pts e = z0 :: rest -> ends_kept z0 (last (ev_pts e) z0)) ->
  spans_degree (map value (vs ++ fs)) deg.
Proof.
  intros Hd Hh Hr E Hk. assert (Lead : forall m n, (2 <= m + n <= deg)%nat -> exists c q, c <> 0 /\ top (m + n) m n c q /\ in_span (map value (vs ++ fs)) (value q)).
  { intros m n L. destruct (leading_in e deg vs fs sx sy Hd Hh Hr E m n L) as (q & s & I & Hs & _ & T). destruct (maps_ok _ _ _ Hh) as (_ & _ & Px & Py & _). eexists _, q. split; [|split; [exact T|apply span_in, in_map, in_or_app; right; exact I]]. apply Rmult_integral_contrapositive_currified; [destruct Hs; lra|apply lead_nz; assumption]. }
  assert (Ne : ev_pts e <> []) by (intros Q; destruct Hh as (wx & wy & (_ & a & _ & I & _) & _); rewrite Q in I; destruct I). destruct (ev_loop e) eqn:El.
  - destruct (maps_ok _ _ _ Hh) as (tx & ty & Px & Py & Eq). destruct (pre_ok e deg Ne Hd) as (pre & Ep & Lp & _). destruct (pre_nth e deg _ _ pre Hd Eq Ep) as (y1 & y2 & s1 & s2 & Y1 & Y2 & H0 & H1 & H2 & _). unfold build_spanning_set in E. rewrite Ep in E. cbn [bind] in E. rewrite El in E. apply Ok_inj in E. injection E as -> ->. cbn [app].
    pose proof (roomy_tol _ _ _ 1%nat 0%nat Hr ltac:(lia)) as Bx. pose proof (roomy_tol _ _ _ 0%nat 1%nat Hr ltac:(lia)) as By. rewrite pow_1, pow_O, Rmult_1_r in Bx. rewrite pow_1, pow_O, Rmult_1_l in By. pose proof tol_pos as TP. set (al := 1 / sx) in *. set (ga := 1 / sy) in *. assert (Ax : tol <= Rabs al) by (rewrite Rabs_right; lra). assert (Ay : tol <= Rabs ga) by (rewrite Rabs_right; lra).
    destruct (top_x al tx Ax) as (_ & Lx). destruct (top_y ga ty Ay) as (_ & Ly). set (qx := pscale RS _ al) in *. set (qy := pscale RS _ ga) in *. set (b0 := cutoff (cutoff (- tx) * al)) in *. set (d0 := cutoff (cutoff (- ty) * ga)) in *.
    assert (C : forall c0 cx cy p, islin c0 cx cy p -> (cx = 1 \/ cx = -1) -> (cy = 1 \/ cy = -1) -> exists K, islin K (al * cx) (ga * cy) (pcompose RS (pcompose RS p y1 y2) qx qy) /\ Rabs (K - (c0 + (s1 + b0) * cx + (s2 + d0) * cy)) <= 12 * tol).
    { intros c0 cx cy p P Ex Ey. assert (Nx : cx <> 0) by (destruct Ex; lra). assert (Ny : cy <> 0) by (destruct Ey; lra). assert (Vx : Rabs cx = 1) by (destruct Ex as [->|Ex]; [apply Rabs_R1|rewrite Ex, Rabs_left by lra; ring]). assert (Vy : Rabs cy = 1) by (destruct Ey as [->|Ey]; [apply Rabs_R1|rewrite Ey, Rabs_left by lra; ring]). pose proof tol_lt1 as T1.
      destruct (lin_compose _ _ _ _ _ _ _ _ _ _ P Y1 Y2 Nx Ny) as (K1 & I1 & N1); [rewrite Rmult_1_l, Vx; lra|rewrite Rmult_1_l, Vy; lra|]. rewrite !Rmult_1_l in I1.
      destruct (lin_compose _ _ _ _ _ _ _ _ _ _ I1 Lx Ly Nx Ny) as (K2 & I2 & N2); [rewrite Rabs_mult, Vx; lra|rewrite Rabs_mult, Vy; lra|]. exists K2. split; [exact I2|]. replace (K2 - (c0 + (s1 + b0) * cx + (s2 + d0) * cy)) with ((K2 - (K1 + b0 * cx + d0 * cy)) + (K1 - (c0 + s1 * cx + s2 * cy))) by ring. pose proof (Rabs_triang (K2 - (K1 + b0 * cx + d0 * cy)) (K1 - (c0 + s1 * cx + s2 * cy))). lra. }
    destruct (C _ _ _ _ lin0_is ltac:(left; reflexivity) ltac:(left; reflexivity)) as (k0 & I0 & N0). destruct (C _ _ _ _ lin1_is ltac:(right; reflexivity) ltac:(right; reflexivity)) as (k1 & I1 & N1). destruct (C _ _ _ _ lin2_is ltac:(left; reflexivity) ltac:(right; reflexivity)) as (k2 & I2 & _). clear C.
    assert (S : forall k p, nth_error pre k = Some p -> in_span (map value pre) (value p)) by (intros k p Q; apply span_in, in_map, nth_error_In with k, Q). pose proof (S _ _ H0) as S0. pose proof (S _ _ H1) as S1. pose proof (S _ _ H2) as S2. clear S.
    assert (Nk : k0 + k1 <> 0). { apply abs_both in N0. apply abs_both in N1. assert (1000 * tol < 1) by (unfold tol; lra). lra. }
    set (fs := map value pre) in *. assert (One : in_span fs (fun _ _ => 1)). { eapply span_ext; [|exact (span_lin fs (/ (k0 + k1)) (/ (k0 + k1)) _ _ S0 S1)]. intros x y. cbv beta. rewrite (islin_value _ _ _ _ x y I0), (islin_value _ _ _ _ x y I1). field. exact Nk. }
    pose proof (span_lin fs 1 1 _ _ S0 S2) as P2. pose proof (span_lin fs 1 (-1) _ _ S0 S2) as M2.
    apply tri_span; [exact One| | |exact Lead].
    + eapply span_ext; [|exact (span_lin fs (/ (2 * al)) (- (k0 + k2) / (2 * al)) _ _ P2 One)]. intros x y. cbv beta. rewrite (islin_value _ _ _ _ x y I0), (islin_value _ _ _ _ x y I2). field. lra.
    + eapply span_ext; [|exact (span_lin fs (/ (2 * ga)) (- (k0 - k2) / (2 * ga)) _ _ M2 One)]. intros x y. cbv beta. rewrite (islin_value _ _ _ _ x y I0), (islin_value _ _ _ _ x y I2). field. lra.
  - destruct (nonloop e deg vs fs El E) as (z0 & rest & Epts & Db). specialize (Hk eq_refl z0 rest Epts). set (z1 := last (ev_pts e) z0) in *. destruct (bary_edge_ok z0 z1 Db) as (Ph & Eb). cbv zeta in Eb, Ph. unfold ends_kept in Hk. cbv zeta in Hk. set (z2 := edge_apex z0 z1) in *. set (h := cross3 z0 z1 z2) in *. destruct Hk as (G0 & G1 & G2).
    destruct (pre_ok e deg Ne Hd) as (pre & Ep & Lp & _). destruct (spanning_ok e deg z0 rest _ _ _ pre El Epts Hd Ep Lp Eb) as (gs & Eg & _). rewrite E in Eg. injection Eg as -> ->. assert (Nh : h <> 0) by lra.
    set (FS := map value _) in *. assert (S0 : in_span FS (value (bary_one h z2 z0 z1))) by (apply span_in, in_map; left; reflexivity). assert (S1 : in_span FS (value (bary_one h z0 z1 z2))) by (apply span_in, in_map; right; left; reflexivity). assert (S2 : in_span FS (value (bary_one h z1 z2 z0))) by (apply span_in, in_map, in_or_app; right; apply in_or_app; right; left; reflexivity).
    assert (C : forall a b c, in_span FS (fun x y => a * bary_exact h z2 z0 z1 x y + (b * bary_exact h z0 z1 z2 x y + c * bary_exact h z1 z2 z0 x y))).
    { intros a b c. eapply span_ext; [|exact (span_lin FS a 1 _ _ S0 (span_lin FS b c _ _ S1 S2))]. intros x y. cbv beta. rewrite !bary_one_exact by assumption. ring. }
    apply tri_span; [| | |exact Lead].
    + eapply span_ext; [|exact (C 1 1 1)]. intros x y. cbv beta. unfold bary_exact, h, cross3 in *. field. exact Nh.
    + eapply span_ext; [|exact (C (fst z0) (fst z1) (fst z2))]. intros x y. cbv beta. unfold bary_exact, h, cross3 in *. field. exact Nh.
    + eapply span_ext; [|exact (C (snd z0) (snd z1) (snd z2))]. intros x y. cbv beta. unfold bary_exact, h, cross3 in *. field. exact Nh.
Qed.
Print Assumptions C70_spans.

(** In particular on every edge whose samples fit in a box of width two. *)
Theorem C70_small e deg vs fs sx sy : (1 <= deg)%nat -> 4 * (INR deg + 1) ^ 4 * tol <= 1 -> halves (ev_pts e) sx sy -> sx <= 1 -> sy <= 1 -> build_spanning_set e deg = Ok (vs, fs) ->
  (ev_loop e = false -> forall z0 rest, ev_pts e = z0 :: rest -> ends_kept z0 (last (ev_pts e) z0)) ->
  spans_degree (map value (vs ++ fs)) deg.
Proof.
  intros Hd H1 Hh Lx Ly. apply C70_spans with (1 := Hd) (2 := Hh). destruct (maps_ok _ _ _ Hh) as (_ & _ & Px & Py & _). assert (Qx : 1 <= 1 / sx) by (apply (Rmult_le_reg_r sx); [exact Px|]; unfold Rdiv; rewrite !Rmult_1_l, Rinv_l by lra; exact Lx). assert (Qy : 1 <= 1 / sy) by (apply (Rmult_le_reg_r sy); [exact Py|]; unfold Rdiv; rewrite !Rmult_1_l, Rinv_l by lra; exact Ly).
  intros m n _. pose proof (pow_R1_Rle _ m Qx). pose proof (pow_R1_Rle _ n Qy). nra.
Qed.
Print Assumptions C70_small.

(** ** Edges a million wide *)
Lemma wide_maps l sx sy : centred fst l sx -> centred snd l sy -> tol <= sx -> tol <= sy ->
  bbox_maps l = Ok (pscale RS (mkpoly RS [(1, 1%nat, 0%nat); (- 0, 0%nat, 0%nat)]) (1 / sx), pscale RS (mkpoly RS [(1, 0%nat, 1%nat); (- 0, 0%nat, 0%nat)]) (1 / sy)).
Proof.
  intros (Bx & ax & bx & Iax & Ibx & Eax & Ebx) (By & ay & by_ & Iay & Iby & Eay & Eby) Tx Ty. pose proof tol_pos as TP. destruct l as [|z l]; [destruct Iax|]. destruct (lmin_lmax fst z l) as (p & q & Ip & Iq & Ep & Eq & H). destruct (lmin_lmax snd z l) as (r & s & Ir & Is & Er & Es & K).
  pose proof (H ax Iax). pose proof (H bx Ibx). pose proof (Bx p Ip). pose proof (Bx q Iq). pose proof (K ay Iay). pose proof (K by_ Iby). pose proof (By r Ir). pose proof (By s Is). assert (E1 : fst p = - sx) by lra. assert (E2 : fst q = sx) by lra. assert (E3 : snd r = - sy) by lra. assert (E4 : snd s = sy) by lra.
  unfold bbox_maps, bounding_box. cbn [map]. cbv beta iota zeta. unfold pt in *. rewrite Ep, Eq, Er, Es, E1, E2, E3, E4. fold tol. pose proof (Rmax_l (sx - - sx) (sy - - sy)). destruct (Rlt_dec (Rmax _ _) tol) as [L|_]; [lra|]. destruct (Rlt_dec (sx - - sx) tol); [lra|]. destruct (Rlt_dec (sy - - sy) tol); [lra|]. cbn [bind].
  replace ((sx - - sx) / 2) with sx by lra. replace ((sy - - sy) / 2) with sy by lra. replace ((sx + - sx) / 2) with 0 by lra. replace ((sy + - sy) / 2) with 0 by lra. reflexivity.
Qed.
Lemma islin_mul_drop bx by_ dx dy p q : islin 0 bx by_ p -> islin 0 dx dy q -> Rabs (bx * dx) < tol -> Rabs (bx * dy) < tol -> Rabs (by_ * dx) < tol -> Rabs (by_ * dy) < tol -> pmul RS p q = [].
Proof.
  intros [Cp Hp] [Cq Hq] B1 B2 B3 B4. apply canonical_ext; [apply pmul_canonical|constructor|]. intros a b. cbn [coef]. rewrite coef_pmul by assumption. assert (Z : forall i j, cutoff (coef p i j * coef q (a - i) (b - j)) = 0).
  { intros i j. rewrite Hp, Hq. apply cutoff_small. destruct i as [|[|i]], j as [|[|j]]; cbn [tlin]; rewrite ?Rmult_0_l, ?Rabs_R0; try apply tol_pos; destruct (a - _)%nat as [|[|u]], (b - _)%nat as [|[|v]]; cbn [tlin]; rewrite ?Rmult_0_r, ?Rabs_R0; try apply tol_pos; assumption. }
  rewrite (sum2_single (fun i j => cutoff (coef p i j * coef q (a - i) (b - j))) a b 0 0) by (lia || (intros; apply Z)). rewrite Z. apply cutoff_zero.
Qed.
Lemma pmul_nil_l p : canonical p -> pmul RS [] p = [].
Proof.
  intros C. apply canonical_ext; [apply pmul_canonical|constructor|]. intros a b. rewrite coef_pmul by (try constructor; exact C). assert (Z : forall i j, cutoff (coef [] i j * coef p (a - i) (b - j)) = 0) by (intros i j; cbn [coef]; rewrite Rmult_0_l; apply cutoff_zero).
  rewrite (sum2_single (fun i j => cutoff (coef [] i j * coef p (a - i) (b - j))) a b 0 0) by (lia || (intros; apply Z)). rewrite Z. apply cutoff_zero.
Qed.
Lemma pmul_nil_r p : canonical p -> pmul RS p [] = [].
Proof. intros C. rewrite pmul_comm; [apply pmul_nil_l, C|exact C|constructor]. Qed.
Lemma pscale_nil c : pscale RS [] c = [].
Proof. apply canonical_ext; [apply pscale_canonical; constructor|constructor|]. intros a b. rewrite coef_pscale by constructor. cbn [coef]. rewrite Rmult_0_l. apply cutoff_zero. Qed.
Section Wide.
Variables (al ga : R) (q1 q2 : rpoly).
Hypotheses (H1 : islin 0 al 0 q1) (H2 : islin 0 0 ga q2) (Baa : Rabs (al * al) < tol) (Bgg : Rabs (ga * ga) < tol) (Bag : Rabs (al * ga) < tol).
Lemma drop_pow q c d : islin 0 c d q -> Rabs (c * c) < tol -> Rabs (c * d) < tol -> Rabs (d * d) < tol -> forall k, ppow_nat RS q (S (S k)) = [].
Proof. intros Hq B1 B2 B3 k. induction k as [|k IH]; [|cbn [ppow_nat] in IH |- *; rewrite IH; apply pmul_nil_l, Hq]. cbn [ppow_nat]. rewrite one_pmul by apply Hq. apply (islin_mul_drop c d c d); try assumption. rewrite Rmult_comm. exact B2. Qed.
Lemma zero_small c : Rabs (c * 0) < tol /\ Rabs (0 * c) < tol.
Proof. rewrite Rmult_0_r, Rmult_0_l, Rabs_R0. split; apply tol_pos. Qed.
Lemma wide_cterm c n m : deg_le 1 (cterm q1 q2 c n m).
Proof.
  destruct (Nat.lt_ge_cases (n + m) 2) as [L|L]; [eapply deg_le_mono; [|apply deg_cterm; eapply deg_lin; eassumption]; lia|].
  assert (P1 : forall k, ppow_nat RS q1 (S (S k)) = []) by (apply (drop_pow q1 al 0 H1 Baa); apply zero_small). assert (P2 : forall k, ppow_nat RS q2 (S (S k)) = []) by (apply (drop_pow q2 0 ga H2); [apply zero_small|apply zero_small|exact Bgg]). assert (Cp : forall q k, canonical (ppow_nat RS q k)) by (intros q k; destruct k; [apply top_one|apply pmul_canonical]).
  assert (Z : pmul RS (ppow_nat RS q1 n) (ppow_nat RS q2 m) = []).
  { destruct n as [|[|n]]; [|destruct m as [|[|m]]; [lia| |rewrite P2; apply pmul_nil_r, Cp]|rewrite P1; apply pmul_nil_l, Cp].
    - destruct m as [|[|m]]; [lia|lia|]. rewrite P2. apply pmul_nil_r, Cp.
    - cbn [ppow_nat]. rewrite !one_pmul by (apply H1 || apply H2). apply (islin_mul_drop al 0 0 ga); try assumption; apply zero_small. }
  unfold cterm. rewrite Z, pscale_nil. intros k [].
Qed.
Lemma wide_compose p : deg_le 1 (pcompose RS p q1 q2).
Proof.
  rewrite compose_eq. unfold compose_from. assert (G : forall acc, deg_le 1 acc -> deg_le 1 (fold_left (fun new (m : rmono) => piadd RS new (cterm q1 q2 (mcoef m) (mx (malpha m)) (my (malpha m)))) p acc)); [|apply G; intros k []].
  induction p as [|m p IH]; intros acc Ha; [exact Ha|]. cbn [fold_left]. apply IH. apply deg_piadd; [apply cterm_canonical|exact Ha|apply wide_cterm].
Qed.
End Wide.
Lemma deg_correct e z0 z1 l0 l1 f : canonical l0 -> canonical l1 -> canonical f -> deg_le 1 l0 -> deg_le 1 l1 -> deg_le 1 f -> deg_le 1 (correct e z0 z1 l0 l1 f).
Proof.
  intros C0 C1 C D0 D1 D. unfold correct. set (a0 := peval RS f (fst z0) (snd z0)). set (a1 := peval RS f (fst z1) (snd z1)). set (r := padd RS (pscale RS l0 a0) (pscale RS l1 a1)). assert (Cr : canonical r) by apply padd_canonical.
  assert (Dg : deg_le 1 (psub RS f r)). { apply coef_deg_le; [apply consolidate_canonical|]. intros i j L. rewrite coef_psub by assumption. unfold r. rewrite coef_padd, !coef_pscale by (try apply pscale_canonical; assumption). rewrite (deg_coef 1 l0 i j D0), (deg_coef 1 l1 i j D1), (deg_coef 1 f i j D) by lia. rewrite !Rmult_0_l, !cutoff_zero, Rplus_0_r, cutoff_zero, Rminus_0_r. apply cutoff_zero. }
  destruct (Rltb _ _); [apply deg_pscale|]; exact Dg.
Qed.
Lemma affine_cross (p : rpoly) x y a : deg_le 1 p -> value p (x + a) y + value p (x - a) y = value p x (y + a) + value p x (y - a).
Proof.
  induction p as [|m p IH]; intros D; [cbn; ring|]. cbn [value]. assert (IHp := IH ltac:(intros k K; apply D; right; exact K)). pose proof (D m (or_introl eq_refl)) as L. destruct m as [al c]. cbn [malpha mcoef mx my] in *. destruct al as [u v]. cbn [mx my] in *. destruct u as [|[|u]], v as [|[|v]]; try lia; cbn [pow]; lra.
Qed.
Lemma span_affine (L : list rpoly) cs x y a : (forall f, In f L -> deg_le 1 f) -> length cs = length L -> let g := combo cs (map value L) in g (x + a) y + g (x - a) y = g x (y + a) + g x (y - a).
Proof.
  cbv zeta. unfold combo. revert cs. induction L as [|f L IH]; intros [|c cs] D E; try discriminate; [cbn; ring|]. cbn [map combine fold_right fst snd]. pose proof (affine_cross f x y a (D f (or_introl eq_refl))) as A. specialize (IH cs ltac:(intros k K; apply D; right; exact K) ltac:(cbn in E; congruence)). nra.
Qed.

(** On an edge whose samples are centred and reach a million far, every square falls under the cutoff:
    the traces are all affine, whatever the degree, and do not span. *)
Theorem C70_wide_refuted e deg vs fs sx sy : (2 <= deg)%nat -> centred fst (ev_pts e) sx -> centred snd (ev_pts e) sy -> 1000000 < sx -> 1000000 < sy -> sx <= 1000000000000 -> sy <= 1000000000000 ->
  build_spanning_set e deg = Ok (vs, fs) -> (forall f, In f (vs ++ fs) -> deg_le 1 f) /\ ~ spans_degree (map value (vs ++ fs)) deg.
Proof.
  intros Hd Cx Cy Lx Ly Ux Uy E. assert (D : forall f, In f (vs ++ fs) -> deg_le 1 f).
  { assert (Ne : ev_pts e <> []) by (destruct Cx as (_ & a & _ & I & _); intros Q; rewrite Q in I; destruct I). assert (Tx : tol <= sx) by (unfold tol; lra). assert (Ty : tol <= sy) by (unfold tol; lra). pose proof (wide_maps _ _ _ Cx Cy Tx Ty) as Eq. destruct (pre_ok e deg Ne ltac:(lia)) as (pre & Ep & Lp & Cp).
    assert (Sm : forall s t, 1000000 < s -> 1000000 < t -> Rabs (1 / s * (1 / t)) < tol). { intros s t Hs Ht. assert (0 < 1 / s) by (apply Rdiv_lt_0_compat; lra). assert (0 < 1 / t) by (apply Rdiv_lt_0_compat; lra). assert (Q : forall u, 1000000 < u -> 1 / u < 1 / 1000000) by (intros u Hu; unfold Rdiv; rewrite !Rmult_1_l; apply Rinv_lt_contravar; lra). pose proof (Q s Hs). pose proof (Q t Ht). rewrite Rabs_right by nra. unfold tol. nra. }
    assert (Al : forall s, 1000000 < s <= 1000000000000 -> tol <= Rabs (1 / s)). { intros s Hs. assert (0 < 1 / s) by (apply Rdiv_lt_0_compat; lra). rewrite Rabs_right by lra. unfold tol, Rdiv. rewrite !Rmult_1_l. apply Rinv_le_contravar; lra. }
    destruct (top_x (1 / sx) 0 (Al sx ltac:(lra))) as (_ & Qx). destruct (top_y (1 / sy) 0 (Al sy ltac:(lra))) as (_ & Qy). rewrite Ropp_0 in *. rewrite !cutoff_zero, !Rmult_0_l, !cutoff_zero in *.
    assert (Dp : forall f, In f pre -> deg_le 1 f). { intros f I. unfold pre_traces in Ep. rewrite Eq in Ep. cbn [bind] in Ep. apply Ok_inj in Ep. subst pre. apply in_map_iff in I. destruct I as (g & <- & _). apply (wide_compose (1 / sx) (1 / sy)); auto. }
    destruct (ev_loop e) eqn:El.
    - unfold build_spanning_set in E. rewrite Ep in E. cbn [bind] in E. rewrite El in E. apply Ok_inj in E. injection E as -> ->. exact Dp.
    - destruct (nonloop e deg vs fs El E) as (z0 & rest & Epts & Db). set (z1 := last (ev_pts e) z0) in *. destruct (bary_edge_ok z0 z1 Db) as (_ & Eb). cbv zeta in Eb. destruct (spanning_ok e deg z0 rest _ _ _ pre El Epts ltac:(lia) Ep Lp Eb) as (gs & Eg & Egs). rewrite E in Eg. injection Eg as -> ->. assert (Dl : forall h a b c, deg_le 1 (bary_one h a b c)) by (intros; eapply deg_lin, bary_one_lin).
      intros f I. cbn [app] in I. destruct I as [<-|[<-|I]]; [apply Dl|apply Dl|]. apply in_app_iff in I. destruct I as [I|[<-|[]]]; [|apply Dl]. rewrite Egs in I. apply in_map_iff in I. destruct I as (g & <- & I). assert (Ig : In g pre) by (apply in_app_iff in I; rewrite <- (firstn_skipn 2 pre); destruct I as [I|I]; [apply in_or_app; right; rewrite <- (firstn_skipn (deg - 1) (skipn 2 pre)); apply in_or_app; left; exact I|rewrite firstn_skipn, <- (firstn_skipn (deg + 2) pre); apply in_or_app; right; exact I]).
      apply deg_correct; try apply Dl; try apply bary_one_lin; [apply (proj1 (Forall_forall _ _) Cp), Ig|apply Dp, Ig]. }
  split; [exact D|]. intros Sp. destruct (Sp 2%nat 0%nat ltac:(lia)) as (cs & Lc & H). rewrite map_length in Lc. pose proof (span_affine _ cs 0 0 1 D Lc) as A. cbv zeta in A. rewrite <- !H in A. cbn [pow] in A. lra.
Qed.
Print Assumptions C70_wide_refuted.

(** Not even on the samples: four points at distance two million from the origin, degree two. *)
Definition ex_wide : eview := EView [(2000000, 0); (0, 2000000); (-2000000, 0); (0, -2000000); (2000000, 0)] (fun l => fold_right Rplus 0 l) true 0 0 0.
Lemma ex_wide_centred : centred fst (ev_pts ex_wide) 2000000 /\ centred snd (ev_pts ex_wide) 2000000.
Proof.
  split; (split; [intros c I; cbn in I; decompose [or] I; subst; cbn; try lra; contradiction|]).
  - exists (-2000000, 0), (2000000, 0). cbn. repeat split; auto; lra.
  - exists (0, -2000000), (0, 2000000). cbn. repeat split; auto 6; lra.
Qed.
Theorem C70_samples_refuted : exists fs, build_spanning_set ex_wide 2 = Ok ([], fs) /\
  forall cs, length cs = length fs -> exists z, In z (ev_pts ex_wide) /\ combo cs (map value fs) (fst z) (snd z) <> fst z ^ 2.
Proof.
  destruct (pre_ok ex_wide 2 ltac:(discriminate) ltac:(lia)) as (pre & Ep & _). assert (E : build_spanning_set ex_wide 2 = Ok ([], pre)) by (unfold build_spanning_set; rewrite Ep; reflexivity). exists pre. split; [exact E|]. intros cs Lc.
  destruct ex_wide_centred as (Cx & Cy). destruct (C70_wide_refuted ex_wide 2 [] pre _ _ ltac:(lia) Cx Cy ltac:(lra) ltac:(lra) ltac:(lra) ltac:(lra) E) as (D & _). pose proof (span_affine pre cs 0 0 2000000 D Lc) as A. cbv zeta in A.
  rewrite !Rplus_0_l, !Rminus_0_l in A. set (g := combo cs (map value pre)) in *. destruct (Req_dec (g 2000000 0) (2000000 ^ 2)) as [E1|N]; [|exists (2000000, 0); split; [left; reflexivity|exact N]]. destruct (Req_dec (g 0 2000000) (0 ^ 2)) as [E2|N]; [|exists (0, 2000000); split; [right; left; reflexivity|exact N]]. destruct (Req_dec (g (-2000000) 0) ((-2000000) ^ 2)) as [E3|N]; [|exists (-2000000, 0); split; [right; right; left; reflexivity|exact N]].
  exists (0, -2000000). split; [right; right; right; left; reflexivity|]. cbn [fst snd]. intros E4. replace (- (2000000)) with (-2000000) in A by lra. rewrite E1, E2, E3, E4 in A. cbn [pow] in A. lra.
Qed.
Print Assumptions C70_samples_refuted.

(** ** Examples *)
Definition ex_round : eview := EView [(1, 0); (0, 1); (-1, 0); (0, -1); (1, 0)] (fun l => fold_right Rplus 0 l) true 0 0 0.
Lemma ex_round_halves : halves (ev_pts ex_round) 1 1.
Proof.
  exists 2, 2. split; [|split; [|split; [rewrite Rmax_left by lra; unfold tol; lra|destruct (Rlt_dec 2 tol) as [L|_]; [unfold tol in L; lra|split; lra]]]].
  - split; [intros a b Ia Ib; cbn in Ia, Ib; decompose [or] Ia; decompose [or] Ib; subst; cbn; try lra; contradiction|]. exists (1, 0), (-1, 0). cbn. repeat split; auto. lra.
  - split; [intros a b Ia Ib; cbn in Ia, Ib; decompose [or] Ia; decompose [or] Ib; subst; cbn; try lra; contradiction|]. exists (0, 1), (0, -1). cbn. repeat split; auto 6. lra.
Qed.
Example C70_loop_example : exists fs, build_spanning_set ex_round 3 = Ok ([], fs) /\ length fs = 10%nat /\ spans_degree (map value fs) 3.
Proof.
  destruct (pre_ok ex_round 3 ltac:(discriminate) ltac:(lia)) as (pre & Ep & Lp & _). assert (E : build_spanning_set ex_round 3 = Ok ([], pre)) by (unfold build_spanning_set; rewrite Ep; reflexivity). exists pre. split; [exact E|]. split; [exact Lp|].
  apply (C70_small ex_round 3 [] pre 1 1 ltac:(lia) ltac:(unfold tol; cbn; lra) ex_round_halves ltac:(lra) ltac:(lra) E). discriminate.
Qed.
(** An edge with two ends, degree 2 *)
Lemma ex_edge1_halves : halves (ev_pts ex_edge1) (1 / 2) (1 / 2).
Proof.
  exists 1, 0. rewrite Rmax_left by lra. split; [|split; [|split; [unfold tol; lra|destruct (Rlt_dec 1 tol) as [L|_]; [unfold tol in L; lra|]; destruct (Rlt_dec 0 tol) as [_|L]; [split; lra|pose proof tol_pos; lra]]]].
  - split; [intros a b Ia Ib; cbn in Ia, Ib; decompose [or] Ia; decompose [or] Ib; subst; cbn; try lra; contradiction|]. exists (1, 0), (0, 0). cbn. repeat split; auto. lra.
  - split; [intros a b Ia Ib; cbn in Ia, Ib; decompose [or] Ia; decompose [or] Ib; subst; cbn; try lra; contradiction|]. exists (1, 0), (0, 0). cbn. repeat split; auto. lra.
Qed.
Example C70_open_example : exists vs fs, build_spanning_set ex_edge1 2 = Ok (vs, fs) /\ length (vs ++ fs) = 6%nat /\ spans_degree (map value (vs ++ fs)) 2.
Proof.
  assert (Hd : tol <= pdist (last (ev_pts ex_edge1) (0, 0)) (0, 0)) by (apply tol_dist; cbn; lra).
  destruct (pre_ok ex_edge1 2 ltac:(discriminate) ltac:(lia)) as (pre & Ep & Lp & _). destruct (bary_edge_ok (0, 0) (last (ev_pts ex_edge1) (0, 0)) Hd) as (_ & Eb). cbv zeta in Eb.
  destruct (spanning_ok ex_edge1 2 (0, 0) [(1, 0)] _ _ _ pre eq_refl eq_refl ltac:(lia) Ep Lp Eb) as (gs & E & Eg). do 2 eexists. split; [exact E|]. split; [rewrite Eg; cbn [app length]; rewrite app_length, map_length, app_length, firstn_length, !skipn_length, Lp; reflexivity|].
  eapply (C70_small ex_edge1 2 _ _ (1 / 2) (1 / 2) ltac:(lia) ltac:(unfold tol; cbn; lra) ex_edge1_halves ltac:(lra) ltac:(lra) E). intros _ z0 rest Q. injection Q as <- _. cbn [last ev_pts ex_edge1].
  assert (S3 : sqrt 3 * sqrt 3 = 3) by (apply sqrt_sqrt; lra). assert (S1 : 1 < sqrt 3) by (rewrite <- sqrt_1; apply sqrt_lt_1_alt; lra). assert (S2 : sqrt 3 < 2) by nra.
  assert (Hh : cross3 (0, 0) (1, 0) (edge_apex (0, 0) (1, 0)) = sqrt 3 / 2) by (rewrite apex_cross, pdist_sq; cbn; field). assert (Ha : edge_apex (0, 0) (1, 0) = (1 / 2, sqrt 3 / 2)) by (unfold edge_apex; cbn; f_equal; field).
  assert (Hi : / 2 < / sqrt 3 < 1) by (split; [apply Rinv_lt_contravar; lra|]; rewrite <- Rinv_1; apply Rinv_lt_contravar; lra).
  unfold ends_kept. cbv zeta. rewrite Hh, Ha. split; [|split]; unit_sig.
Qed.
Example C70_leading_example : ileg_lead 2 * ileg_lead 1 / (1 ^ 2 * 1 ^ 1) = 3 / 2 / sqrt 6 /\ exists fs q, build_spanning_set ex_round 3 = Ok ([], fs) /\ In q fs /\ coef q 2 1 = 3 / 2 / sqrt 6 /\ coef q 1 2 = 0.
Proof.
  assert (V : ileg_lead 2 * ileg_lead 1 / (1 ^ 2 * 1 ^ 1) = 3 / 2 / sqrt 6) by (unfold ileg_lead; replace (4 * INR 2 - 2) with 6 by (cbn; lra); assert (0 < sqrt 6) by (apply sqrt_lt_R0; lra); cbn; field; lra). split; [exact V|].
  destruct C70_loop_example as (fs & E & _ & _). assert (Rm : roomy 3 1 1) by (intros m n _; replace (1 / 1) with 1 by field; rewrite !pow1; unfold tol; cbn; lra). destruct (C70_leading ex_round 3 [] fs 1 1 ltac:(lia) ex_round_halves Rm E 2 1 ltac:(lia)) as (q & s & I & _ & Hs & Q & Z). rewrite (Hs eq_refl), Rmult_1_l, V in Q. exists fs, q. split; [exact E|]. split; [exact I|]. split; [exact Q|]. apply Z; [lia|discriminate].
Qed.
