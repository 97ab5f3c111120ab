From Coq Require Import List ZArith Reals Lia Lra Arith.
From Verif Require Import PyBase PolyModel PolySpec PolyProofs PolyProofs2 PolyProofs4 LegendreProofs BaryModel BarySpec.
Import ListNotations.
Open Scope R_scope.

Definition lin (c0 cx cy : R) : rpoly := [rmon c0 0 0; rmon cx 1 0; rmon cy 0 1].
Definition tlin (c0 cx cy : R) (a b : nat) : R :=
  match a, b with
  | O, O => c0 | S O, O => cx | O, S O => cy | _, _ => 0
  end.
Lemma coef_lin c0 cx cy a b : coef (lin c0 cx cy) a b = tlin c0 cx cy a b.
Proof. destruct a as [|[|a]], b as [|[|b]]; cbn; ring. Qed.
Lemma value_lin c0 cx cy x y : value (lin c0 cx cy) x y = c0 + cx * x + cy * y.
Proof. cbn. ring. Qed.

Definition islin c0 cx cy (p : rpoly) : Prop := canonical p /\ forall a b, coef p a b = tlin c0 cx cy a b.
Lemma islin_value c0 cx cy p x y : islin c0 cx cy p -> value p x y = c0 + cx * x + cy * y.
Proof.
  intros [_ H]. rewrite <- value_lin. apply value_coef_ext. intros a b. rewrite coef_lin. apply H.
Qed.

Lemma cut_tlin c0 cx cy a b : cutoff (tlin c0 cx cy a b) = tlin (cutoff c0) (cutoff cx) (cutoff cy) a b.
Proof. destruct a as [|[|a]], b as [|[|b]]; cbn; try reflexivity; apply cutoff_zero. Qed.

Lemma cutoff_1 : cutoff 1 = 1.
Proof. apply cutoff_id. rewrite Rabs_R1. pose proof tol_lt1. lra. Qed.

Lemma islin_x : islin 0 1 0 (mkpoly RS [(1, 1%nat, 0%nat)]).
Proof.
  split; [apply mkpoly_canonical|]. intros a b. rewrite coef_mkpoly. cbn [fold_right].
  destruct a as [|[|a]], b as [|[|b]]; cbn; rewrite ?Rplus_0_r, ?cutoff_1, ?cutoff_zero; try reflexivity; apply cutoff_1.
Qed.
Lemma islin_y : islin 0 0 1 (mkpoly RS [(1, 0%nat, 1%nat)]).
Proof.
  split; [apply mkpoly_canonical|]. intros a b. rewrite coef_mkpoly. cbn [fold_right].
  destruct a as [|[|a]], b as [|[|b]]; cbn; rewrite ?Rplus_0_r, ?cutoff_1, ?cutoff_zero; try reflexivity; apply cutoff_1.
Qed.

Lemma islin_scale c0 cx cy p c : islin c0 cx cy p ->
  islin (cutoff (c0 * c)) (cutoff (cx * c)) (cutoff (cy * c)) (pscale RS p c).
Proof.
  intros [C H]. split; [apply pscale_canonical, C|]. intros a b. rewrite coef_pscale, H by exact C.
  rewrite <- cut_tlin. f_equal. destruct a as [|[|a]], b as [|[|b]]; cbn; ring.
Qed.
Lemma islin_sub c0 cx cy p d0 dx dy q : islin c0 cx cy p -> islin d0 dx dy q ->
  islin (cutoff (c0 - d0)) (cutoff (cx - dx)) (cutoff (cy - dy)) (psub RS p q).
Proof.
  intros [C H] [C' H']. split; [apply consolidate_canonical|]. intros a b. rewrite coef_psub, H, H' by assumption.
  rewrite <- cut_tlin. f_equal. destruct a as [|[|a]], b as [|[|b]]; cbn; ring.
Qed.
Lemma islin_add c0 cx cy p d0 dx dy q : islin c0 cx cy p -> islin d0 dx dy q ->
  islin (cutoff (c0 + d0)) (cutoff (cx + dx)) (cutoff (cy + dy)) (padd RS p q).
Proof.
  intros [C H] [C' H']. split; [apply consolidate_canonical|]. intros a b. rewrite coef_padd, H, H' by assumption.
  rewrite <- cut_tlin. f_equal. destruct a as [|[|a]], b as [|[|b]]; cbn; ring.
Qed.
Lemma cut_cut c : cutoff (cutoff c) = cutoff c.
Proof. unfold cutoff at 2 3. destruct (Rlt_dec (Rabs c) tol); [apply cutoff_zero|]. apply cutoff_id. lra. Qed.

Lemma islin_adds c0 cx cy p c : islin c0 cx cy p -> islin (cutoff (c0 + cutoff c)) cx cy (padd_scal RS p c).
Proof.
  intros [C H]. split; [apply consolidate_canonical|]. intros a b. rewrite coef_padd_scal, H by exact C.
  assert (K : forall u v, cutoff (coef p u v) = coef p u v) by (intros u v; apply cutoff_keep, canonical_coef_big, C).
  pose proof (K 1%nat 0%nat) as K1. pose proof (K 0%nat 1%nat) as K2. rewrite H in K1, K2. cbn in K1, K2.
  unfold delta0. destruct a as [|[|a]], b as [|[|b]]; cbn; rewrite ?Rplus_0_r; try apply cutoff_zero; congruence.
Qed.
Lemma piadd_scal_padd p c : canonical p -> piadd_scal RS p c = padd_scal RS p c.
Proof.
  intros C. unfold piadd_scal, padd_scal. f_equal. f_equal. rewrite fold_add_monomial. cbn [app].
  symmetry. apply filter_nz_canonical, C.
Qed.
Lemma islin_subs c0 cx cy p c : islin c0 cx cy p -> islin (cutoff (c0 + cutoff (- c))) cx cy (psub_scal RS p c).
Proof.
  intros H. unfold psub_scal. replace (smul RS (sofZ RS (-1)) c) with (- c) by (cbn; ring). apply islin_adds, H.
Qed.

(** The coefficients of one barycentric function, cutoffs included. *)
Definition bc0 (h : R) (zm z zp : pt) : R :=
  cutoff (cutoff (cutoff (cutoff (cutoff (- fst z) * (snd zm - snd zp)) - cutoff (cutoff (- snd z) * (fst zm - fst zp))) * (-1 / h)) + 1).
Definition bcx (h : R) (zm z zp : pt) : R := cutoff (cutoff (snd zm - snd zp) * (-1 / h)).
Definition bcy (h : R) (zm z zp : pt) : R := cutoff (- cutoff (fst zm - fst zp) * (-1 / h)).

Lemma cutoff_opp c : cutoff (- c) = - cutoff c.
Proof. unfold cutoff. rewrite Rabs_Ropp. destruct (Rlt_dec _ _); ring. Qed.

Lemma bary_one_lin h zm z zp : islin (bc0 h zm z zp) (bcx h zm z zp) (bcy h zm z zp) (bary_one h zm z zp).
Proof.
  unfold bary_one.
  pose proof (islin_scale _ _ _ _ (snd zm - snd zp) (islin_subs _ _ _ _ (fst z) islin_x)) as A.
  pose proof (islin_scale _ _ _ _ (fst zm - fst zp) (islin_subs _ _ _ _ (snd z) islin_y)) as B.
  pose proof (islin_scale _ _ _ _ (-1 / h) (islin_sub _ _ _ _ _ _ _ _ A B)) as D.
  rewrite piadd_scal_padd by apply D. pose proof (islin_adds _ _ _ _ 1 D) as E.
  revert E. set (dy := snd zm - snd zp). set (dx := fst zm - fst zp).
  rewrite cutoff_1, !Rmult_0_l, !Rmult_1_l, !cutoff_zero, !Rplus_0_l, !cut_cut, Rminus_0_r, Rminus_0_l, (cutoff_opp (cutoff dx)), !cut_cut.
  intros E. unfold bc0, bcx, bcy. fold dx dy. exact E.
Qed.

(** The exact function. *)
Definition bary_exact (h : R) (zm z zp : pt) (x y : R) : R :=
  1 - ((x - fst z) * (snd zm - snd zp) - (y - snd z) * (fst zm - fst zp)) / h.

Lemma sig_opp c : sig c -> sig (- c).
Proof. unfold sig. rewrite Rabs_Ropp. intros [->|H]; [left; ring|right; exact H]. Qed.

Lemma bary_one_exact h zm z zp x y : h <> 0 -> bary_sig h zm z zp ->
  value (bary_one h zm z zp) x y = bary_exact h zm z zp x y.
Proof.
  intros Hh (S1 & S2 & S3 & S4 & S5 & S6 & S7 & S8 & S9 & S10 & S11).
  rewrite (islin_value _ _ _ _ x y (bary_one_lin h zm z zp)). unfold bc0, bcx, bcy, bary_exact.
  set (dy := snd zm - snd zp) in *. set (dx := fst zm - fst zp) in *.
  rewrite !cutoff_opp, (cutoff_keep (fst z)), (cutoff_keep (snd z)), (cutoff_keep dx), (cutoff_keep dy) by assumption.
  replace (- fst z * dy) with (- (fst z * dy)) by ring. replace (- snd z * dx) with (- (snd z * dx)) by ring.
  rewrite !cutoff_opp, (cutoff_keep (fst z * dy)), (cutoff_keep (snd z * dx)) by assumption.
  replace (- (fst z * dy) - - (snd z * dx)) with (snd z * dx - fst z * dy) by ring.
  rewrite (cutoff_keep (snd z * dx - fst z * dy)) by assumption.
  replace ((snd z * dx - fst z * dy) * (-1 / h)) with (- ((snd z * dx - fst z * dy) / h)) by (field; exact Hh).
  replace (dy * (-1 / h)) with (- (dy / h)) by (field; exact Hh).
  replace (- dx * (-1 / h)) with (dx / h) by (field; exact Hh).
  rewrite !cutoff_opp, (cutoff_keep (dx / h)), (cutoff_keep (dy / h)), (cutoff_keep ((snd z * dx - fst z * dy) / h)) by assumption.
  replace (- ((snd z * dx - fst z * dy) / h) + 1) with (1 - (snd z * dx - fst z * dy) / h) by ring.
  rewrite (cutoff_keep (1 - _)) by assumption. field. exact Hh.
Qed.

(** Without any no-drop condition, the error is bounded. *)
Lemma bary_one_err h zm z zp x y : h <> 0 ->
  Rabs (value (bary_one h zm z zp) x y - bary_exact h zm z zp x y)
  <= bary_err h (fst zm - fst zp) (snd zm - snd zp) x y.
Proof.
  intros Hh. rewrite (islin_value _ _ _ _ x y (bary_one_lin h zm z zp)). unfold bc0, bcx, bcy, bary_exact, bary_err.
  set (dy := snd zm - snd zp) in *. set (dx := fst zm - fst zp) in *.
  assert (E : forall c, exists e, cutoff c = c + e /\ Rabs e <= tol).
  { intros c. exists (cutoff c - c). split; [ring|]. apply cutoff_err. }
  destruct (E (- fst z)) as (e1 & -> & B1). destruct (E (- snd z)) as (e2 & -> & B2).
  destruct (E dx) as (e3 & -> & B3). destruct (E dy) as (e4 & -> & B4).
  destruct (E ((- fst z + e1) * dy)) as (e5 & -> & B5). destruct (E ((- snd z + e2) * dx)) as (e6 & -> & B6).
  match goal with |- context [cutoff (cutoff (cutoff ?u * _) + 1)] => destruct (E u) as (e7 & -> & B7) end.
  match goal with |- context [cutoff (cutoff ?u + 1)] => destruct (E u) as (e8 & -> & B8) end.
  match goal with |- context [cutoff ?u + _ + _] => destruct (E u) as (e9 & -> & B9) end.
  match goal with |- context [_ + cutoff ?u * x + _] => destruct (E u) as (e10 & -> & B10) end.
  match goal with |- context [_ + cutoff ?u * y] => destruct (E u) as (e11 & -> & B11) end.
  match goal with |- Rabs ?u <= _ => replace u with
    ((e1 * dy + e5 - e2 * dx - e6 + e7 + e4 * x - e3 * y) * (-1 / h) + e8 + e9 + e10 * x + e11 * y) by (field; exact Hh) end.
  assert (Hi : Rabs (-1 / h) = / Rabs h).
  { unfold Rdiv. rewrite Rabs_mult, Rabs_inv. replace (Rabs (-1)) with 1 by (rewrite Rabs_left by lra; ring). ring. }
  assert (M : forall e k, Rabs e <= tol -> Rabs (e * k) <= tol * Rabs k).
  { intros e k H. rewrite Rabs_mult. apply Rmult_le_compat_r; [apply Rabs_pos|exact H]. }
  assert (N : Rabs (e1 * dy + e5 - e2 * dx - e6 + e7 + e4 * x - e3 * y) <= tol * (Rabs dx + Rabs dy + Rabs x + Rabs y + 3)).
  { pose proof (M e1 dy B1). pose proof (M e2 dx B2). pose proof (M e4 x B4). pose proof (M e3 y B3).
    pose proof (Rabs_triang (e1 * dy + e5 - e2 * dx - e6 + e7 + e4 * x) (- (e3 * y))).
    pose proof (Rabs_triang (e1 * dy + e5 - e2 * dx - e6 + e7) (e4 * x)).
    pose proof (Rabs_triang (e1 * dy + e5 - e2 * dx - e6) e7).
    pose proof (Rabs_triang (e1 * dy + e5 - e2 * dx) (- e6)).
    pose proof (Rabs_triang (e1 * dy + e5) (- (e2 * dx))).
    pose proof (Rabs_triang (e1 * dy) e5).
    rewrite ?Rabs_Ropp in *. unfold Rminus in *. lra. }
  pose proof (Rabs_triang ((e1 * dy + e5 - e2 * dx - e6 + e7 + e4 * x - e3 * y) * (-1 / h) + e8 + e9 + e10 * x) (e11 * y)).
  pose proof (Rabs_triang ((e1 * dy + e5 - e2 * dx - e6 + e7 + e4 * x - e3 * y) * (-1 / h) + e8 + e9) (e10 * x)).
  pose proof (Rabs_triang ((e1 * dy + e5 - e2 * dx - e6 + e7 + e4 * x - e3 * y) * (-1 / h) + e8) e9).
  pose proof (Rabs_triang ((e1 * dy + e5 - e2 * dx - e6 + e7 + e4 * x - e3 * y) * (-1 / h)) e8).
  pose proof (M e10 x B10). pose proof (M e11 y B11).
  set (U := e1 * dy + e5 - e2 * dx - e6 + e7 + e4 * x - e3 * y) in *.
  assert (P : 0 < / Rabs h) by (apply Rinv_0_lt_compat, Rabs_pos_lt, Hh).
  assert (Q : Rabs (U * (-1 / h)) <= tol * ((Rabs dx + Rabs dy + 2 * Rabs x + 2 * Rabs y + 3) / Rabs h)).
  { rewrite Rabs_mult, Hi. unfold Rdiv. rewrite <- Rmult_assoc. apply Rmult_le_compat_r; [lra|].
    eapply Rle_trans; [exact N|]. apply Rmult_le_compat_l; [left; apply tol_pos|].
    pose proof (Rabs_pos x). pose proof (Rabs_pos y). lra. }
  lra.
Qed.

(** ** Heron's formula *)
Lemma pdist_sq p q : pdist p q * pdist p q = (fst p - fst q) * (fst p - fst q) + (snd p - snd q) * (snd p - snd q).
Proof.
  unfold pdist. apply sqrt_sqrt. pose proof (Rle_0_sqr (fst p - fst q)) as A. pose proof (Rle_0_sqr (snd p - snd q)) as B.
  unfold Rsqr in *. lra.
Qed.

Lemma heron_cross z0 z1 z2 : heron (pdist z0 z2) (pdist z1 z0) (pdist z2 z1) = Rabs (cross3 z0 z1 z2).
Proof.
  unfold heron. set (a := pdist z0 z2). set (b := pdist z1 z0). set (c := pdist z2 z1).
  assert (E : (a + b + c) / 2 * ((a + b + c) / 2 - a) * ((a + b + c) / 2 - b) * ((a + b + c) / 2 - c)
              = Rsqr (cross3 z0 z1 z2 / 2)).
  { transitivity ((2 * ((a * a) * (b * b)) + 2 * ((b * b) * (c * c)) + 2 * ((c * c) * (a * a))
                   - (a * a) * (a * a) - (b * b) * (b * b) - (c * c) * (c * c)) / 16); [field|].
    unfold a, b, c. rewrite !pdist_sq. unfold Rsqr, cross3. destruct z0, z1, z2; cbn. field. }
  rewrite E, sqrt_Rsqr_abs. unfold Rdiv. rewrite Rabs_mult, (Rabs_right (/ 2)) by lra. field.
Qed.

(** ** The triangle *)
Lemma bary_exact_nodes z0 z1 z2 : 0 < cross3 z0 z1 z2 ->
  let h := Rabs (cross3 z0 z1 z2) in
  bary_exact h z2 z0 z1 (fst z0) (snd z0) = 1 /\ bary_exact h z2 z0 z1 (fst z1) (snd z1) = 0 /\
  bary_exact h z2 z0 z1 (fst z2) (snd z2) = 0.
Proof.
  intros H h. unfold h. rewrite Rabs_right by lra. unfold bary_exact, cross3 in *.
  destruct z0, z1, z2; cbn in *. repeat split; field; lra.
Qed.

Lemma cross3_rot z0 z1 z2 : cross3 z1 z2 z0 = cross3 z0 z1 z2.
Proof. unfold cross3. ring. Qed.

Lemma bary_exact_sum z0 z1 z2 x y : cross3 z0 z1 z2 > 0 ->
  let h := Rabs (cross3 z0 z1 z2) in
  bary_exact h z2 z0 z1 x y + bary_exact h z0 z1 z2 x y + bary_exact h z1 z2 z0 x y = 1.
Proof.
  intros H h. unfold h. rewrite Rabs_right by lra. unfold bary_exact, cross3 in *.
  destruct z0, z1, z2; cbn in *. field. lra.
Qed.

Lemma bary_ok z0 z1 z2 : tol <= pdist z0 z2 -> tol <= pdist z1 z0 -> tol <= pdist z2 z1 ->
  let h := Rabs (cross3 z0 z1 z2) in
  barycentric_coordinates z0 z1 z2 = Ok (bary_one h z2 z0 z1, bary_one h z0 z1 z2, bary_one h z1 z2 z0).
Proof.
  intros H0 H1 H2 h. unfold barycentric_coordinates, degenerate_side, Rltb. fold tol.
  destruct (Rlt_dec (pdist z0 z2) tol) as [F|_]; [lra|]. destruct (Rlt_dec (pdist z1 z0) tol) as [F|_]; [lra|].
  destruct (Rlt_dec (pdist z2 z1) tol) as [F|_]; [lra|]. rewrite heron_cross. reflexivity.
Qed.

Lemma bary_degenerate z0 z1 z2 : pdist z0 z2 < tol \/ pdist z1 z0 < tol \/ pdist z2 z1 < tol ->
  barycentric_coordinates z0 z1 z2 = Err DegenerateTriangleError.
Proof.
  intros H. unfold barycentric_coordinates, degenerate_side, Rltb. fold tol.
  destruct (Rlt_dec (pdist z0 z2) tol); [reflexivity|]. destruct (Rlt_dec (pdist z1 z0) tol); [reflexivity|].
  destruct (Rlt_dec (pdist z2 z1) tol); [reflexivity|]. lra.
Qed.

(** ** The edge *)
Lemma apex_cross z0 z1 : cross3 z0 z1 (edge_apex z0 z1) = sqrt 3 / 2 * (pdist z1 z0 * pdist z1 z0).
Proof. rewrite pdist_sq. unfold cross3, edge_apex. cbn. field. Qed.

Lemma apex_dist z0 z1 : pdist z0 (edge_apex z0 z1) = pdist z1 z0 /\ pdist (edge_apex z0 z1) z1 = pdist z1 z0.
Proof.
  assert (S : sqrt 3 * sqrt 3 = 3) by (apply sqrt_sqrt; lra).
  destruct z0 as [a b], z1 as [c d].
  split; unfold pdist; f_equal; unfold edge_apex; cbn [fst snd];
    (transitivity ((1 / 4 + sqrt 3 * sqrt 3 / 4) * ((c - a) * (c - a) + (d - b) * (d - b))); [field|rewrite S; field]).
Qed.

Lemma bary_edge_ok z0 z1 : tol <= pdist z1 z0 ->
  let z2 := edge_apex z0 z1 in let h := cross3 z0 z1 z2 in
  0 < h /\
  barycentric_coordinates_edge z0 z1 = Ok (bary_one h z2 z0 z1, bary_one h z0 z1 z2, bary_one h z1 z2 z0).
Proof.
  intros H z2 h. pose proof tol_pos as Ht. destruct (apex_dist z0 z1) as [D1 D2].
  assert (Hh : 0 < h).
  { unfold h, z2. rewrite apex_cross. assert (0 < sqrt 3) by (apply sqrt_lt_R0; lra).
    apply Rmult_lt_0_compat; [lra|]. apply Rmult_lt_0_compat; lra. }
  split; [exact Hh|]. unfold barycentric_coordinates_edge. fold z2. rewrite bary_ok.
  - replace (Rabs (cross3 z0 z1 z2)) with h; [reflexivity|]. unfold h. rewrite Rabs_right; [reflexivity|]. unfold h in Hh. lra.
  - unfold z2. rewrite D1. exact H.
  - exact H.
  - unfold z2. rewrite D2. exact H.
Qed.
