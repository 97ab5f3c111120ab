(** Examples for C79: a circle, a ring between two circles, and a square with a hole. *)
From Coq Require Import List ZArith Reals Lia Lra Psatz Bool String Permutation.
From Coquelicot Require Import Coquelicot.
From Verif Require Import PyBase PolyModel PolySpec PolyProofs PolyProofs2 PolyProofs4 IntPolyModel IntPolyProofs BaryModel BBoxModel QuadModel QuadSpec QuadProofs QuadProps CurveModel CurveSpec CurveProps VertModel EdgeModel ContourModel CellModel CellSpec EdgeSpec EdgeProofs EdgeProofs2 EdgeProps EdgeProps3 EdgeProps4 CellProofs CellProps ContourProofs ContourProofs3 ContourProofs4 ContourProps CellProps2 CellProps3 Annulus LocalModel LocalSpec LocalProps2 ConvSpec ConvProofs ConvProofs2 ConvProps ConvProps2 ConvProofs3 ConvProofs4 ConvProps3.
From Verif Require Import MeshModel Labels PegSpec PegProofs PegProps PegProps2 ConvProps4 ConvProofs5 ConvProps5.
Import List ListNotations.
Open Scope R_scope.

Definition one_poly : poly RS := [@Mono RS (MI 0 0) 1].
Lemma one_value x y : peval RS one_poly x y = 1.
Proof. unfold one_poly. rewrite peval_value. cbn. ring. Qed.
Lemma const_int (v a b : R) : RInt (fun _ => v) a b = (b - a) * v.
Proof. apply (RInt_const (V:=R_CompleteNormedModule)). Qed.
Lemma one_disc c r : disc_integral (peval RS one_poly) c r = PI * (r * r).
Proof.
  unfold disc_integral. transitivity (RInt (fun s => 2 * PI * s) 0 r).
  - apply RInt_ext. intros s _. transitivity (RInt (fun _ => s) 0 (2 * PI)); [apply RInt_ext; intros t _; rewrite one_value; apply Rmult_1_l|]. rewrite const_int. req. ring.
  - apply (is_RInt_unique (V:=R_CompleteNormedModule)). replace (PI * (r * r)) with (PI * (r * r) - PI * (0 * 0)) by ring. apply (is_RInt_derive (fun s => PI * (s * s)) (fun s => 2 * PI * s)).
    + intros s _. auto_derive; [trivial|ring].
    + intros s _. apply (continuous_mult (fun _ => 2 * PI) (fun s => s)); [apply continuous_const|apply continuous_id].
Qed.
Lemma one_rectangle x0 x1 y0 y1 : rectangle_integral (peval RS one_poly) x0 x1 y0 y1 = (x1 - x0) * (y1 - y0).
Proof.
  unfold rectangle_integral. transitivity (RInt (fun _ => y1 - y0) x0 x1); [|apply const_int]. apply RInt_ext. intros x _. transitivity (RInt (fun _ => 1) y0 y1); [apply RInt_ext; intros y _; apply one_value|]. rewrite const_int. req. ring.
Qed.

(** ** A circle *)
Lemma ring_round x r p n : 0 < r -> round_edge (ring x r p n) (x, 0) r.
Proof. intros H. split; [reflexivity|]. split; [reflexivity|]. split; [reflexivity|]. split; [exact H|]. split; [eexists; split; reflexivity|left; reflexivity]. Qed.
(** The integral of the first coordinate over the unit circle around (1, 0) is 2 pi; with 2n + 1 points the error is at most
    (2 pi)^3 / (48 n^2). *)
Definition abscissa (x n : pt) : R := fst x.
Lemma abscissa_continuous : continuous_field abscissa.
Proof. intros q. apply (continuous_comp (fun q : (R * R) * (R * R) => fst q) (fun x : R * R => fst x)); [apply continuous_fst|apply continuous_fst]. Qed.
Lemma abscissa_integrand p n t : line_integrand abscissa 1 (traced (ring_X 1) (ring 1 1 p n)) (ring_DX 1) t = 1 + cos t.
Proof.
  unfold line_integrand, abscissa. rewrite (round_traced _ _ _ t (ring_round 1 1 p n Rlt_0_1)). unfold px. cbn [fst]. unfold EdgeSpec.norm. rewrite ring_norm by lra. replace (1 * 1) with 1 by ring || replace (1 ^ 2) with 1 by ring. rewrite sqrt_1. ring.
Qed.
Lemma abscissa_integral p n : line_integral abscissa 1 (traced (ring_X 1) (ring 1 1 p n)) (ring_DX 1) 0 (2 * PI) = 2 * PI.
Proof.
  unfold line_integral. transitivity (RInt (fun t => 1 + cos t) 0 (2 * PI)); [apply RInt_ext; intros t _; apply abscissa_integrand|].
  apply (is_RInt_unique (V:=R_CompleteNormedModule)). replace (2 * PI) with ((2 * PI + sin (2 * PI)) - (0 + sin 0)) at 2 by (rewrite sin_2PI, sin_0; ring). apply (is_RInt_derive (fun t => t + sin t) (fun t => 1 + cos t)).
  - intros t _. auto_derive; [trivial|ring].
  - intros t _. apply (continuous_plus (fun _ => 1) cos); [apply continuous_const|]. apply (ex_derive_continuous cos). auto_derive. trivial.
Qed.
Example C79_example_circle p n : (2 <= p)%Z -> (4 <= n)%Z -> exists qd e' I, get_quad_dict (PInt n) p = Ok qd /\ parameterize qd (ring 1 1 2 1) = Ok e' /\
  integrate_over_edge (map (fun s => fst (sx s)) (e_smp e')) false e' = Ok I /\ Rabs (I - 2 * PI) <= (2 * PI) ^ 3 / (48 * IZR n ^ 2).
Proof.
  intros Hp Hn. pose proof (ring_round 1 1 2 1 Rlt_0_1) as Rd. assert (D : forall t, fst (0, 2 * PI) <= t <= snd (0, 2 * PI) -> is_derive (line_integrand abscissa 1 (traced (ring_X 1) (ring 1 1 2 1)) (ring_DX 1)) t (- sin t) /\ is_derive (fun t => - sin t) t (- cos t) /\ Rabs (- cos t) <= 1).
  { intros t _. split; [apply (is_derive_ext (fun t => 1 + cos t)); [intros s; symmetry; apply abscissa_integrand|auto_derive; [trivial|ring]]|]. split; [auto_derive; [trivial|ring]|]. rewrite Rabs_Ropp. apply Rabs_le. pose proof (COS_bound t). lra. }
  destruct (C79_second_order abscissa (ring 1 1 2 1) _ _ _ _ _ 1 p n abscissa_continuous (round_smooth _ _ _ Rd) (round_velocity _ _ _ Rd) Hp eq_refl Hn D) as (qd & e' & I & A & B & C & E). exists qd, e', I. cbn [ring e_tb fst snd] in E. rewrite abscissa_integral in E. rewrite Rminus_0_r, Rmult_1_l in E. auto.
Qed.

(** ** The ring between the circle of radius 4 around (0, 0) and the one of radius 1 around (1, 0) has the area 15 pi. *)
Example C79_example_ring p tol : (2 <= p)%Z -> 0 < tol -> exists c, mk_cell rings 1 [1; 0]%nat (33, 33)%Z tol tol = Ok c /\ forall eps, 0 < eps -> exists K, forall n, (K <= n)%Z ->
  exists qd H' c' I, get_quad_dict (PInt n) p = Ok qd /\ param_cell within qd false rings c = Ok (H', c') /\ int_poly one_poly H' c' = Ok I /\ Rabs (I - 15 * PI) <= eps.
Proof.
  intros Hp Ht. pose proof (ring_cell_outer (33, 33)%Z tol Ht) as Mk. eexists. split; [exact Mk|]. intros eps He.
  destruct (C79_shapes one_poly within rings 1 [1; 0]%nat _ _ _ _ p [(true, Round (0, 0) 4 1%nat); (false, Round (1, 0) 1 0%nat)] Hp Mk) with (eps := eps) as (K & HK).
  - reflexivity.
  - constructor; [|constructor; [|constructor]]; cbn [fst snd bounded_by].
    + exists (ring 0 4 1 (-1)). split; [reflexivity|]. split; [apply ring_round; lra|]. split; reflexivity.
    + exists (ring 1 1 2 1). split; [reflexivity|]. split; [apply ring_round; lra|]. split; [discriminate|discriminate].
  - exact He.
  - exists (Z.max 4 K). intros n Hn. destruct (C19_dict n p ltac:(lia) Hp) as (a & b & Eq & _). set (c := made _ _ _ _ _) in *.
    assert (T1 : TOL <= 1) by (unfold TOL; lra).
    destruct (ready_cell within (a, b) (PInt n) p rings c Eq (built_wf _ _ _ _ _ _ _ Mk)) as (H' & c' & Pc); [discriminate| |].
    { constructor; [|constructor; [|constructor]].
      - apply (round_ready rings (unset 1 1 1) 1%nat (ring 0 4 1 (-1)) (0, 0) 4 1 p n (a, b)); try reflexivity; try assumption; [lia|apply ring_round; lra|lra].
      - apply (round_ready rings (unset 1 0 (-1)) 0%nat (ring 1 1 2 1) (1, 0) 1 (-1) p n (a, b)); try reflexivity; try assumption; [lia|apply ring_round; lra]. }
    destruct (HK n ltac:(lia) (a, b) false H' c' Eq Pc) as (I & EI & HI). exists (a, b), H', c', I. split; [exact Eq|]. split; [exact Pc|]. split; [exact EI|]. cbn [map fst snd outline_integral] in HI. rewrite !one_disc in HI. unfold sum_list in HI. cbn [fold_right] in HI. replace (15 * PI) with (1 * (PI * (4 * 4)) + (-1 * (PI * (1 * 1)) + 0)) by ring. exact HI.
Qed.

(** ** The board with one square and a hole of radius 1/4 *)
Example C79_example_board p : (2 <= p)%Z -> exists H m c, pegboard (1, 1)%Z (1 / 4) = Ok (H, m) /\ get_cell H m 0 = Ok c /\
  forall eps, 0 < eps -> exists K, forall n, (K <= n)%Z -> exists qd H' c' I, get_quad_dict (PInt n) p = Ok qd /\ param_cell within qd false H c = Ok (H', c') /\ int_poly one_poly H' c' = Ok I /\ Rabs (I - (1 - PI / 16)) <= eps.
Proof.
  intros Hp. destruct (pegboard_ok 1 1 (1 / 4) ltac:(lia) ltac:(lia)) as (H & m & E & _). exists H, m. destruct (C79_pegboard_runs one_poly 1 1 (1 / 4) H m 0 0 p Hp ltac:(lia) ltac:(lia) E ltac:(lia) ltac:(lia)) as (A & _).
  { intros _. unfold spacing, TOL. cbn. lra. }
  assert (Q : Rltb 0 (1 / 4) = true) by (apply Rltb_true; lra). rewrite Q in A. destruct A as (c & G & _ & L); [cbn; lia|]. exists c. split; [exact E|]. split; [exact G|]. rewrite one_disc, one_rectangle in L. unfold spacing in L. cbn [Nat.max INR] in L.
  replace (1 - PI / 16) with ((1 * (1 / 1) - 0 * (1 / 1)) * (1 * (1 / 1) - 0 * (1 / 1)) - PI * (1 / 4 * (1 / 1) * (1 / 4 * (1 / 1)))) by field. exact L.
Qed.
