(** Quadrature: C19 (trapezoid), C20 (Kress), C21 (Martensen). *)
From Coq Require Import List ZArith Reals Lia Lra String.
From Coquelicot Require Import Coquelicot.
From Verif Require Import PyBase PolyModel QuadModel QuadSpec QuadProofs QuadProofs2 QuadProofs3.
Import ListNotations.
Open Scope R_scope.

Lemma quad_trap n p : mk_quad "trap" (PInt n) p = if Z.ltb n 4 then Err ValueError else
  let N := Z.to_nat n in let t := linspace 0 (2 * PI) (2 * N) in Ok (Quad_ "trap" N (PI / INR N) t (map (fun _ => 1) t)).
Proof. unfold mk_quad, set_n. destruct (Z.ltb n 4); reflexivity. Qed.
Lemma quad_kress n p : mk_quad "kress" (PInt n) p = if Z.ltb n 4 then Err ValueError else if Z.ltb p 2 then Err ValueError else
  let N := Z.to_nat n in let t := linspace 0 (2 * PI) (2 * N) in
  Ok (Quad_ "kress" N (PI / INR N) (map (kress_node (Z.to_nat p)) t) (map (kress_wgt (Z.to_nat p)) t)).
Proof. unfold mk_quad, set_n. destruct (Z.ltb n 4); reflexivity. Qed.
Lemma quad_mart n p : mk_quad "mart" (PInt n) p = if Z.ltb n 4 then Err ValueError else
  let N := Z.to_nat n in let t := linspace 0 (2 * PI) (2 * N) in Ok (Quad_ "mart" N (PI / INR N) (map mart_node t) (map (mart_wgt N) t)).
Proof. unfold mk_quad, set_n. destruct (Z.ltb n 4); reflexivity. Qed.

(** ** C19 *)

(** Nodes, weights and step of the default rule. *)
Theorem C19_nodes n p q : mk_quad "trap" (PInt n) p = Ok q ->
  (4 <= n)%Z /\ q_n q = Z.to_nat n /\ q_h q = PI / IZR n /\
  List.length (q_t q) = (2 * q_n q + 1)%nat /\ List.length (q_wgt q) = (2 * q_n q + 1)%nat /\
  forall i, (i <= 2 * q_n q)%nat -> nth i (q_t q) 0 = INR i * (2 * PI) / INR (2 * q_n q) /\ nth i (q_wgt q) 0 = 1.
Proof.
  rewrite quad_trap. destruct (Z.ltb_spec n 4); [discriminate|]. cbv zeta. intros H0. apply Ok_inj in H0. subst q. cbn [q_n q_h q_t q_wgt].
  split; [lia|]. split; [reflexivity|]. split; [rewrite INR_IZR_INZ, Z2Nat.id by lia; reflexivity|].
    rewrite map_length, linspace_length. split; [lia|]. split; [lia|]. intros i Hi.
  rewrite linspace_nth by exact Hi. rewrite nth_map_linspace by lia. split; [|reflexivity]. field. apply not_0_INR. lia.
Qed.
Print Assumptions C19_nodes.

(** Exactness below degree 2n: the rule equals the integral of every trigonometric polynomial. *)
Theorem C19_exact n p q a b m : mk_quad "trap" (PInt n) p = Ok q -> (m < 2 * q_n q)%nat ->
  is_RInt (trig a b m) 0 (2 * PI) (sum_n (fun i => q_h q * nth i (q_wgt q) 0 * trig a b m (nth i (q_t q) 0)) (2 * q_n q)).
Proof.
  intros H Hm. destruct (C19_nodes n p q H) as (Hn & Eq & Eh & _ & _ & Hi). assert (N : (0 < q_n q)%nat) by lia.
  rewrite (sum_n_ext _ (fun i => q_h q * trig a b m (grid (q_n q) i))).
  2:{ intros i Li. destruct (Hi i ltac:(lia)) as [-> ->]. replace (INR i * (2 * PI) / INR (2 * q_n q)) with (grid (q_n q) i); [ring|].
      unfold grid. rewrite mult_INR. cbn [INR]. field. apply not_0_INR. lia. }
  rewrite sum_n_scal, rule_trig, sum_n_zero, Rplus_0_r by (exact N || (intros k Hk; rewrite Nat.mod_small by lia; reflexivity)).
  replace (q_h q * (2 * INR (q_n q) * a O)) with (2 * PI * a O); [apply int_trig|]. rewrite Eh, Eq, INR_IZR_INZ, Z2Nat.id by lia. field. apply not_0_IZR. lia.
Qed.
Print Assumptions C19_exact.

(** At degree 2n the rule aliases: cos(2nt) integrates to 0, the rule gives 2 pi. *)
Theorem C19_alias n p q : mk_quad "trap" (PInt n) p = Ok q ->
  is_RInt (fun t => cos (INR (2 * q_n q) * t)) 0 (2 * PI) 0 /\
  sum_n (fun i => q_h q * nth i (q_wgt q) 0 * cos (INR (2 * q_n q) * nth i (q_t q) 0)) (2 * q_n q) = 2 * PI.
Proof.
  intros H. destruct (C19_nodes n p q H) as (Hn & Eq & Eh & _ & _ & Hi). assert (N : (0 < q_n q)%nat) by lia.
  split; [apply int_cos; lia|].
  rewrite (sum_n_ext _ (fun i => q_h q * cos (INR (2 * q_n q) * grid (q_n q) i))).
  2:{ intros i Li. destruct (Hi i ltac:(lia)) as [-> ->]. replace (INR i * (2 * PI) / INR (2 * q_n q)) with (grid (q_n q) i); [ring|].
      unfold grid. rewrite mult_INR. cbn [INR]. field. apply not_0_INR. lia. }
  rewrite sum_n_scal, grid_sum_cos, Nat.mod_same by lia. cbn [Nat.eqb]. rewrite Eh, Eq, INR_IZR_INZ, Z2Nat.id by lia. field. apply not_0_IZR. lia.
Qed.
Print Assumptions C19_alias.

(** Which arguments are accepted, for every quadrature label. *)
Theorem C19_arguments s n p : 
  (mk_quad s PNotInt p = Err TypeError) /\
  ((n < 4)%Z -> mk_quad s (PInt n) p = Err ValueError) /\
  ((4 <= n)%Z -> s <> "kress"%string \/ (2 <= p)%Z -> exists q, mk_quad s (PInt n) p = Ok q /\ q_type q = s) /\
  ((4 <= n)%Z -> (p < 2)%Z -> mk_quad "kress" (PInt n) p = Err ValueError).
Proof.
  repeat split.
  - intros H. unfold mk_quad, set_n. destruct (Z.ltb_spec n 4); [reflexivity|lia].
  - intros H O. unfold mk_quad, set_n. destruct (Z.ltb_spec n 4); [lia|]. cbn [bind].
    destruct (String.eqb_spec s "kress") as [->|N]; [|destruct (String.eqb_spec s "mart") as [->|M]].
    + destruct O as [O|O]; [congruence|]. destruct (Z.ltb_spec p 2); [lia|]. eexists. split; reflexivity.
    + eexists. split; reflexivity.
    + eexists. split; reflexivity.
  - intros H O. unfold mk_quad, set_n. destruct (Z.ltb_spec n 4); [lia|]. cbn [bind String.eqb Ascii.eqb Bool.eqb]. 
    replace (Z.ltb p 2) with true by (symmetry; apply Z.ltb_lt; exact O). reflexivity.
Qed.
Print Assumptions C19_arguments.

(** The dictionary pairs a trapezoid rule and a Kress rule with the same n. *)
Theorem C19_dict n p : (4 <= n)%Z -> (2 <= p)%Z -> exists a b, get_quad_dict (PInt n) p = Ok (a, b) /\
  mk_quad "trap" (PInt n) p = Ok a /\ mk_quad "kress" (PInt n) p = Ok b /\ q_n a = q_n b.
Proof.
  intros H O. unfold get_quad_dict, mk_quad, set_n. destruct (Z.ltb_spec n 4); [lia|]. cbn [bind String.eqb Ascii.eqb Bool.eqb].
  change (Z.ltb 7 2) with false. destruct (Z.ltb_spec p 2); [lia|]. cbn. do 2 eexists. repeat split.
Qed.

(** n = 4: eight panels; 1 + cos t + 2 sin 3t integrates to 2 pi. *)
Example C19_example : exists q, mk_quad "trap" (PInt 4) 7 = Ok q /\
  sum_n (fun i => q_h q * nth i (q_wgt q) 0 * (1 + cos (1 * nth i (q_t q) 0) + 2 * sin (3 * nth i (q_t q) 0))) 8 = 2 * PI.
Proof.
  eexists. split; [reflexivity|]. set (q := Quad_ _ _ _ _ _).
  assert (E : mk_quad "trap" (PInt 4) 7 = Ok q) by reflexivity.
  pose (a := fun k => match k with 0%nat => 1 | 1%nat => 1 | _ => 0 end). pose (b := fun k => match k with 3%nat => 2 | _ => 0 end).
  pose proof (C19_exact 4 7 q a b 3 E ltac:(cbn; lia)) as H. pose proof (int_trig a b 3) as H1.
  assert (V := is_RInt_unique _ _ _ _ H). rewrite (is_RInt_unique _ _ _ _ H1) in V. cbn [a] in V. rewrite Rmult_1_r in V. rewrite V.
  change (2 * q_n q)%nat with 8%nat. apply sum_n_ext. intros i _. f_equal. unfold trig, a, b. cbn [sum_n INR]. 
  replace (1 + 1 + 1) with 3 by ring. ring.
Qed.

(** ** C20 *)

(** There is one map phi, depending on p only, whose values at the uniform grid are the nodes
    and whose derivative at the grid gives the weights. It fixes both ends, increases strictly,
    commutes with reflection, and its derivative is positive inside and zero at the ends. *)
Theorem C20_kress p : (2 <= p)%Z -> exists phi phi' : R -> R,
  (forall n q, mk_quad "kress" (PInt n) p = Ok q ->
    List.length (q_t q) = (2 * q_n q + 1)%nat /\ List.length (q_wgt q) = (2 * q_n q + 1)%nat /\ q_h q = PI / IZR n /\
    forall i, (i <= 2 * q_n q)%nat -> nth i (q_t q) 0 = phi (grid (q_n q) i) /\ nth i (q_wgt q) 0 = phi' (grid (q_n q) i)) /\
  (forall t, 0 <= t <= 2 * PI -> is_derive phi t (phi' t)) /\
  phi 0 = 0 /\ phi (2 * PI) = 2 * PI /\
  (forall x y, 0 <= x -> x < y -> y <= 2 * PI -> phi x < phi y) /\
  (forall t, 0 <= t <= 2 * PI -> phi (2 * PI - t) = 2 * PI - phi t) /\
  (forall t, 0 < t < 2 * PI -> 0 < phi' t) /\ phi' 0 = 0 /\ phi' (2 * PI) = 0.
Proof.
  intros Hp. exists (kress_node (Z.to_nat p)), (kress_wgt (Z.to_nat p)). assert (P2 : (2 <= Z.to_nat p)%nat) by lia.
  split; [|split; [|split; [|split; [|split; [|split; [|split; [|split]]]]]]].
  - intros n q. rewrite quad_kress. destruct (Z.ltb_spec n 4); [discriminate|].
    destruct (Z.ltb_spec p 2); [lia|]. cbv zeta. intros H1. apply Ok_inj in H1. subst q. cbn [q_n q_h q_t q_wgt]. rewrite !map_length, linspace_length.
    split; [lia|]. split; [lia|]. split; [rewrite INR_IZR_INZ, Z2Nat.id by lia; reflexivity|].
    intros i Hi. rewrite !nth_map_linspace by lia. split; reflexivity.
  - intros t Ht. apply kress_derive; assumption.
  - apply kress_0, P2.
  - apply kress_2PI, P2.
  - intros x y. apply kress_incr, P2.
  - intros t Ht. apply kress_sym; assumption.
  - intros t Ht. apply kress_wgt_pos; assumption.
  - apply kress_wgt_0, P2.
  - replace (2 * PI) with (2 * PI - 0) by ring. rewrite kress_wgt_sym. apply kress_wgt_0, P2.
Qed.
Print Assumptions C20_kress.

(** Consequently integrals are preserved: a continuous f and its reparameterized, weighted form
    have the same integral. *)
Theorem C20_substitution p : (2 <= p)%Z -> exists phi phi' : R -> R,
  (forall n q, mk_quad "kress" (PInt n) p = Ok q -> forall i, (i <= 2 * q_n q)%nat ->
     nth i (q_t q) 0 = phi (grid (q_n q) i) /\ nth i (q_wgt q) 0 = phi' (grid (q_n q) i)) /\
  forall f, (forall t, 0 <= t <= 2 * PI -> continuous f t) ->
    RInt (fun t => phi' t * f (phi t)) 0 (2 * PI) = RInt f 0 (2 * PI).
Proof.
  intros Hp. assert (P2 : (2 <= Z.to_nat p)%nat) by lia. exists (kress_node (Z.to_nat p)), (kress_wgt (Z.to_nat p)). split.
  - intros n q H. intros i Hi. revert H. rewrite quad_kress. destruct (Z.ltb_spec n 4); [discriminate|].
    destruct (Z.ltb_spec p 2); [lia|]. cbv zeta. intros H1. apply Ok_inj in H1. subst q. cbn [q_n q_t q_wgt] in *. rewrite !nth_map_linspace by lia. split; reflexivity.
  - intros f Hf. pose proof PI_RGT_0 as HP.
    assert (Rg : forall t, 0 <= t <= 2 * PI -> 0 <= kress_node (Z.to_nat p) t <= 2 * PI).
    { intros t Ht. split.
      - destruct (Req_dec t 0) as [->|]; [rewrite kress_0 by exact P2; lra|]. apply Rle_trans with (kress_node (Z.to_nat p) 0); [rewrite kress_0 by exact P2; lra|]. left. apply kress_incr; lra || exact P2.
      - destruct (Req_dec t (2 * PI)) as [->|]; [rewrite kress_2PI by exact P2; lra|]. apply Rle_trans with (kress_node (Z.to_nat p) (2 * PI)); [|rewrite kress_2PI by exact P2; lra]. left. apply kress_incr; lra || exact P2. }
    apply is_RInt_unique. replace (RInt f 0 (2 * PI)) with (RInt f (kress_node (Z.to_nat p) 0) (kress_node (Z.to_nat p) (2 * PI))) by (rewrite kress_0, kress_2PI by exact P2; reflexivity).
    apply (is_RInt_comp f (kress_node (Z.to_nat p)) (kress_wgt (Z.to_nat p))).
    + intros x Hx. rewrite Rmin_left, Rmax_right in Hx by lra. apply Hf, Rg, Hx.
    + intros x Hx. rewrite Rmin_left, Rmax_right in Hx by lra. split; [apply kress_derive; assumption|].
      apply (ex_derive_continuous (kress_wgt (Z.to_nat p))). pose proof (kress_den_pos _ _ P2 Hx) as D. unfold kress_wgt, kress_den, kress_c, kress_s.
      auto_derive. apply Rgt_not_eq. change (kress_den (Z.to_nat p) x ^ 2 > 0). apply pow_lt, D.
Qed.
Print Assumptions C20_substitution.

(** p = 2, n = 4: the middle node is pi and the node at pi/2 lies strictly between 0 and pi. *)
Example C20_example : exists q, mk_quad "kress" (PInt 4) 2 = Ok q /\ nth 4 (q_t q) 0 = PI /\ 0 < nth 2 (q_t q) 0 < PI.
Proof.
  eexists. split; [reflexivity|]. cbn [q_t]. change 8%nat with (2 * 4)%nat. change (Z.to_nat 4) with 4%nat. change (Z.to_nat 2) with 2%nat.
  rewrite !nth_map_linspace by lia. pose proof PI_RGT_0 as HP.
  replace (grid 4 4) with PI by (unfold grid; cbn; field). replace (grid 4 2) with (PI / 2) by (unfold grid; cbn; field).
  assert (E : kress_node 2 PI = PI).
  { pose proof (kress_sym 2 PI ltac:(lia) ltac:(lra)) as S. replace (2 * PI - PI) with PI in S by ring. lra. }
  split; [exact E|]. split.
  - apply Rle_lt_trans with (kress_node 2 0); [rewrite kress_0 by lia; lra|]. apply kress_incr; lia || lra.
  - apply Rlt_le_trans with (kress_node 2 PI); [|lra]. apply kress_incr; lia || lra.
Qed.

(** ** C21 *)

(** The weights are even, annihilate constants and every sine, and integrate the product of the
    logarithmic kernel with every trigonometric polynomial of degree below n exactly: the rule
    is the improper integral over a period divided by -4 pi. *)
Theorem C21_rule n p q : mk_quad "mart" (PInt n) p = Ok q ->
  (forall i, (i <= 2 * q_n q)%nat -> nth (2 * q_n q - i) (q_wgt q) 0 = nth i (q_wgt q) 0) /\
  (forall k, sum_n (fun i => nth i (q_wgt q) 0 * sin (INR k * grid (q_n q) i)) (2 * q_n q) = 0) /\
  sum_n (fun i => nth i (q_wgt q) 0) (2 * q_n q) = 0 /\
  (forall k, (0 < k < q_n q)%nat -> sum_n (fun i => nth i (q_wgt q) 0 * cos (INR k * grid (q_n q) i)) (2 * q_n q) = 1 / (2 * INR k)) /\
  (forall a b m, (m < q_n q)%nat ->
     is_RInt_gen (fun t => ln (4 * (sin (t / 2) * sin (t / 2))) * trig a b m t) (at_right 0) (at_left (2 * PI))
       (- (4 * PI) * sum_n (fun i => nth i (q_wgt q) 0 * trig a b m (grid (q_n q) i)) (2 * q_n q))).
Proof.
  rewrite quad_mart. destruct (Z.ltb_spec n 4); [discriminate|]. cbv zeta. intros H0. apply Ok_inj in H0. subst q. cbn [q_n q_h q_t q_wgt].
  set (N := Z.to_nat n). assert (HN : (0 < N)%nat) by (unfold N; lia). pose proof PI_RGT_0 as HP.
  assert (CC : forall k, (k < N)%nat -> sum_n (fun i => nth i (map (mart_wgt N) (linspace 0 (2 * PI) (2 * N))) 0 * cos (INR k * grid N i)) (2 * N) = if Nat.eqb k 0 then 0 else 1 / (2 * INR k)).
  { intros k Hk. rewrite (sum_n_ext _ (fun i => mart_wgt N (grid N i) * cos (INR k * grid N i))) by (intros i Hi; rewrite nth_map_linspace by lia; reflexivity).
    rewrite mart_cos by lia. destruct (Nat.eqb_spec k 0); [reflexivity|]. destruct (Nat.eqb_spec k N); [lia|reflexivity]. }
  assert (SS : forall k, sum_n (fun i => nth i (map (mart_wgt N) (linspace 0 (2 * PI) (2 * N))) 0 * sin (INR k * grid N i)) (2 * N) = 0).
  { intros k. etransitivity; [|exact (mart_sin N k HN)]. apply sum_n_ext. intros i Hi. rewrite nth_map_linspace by lia. reflexivity. }
  split; [|split; [|split; [|split]]].
  - intros i Hi. rewrite !nth_map_linspace by lia. apply mart_wgt_sym; assumption.
  - exact SS.
  - etransitivity; [|exact (CC 0%nat HN)]. apply sum_n_ext. intros i Hi. cbn [INR]. rewrite Rmult_0_l, cos_0. ring.
  - intros k Hk. rewrite CC by lia. destruct (Nat.eqb_spec k 0); [lia|reflexivity].
  - intros a b m Hm. apply (log_trig (fun i => nth i (map (mart_wgt N) (linspace 0 (2 * PI) (2 * N))) 0) N); [intros k Hk; apply CC; lia|intros k _; apply SS].
Qed.
Print Assumptions C21_rule.

(** The rule is not exact at degree n: the last term of the sum is not halved (quad.py:178), so
    the coefficient of cos(nt) comes out as 1/n instead of 1/(2n). *)
Theorem C21_top_degree_refuted n p q : mk_quad "mart" (PInt n) p = Ok q -> exists I,
  is_RInt_gen (fun t => ln (4 * (sin (t / 2) * sin (t / 2))) * cos (INR (q_n q) * t)) (at_right 0) (at_left (2 * PI)) I /\
  sum_n (fun i => nth i (q_wgt q) 0 * cos (INR (q_n q) * grid (q_n q) i)) (2 * q_n q) = 2 * (- I / (4 * PI)) /\ I <> 0.
Proof.
  rewrite quad_mart. destruct (Z.ltb_spec n 4); [discriminate|]. cbv zeta. intros H0. apply Ok_inj in H0. subst q. cbn [q_n q_h q_t q_wgt].
  set (N := Z.to_nat n). assert (HN : (0 < N)%nat) by (unfold N; lia). pose proof PI_RGT_0 as HP. assert (IN : 0 < INR N) by (apply lt_0_INR; exact HN).
  exists (- (2 * PI / INR N)). split; [apply (log_coef N HN)|].
  rewrite (sum_n_ext _ (fun i => mart_wgt N (grid N i) * cos (INR N * grid N i))) by (intros i Hi; rewrite nth_map_linspace by lia; reflexivity).
  rewrite mart_cos by lia. destruct (Nat.eqb_spec N 0); [lia|]. rewrite Nat.eqb_refl. split; [field; lra|].
  assert (0 < 2 * PI / INR N) by (apply Rdiv_lt_0_compat; lra). lra.
Qed.
Print Assumptions C21_top_degree_refuted.

(** The node array of the rule holds the kernel argument 4 sin^2(t/2) at the grid points; it
    vanishes exactly at both ends. *)
Theorem C21_nodes n p q : mk_quad "mart" (PInt n) p = Ok q ->
  List.length (q_t q) = (2 * q_n q + 1)%nat /\ List.length (q_wgt q) = (2 * q_n q + 1)%nat /\ q_h q = PI / IZR n /\
  forall i, (i <= 2 * q_n q)%nat -> nth i (q_t q) 0 = 4 * (sin (grid (q_n q) i / 2) * sin (grid (q_n q) i / 2)) /\
    (nth i (q_t q) 0 = 0 <-> i = 0%nat \/ i = (2 * q_n q)%nat).
Proof.
  rewrite quad_mart. destruct (Z.ltb_spec n 4); [discriminate|]. cbv zeta. intros H0. apply Ok_inj in H0. subst q. cbn [q_n q_h q_t q_wgt].
  set (N := Z.to_nat n). assert (HN : (0 < N)%nat) by (unfold N; lia). pose proof PI_RGT_0 as HP. assert (IN : 0 < INR N) by (apply lt_0_INR; exact HN).
  split; [rewrite map_length, linspace_length; lia|]. split; [rewrite map_length, linspace_length; lia|].
  split; [unfold N; rewrite INR_IZR_INZ, Z2Nat.id by lia; reflexivity|].
  intros i Hi. rewrite nth_map_linspace by lia. unfold mart_node. split; [ring|].
  assert (G : grid N i / 2 = INR i * PI / (2 * INR N)) by (unfold grid; field; lra). split.
  - intros Z. assert (Z0 : sin (grid N i / 2) = 0) by nra. destruct (Nat.eq_dec i 0) as [|N0]; [left; assumption|]. right.
    destruct (Nat.eq_dec i (2 * N)) as [|N1]; [assumption|]. exfalso.
    assert (0 < sin (grid N i / 2)); [|lra]. assert (0 < INR i) by (apply lt_0_INR; lia). assert (L : INR i < 2 * INR N) by (replace (2 * INR N) with (INR (2 * N)) by (rewrite mult_INR; cbn [INR]; ring); apply lt_INR; lia).
    rewrite G. apply sin_gt_0.
    + apply Rdiv_lt_0_compat; nra.
    + apply Rmult_lt_reg_r with (2 * INR N); [lra|]. replace (INR i * PI / (2 * INR N) * (2 * INR N)) with (INR i * PI) by (field; lra). nra.
  - intros [E|E]; rewrite E in G |- *.
    + rewrite G. cbn [INR]. replace (0 * PI / (2 * INR N)) with 0 by (field; lra). rewrite sin_0. ring.
    + rewrite G, mult_INR. cbn [INR]. replace ((1 + 1) * INR N * PI / (2 * INR N)) with PI by (field; lra). rewrite sin_PI. ring.
Qed.
Print Assumptions C21_nodes.

(** The documented label 'martensen' yields the trapezoid weights. *)
Theorem C21_name_refuted n p : (4 <= n)%Z -> exists a b c, mk_quad "martensen" (PInt n) p = Ok a /\ mk_quad "mart" (PInt n) p = Ok b /\
  mk_quad "trap" (PInt n) p = Ok c /\ q_t a = q_t c /\ q_wgt a = q_wgt c /\ q_wgt a <> q_wgt b.
Proof.
  intros H. assert (HN : (0 < Z.to_nat n)%nat) by lia. unfold mk_quad, set_n. destruct (Z.ltb_spec n 4); [lia|]. cbn [bind String.eqb Ascii.eqb Bool.eqb].
  do 3 eexists. split; [reflexivity|]. split; [reflexivity|]. split; [reflexivity|]. cbn [q_t q_wgt]. split; [reflexivity|]. split; [reflexivity|].
  intros E. set (N := Z.to_nat n) in *.
  assert (S1 : sum_n (fun i => nth i (map (fun _ => 1) (linspace 0 (2 * PI) (2 * N))) 0) (2 * N) = 2 * INR N).
  { rewrite (sum_n_ext _ (fun _ => 1)) by (intros i Hi; rewrite nth_map_linspace by lia; reflexivity). rewrite sum_n_const, mult_INR. cbn [INR]. ring. }
  change (N + (N + 0))%nat with (2 * N)%nat in E. rewrite E in S1.
  rewrite (sum_n_ext _ (fun i => mart_wgt N (grid N i) * cos (INR 0 * grid N i))) in S1.
  - rewrite mart_cos in S1 by lia. cbn [Nat.eqb] in S1. assert (0 < INR N) by (apply lt_0_INR; exact HN). lra.
  - intros i Hi. rewrite nth_map_linspace by lia. cbn [INR]. rewrite Rmult_0_l, cos_0. ring.
Qed.
Print Assumptions C21_name_refuted.

Example C21_example : exists q, mk_quad "mart" (PInt 8) 7 = Ok q /\ sum_n (fun i => nth i (q_wgt q) 0 * cos (INR 3 * grid 8 i)) 16 = 1 / 6.
Proof.
  eexists. split; [reflexivity|]. cbn [q_wgt]. change (Z.to_nat 8) with 8%nat.
  rewrite (sum_n_ext _ (fun i => mart_wgt 8 (grid 8 i) * cos (INR 3 * grid 8 i))) by (intros i Hi; rewrite nth_map_linspace by lia; reflexivity).
  change 16%nat with (2 * 8)%nat. rewrite mart_cos by lia. cbn. field.
Qed.
