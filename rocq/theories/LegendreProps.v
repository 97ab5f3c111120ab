(** Properties C14 and C15: legendre.py. *)
From Coq Require Import List ZArith Reals Lia Lra Arith.
From Coquelicot Require Import Coquelicot.
From Verif Require Import PyBase PolyModel PolySpec PolyProofs PolyProofs2 PolyProofs4
  LegendreModel LegendreSpec LegendreProofs LegendreProofs2.
Import ListNotations.
Open Scope R_scope.

(** ** C14 *)

(** Entry n of the list, evaluated at (x,y), for every degree up to about 1e12 (where the
    coefficient tolerance starts to bite) and every real x, y. *)
Definition P (deg n : nat) (x y : R) : R := peval RS (nth n (legendre_polynomials deg) []) x y.

Lemma P_leg deg n x y : tol <= / (INR deg + 1) -> (n <= deg)%nat -> P deg n x y = leg n x.
Proof. intros T H. unfold P. rewrite peval_value. apply hasP_value. exact (proj2 (legendre_ok deg T n H)). Qed.

Theorem C14_legendre deg n x y : tol <= / (INR deg + 1) -> (n <= deg)%nat ->
  P deg n x y = leg n x.
Proof. exact (P_leg deg n x y). Qed.
Print Assumptions C14_legendre.

Theorem C14_list_length deg : length (legendre_polynomials deg) = Nat.max 2 (deg + 1).
Proof. exact (legendre_length deg). Qed.
Print Assumptions C14_list_length.

Theorem C14_bonnet deg n x y : tol <= / (INR deg + 1) -> (n + 2 <= deg)%nat ->
  (INR n + 2) * P deg (n + 2) x y = (2 * INR n + 3) * x * P deg (n + 1) x y - (INR n + 1) * P deg n x y.
Proof.
  intros T H. rewrite !P_leg by (assumption || lia). replace (n + 2)%nat with (S (S n)) by lia.
  replace (n + 1)%nat with (S n) by lia. rewrite leg_SS. pose proof (pos_INR n). field. lra.
Qed.
Print Assumptions C14_bonnet.

Theorem C14_first deg x y : tol <= / (INR deg + 1) -> (1 <= deg)%nat -> P deg 0 x y = 1 /\ P deg 1 x y = x.
Proof. intros T H. rewrite !P_leg by (assumption || lia). split; [apply leg_0|apply leg_1]. Qed.
Print Assumptions C14_first.

Theorem C14_endpoints deg n y : tol <= / (INR deg + 1) -> (n <= deg)%nat ->
  P deg n 1 y = 1 /\ P deg n (-1) y = (-1) ^ n.
Proof. intros T H. rewrite !P_leg by assumption. split; [apply leg_at_1|apply leg_at_m1]. Qed.
Print Assumptions C14_endpoints.

(** P_n' - P_{n-2}' = (2n-1) P_{n-1}, as the derivative of the evaluation functions. *)
Theorem C14_derivative_difference deg n x y : tol <= / (INR deg + 1) -> (n + 2 <= deg)%nat ->
  derivable_pt_lim (fun t => P deg (n + 2) t y - P deg n t y) x ((2 * INR n + 3) * P deg (n + 1) x y).
Proof.
  intros T H. eapply (derivable_pt_lim_ext (fun t => leg (S (S n)) t - leg n t)).
  - intros t. rewrite !P_leg by (assumption || lia). replace (n + 2)%nat with (S (S n)) by lia. reflexivity.
  - rewrite P_leg by (assumption || lia). replace (n + 1)%nat with (S n) by lia.
    rewrite <- dleg_diff. apply (derivable_pt_lim_minus (leg (S (S n))) (leg n)); apply dleg_lim.
Qed.
Print Assumptions C14_derivative_difference.

(** Legendre's equation: ((x^2-1) P_n')' = n(n+1) P_n. *)
Theorem C14_differential_equation deg n y : tol <= / (INR deg + 1) -> (n <= deg)%nat ->
  exists d : R -> R, (forall x, derivable_pt_lim (fun t => P deg n t y) x (d x)) /\
    forall x, derivable_pt_lim (fun t => (t * t - 1) * d t) x (INR n * (INR n + 1) * P deg n x y).
Proof.
  intros T H. exists (dleg n). split; intros x.
  - eapply derivable_pt_lim_ext; [|apply dleg_lim]. intros t. cbn. rewrite P_leg by assumption. reflexivity.
  - rewrite P_leg by assumption. apply leg_ode.
Qed.
Print Assumptions C14_differential_equation.

(** Orthogonality on [-1,1], with the norms. *)
Theorem C14_orthogonal deg m n y y' : tol <= / (INR deg + 1) -> (m <= deg)%nat -> (n <= deg)%nat ->
  is_RInt (fun x => P deg m x y * P deg n x y') (-1) 1 (if Nat.eqb m n then 2 / (2 * INR n + 1) else 0).
Proof.
  intros T Hm Hn. apply (is_RInt_ext (fun x => leg m x * leg n x)).
  - intros x _. rewrite !P_leg by assumption. reflexivity.
  - destruct (Nat.eqb_spec m n) as [->|]; [apply leg_norm|apply leg_orth; assumption].
Qed.
Print Assumptions C14_orthogonal.

(** Degree 0 still returns two polynomials. *)
Theorem C14_degree_zero_length_refuted : length (legendre_polynomials 0) = 2%nat.
Proof. reflexivity. Qed.
Print Assumptions C14_degree_zero_length_refuted.

Lemma tol_small k : 0 < k <= 1000000 -> tol <= / k.
Proof.
  intros H. apply (Rle_trans _ (/ 1000000)).
  - unfold tol. cbn. lra.
  - apply Rinv_le_contravar; lra.
Qed.

Example C14_example : P 5 3 2 7 = 17 /\ P 5 3 (-1) 0 = -1.
Proof.
  assert (T : tol <= / (INR 5 + 1)) by (apply tol_small; cbn; lra).
  split.
  - rewrite C14_legendre by (exact T || lia). unfold leg. cbn. field.
  - rewrite (proj2 (C14_endpoints 5 3 0 T ltac:(lia))). cbn. ring.
Qed.

(** ** C15 *)

Definition L (deg n : nat) (x y : R) : R := peval RS (nth n (integrated_legendre_polynomials deg) []) x y.

Lemma L_ileg deg n x y : 4 * (INR deg + 1) ^ 4 * tol <= 1 -> (n <= deg)%nat -> L deg n x y = ileg n x.
Proof. intros T H. unfold L. rewrite peval_value. apply xonly_ileg, integrated_ok; assumption. Qed.

(** Zero at both ends for n >= 2. *)
Theorem C15_endpoints deg n y : 4 * (INR deg + 1) ^ 4 * tol <= 1 -> (2 <= n <= deg)%nat ->
  L deg n 1 y = 0 /\ L deg n (-1) y = 0.
Proof.
  intros T H. rewrite !L_ileg by (assumption || lia).
  destruct n as [|[|n]]; [lia|lia|]. apply ileg_end.
Qed.
Print Assumptions C15_endpoints.

(** The derivative is a fixed positive multiple of P_{n-1}. *)
Theorem C15_derivative deg n x y : 4 * (INR deg + 1) ^ 4 * tol <= 1 -> (2 <= n <= deg)%nat ->
  derivable_pt_lim (fun t => L deg n t y) x (sqrt ((2 * INR n - 1) / 2) * leg (n - 1) x)
  /\ 0 < sqrt ((2 * INR n - 1) / 2).
Proof.
  intros T H. split.
  - eapply (derivable_pt_lim_ext (ileg n)).
    + intros t. rewrite L_ileg by (assumption || lia). reflexivity.
    + destruct n as [|[|n]]; [lia|lia|]. replace (S (S n) - 1)%nat with (S n) by lia. apply ileg_deriv.
  - apply sqrt_lt_R0. assert (2 <= INR n) by (change 2 with (INR 2); apply le_INR; lia). lra.
Qed.
Print Assumptions C15_derivative.

(** The derivatives for n >= 2 are orthonormal in L2(-1,1). *)
Theorem C15_derivatives_orthonormal deg m n : 4 * (INR deg + 1) ^ 4 * tol <= 1 ->
  (2 <= m <= deg)%nat -> (2 <= n <= deg)%nat ->
  exists dm dn : R -> R,
    (forall x y, derivable_pt_lim (fun t => L deg m t y) x (dm x)) /\
    (forall x y, derivable_pt_lim (fun t => L deg n t y) x (dn x)) /\
    is_RInt (fun x => dm x * dn x) (-1) 1 (if Nat.eqb m n then 1 else 0).
Proof.
  intros T Hm Hn. exists (fun x => sqrt ((2 * INR m - 1) / 2) * leg (m - 1) x), (fun x => sqrt ((2 * INR n - 1) / 2) * leg (n - 1) x).
  split; [intros x y; apply C15_derivative; assumption|]. split; [intros x y; apply C15_derivative; assumption|].
  destruct m as [|[|m]]; try lia. destruct n as [|[|n]]; try lia.
  replace (S (S m) - 1)%nat with (S m) by lia. replace (S (S n) - 1)%nat with (S n) by lia.
  exact (ileg_orthonormal m n).
Qed.
Print Assumptions C15_derivatives_orthonormal.

Theorem C15_first deg x y : 4 * (INR deg + 1) ^ 4 * tol <= 1 -> (1 <= deg)%nat -> L deg 0 x y = 1 /\ L deg 1 x y = x.
Proof. intros T H. rewrite !L_ileg by (assumption || lia). split; reflexivity. Qed.
Print Assumptions C15_first.

(** The tensor lists: entry k is the product for the k-th pair (m,n) with m+n <= d, pairs in
    lexicographic order without repetition, (d+1)(d+2)/2 in all. *)
Theorem C15_tensor_pairs deg : exists pairs : list (nat * nat),
  (2 * length pairs = (deg + 1) * (deg + 2))%nat /\ NoDup pairs /\
  (forall m n, In (m, n) pairs <-> (m + n <= deg)%nat) /\
  Sorted.StronglySorted (fun a b => fst a < fst b \/ (fst a = fst b /\ snd a < snd b))%nat pairs /\
  length (legendre_tensor_products deg) = length pairs /\
  length (integrated_legendre_tensor_products deg) = length pairs /\
  (4 * (INR deg + 1) ^ 4 * tol <= 1 -> forall k m n x y, nth_error pairs k = Some (m, n) ->
     (exists p, nth_error (legendre_tensor_products deg) k = Some p /\ peval RS p x y = leg m x * leg n y) /\
     (exists p, nth_error (integrated_legendre_tensor_products deg) k = Some p /\ peval RS p x y = ileg m x * ileg n y)).
Proof.
  exists (pair_list deg). split; [apply length_pair_list|]. split; [apply nodup_pair_list|].
  split; [apply in_pair_list|]. split; [apply sorted_pair_list|].
  unfold legendre_tensor_products, integrated_legendre_tensor_products. rewrite !tensor_list, !map_length.
  split; [reflexivity|]. split; [reflexivity|]. intros T k m n x y E.
  assert (I : In (m, n) (pair_list deg)) by (eapply nth_error_In, E). apply in_pair_list in I.
  split; eexists; (split; [rewrite nth_error_map, E; reflexivity|]); rewrite peval_value; cbn [fst snd].
  - apply tensor_value; [|lia|lia]. pose proof (pos_INR deg). pose proof tol_pos.
    eapply Rle_trans; [|exact T]. apply Rmult_le_compat_r; [lra|]. assert (1 <= (INR deg + 1) ^ 2) by (cbn; nra).
    replace ((INR deg + 1) ^ 4) with ((INR deg + 1) ^ 2 * (INR deg + 1) ^ 2) by ring. nra.
  - apply itensor_value; [exact T|lia|lia].
Qed.
Print Assumptions C15_tensor_pairs.

Lemma deg4 : 4 * (INR 4 + 1) ^ 4 * tol <= 1.
Proof. unfold tol. cbn. lra. Qed.

Example C15_example :
  L 4 2 1 5 = 0 /\ (exists p, nth_error (legendre_tensor_products 4) 6 = Some p /\ peval RS p 2 3 = 2 * 3).
Proof.
  split; [exact (proj1 (C15_endpoints 4 2 5 deg4 ltac:(lia)))|].
  eexists. split; [reflexivity|]. rewrite peval_value.
  change (nth 1 (map swap_coordinates (legendre_polynomials 4)) []) with (nth 1 (map swap_coordinates (legendre_polynomials 4)) []).
  rewrite (tensor_value 4 1 1 2 3); [|unfold tol; cbn; lra|lia|lia]. rewrite !leg_1. reflexivity.
Qed.
