From Coq Require Import List ZArith Reals Lia Lra String.
From Coquelicot Require Import Coquelicot.
From Verif Require Import PyBase PolyModel QuadModel QuadSpec.
Import ListNotations.
Open Scope R_scope.

Lemma sum_n_ext f g m : (forall i, (i < m)%nat -> f i = g i) -> sum_n f m = sum_n g m.
Proof. induction m as [|m IH]; intros H; [reflexivity|]. cbn. rewrite IH, (H m) by (intros; auto with arith). reflexivity. Qed.
Lemma sum_n_plus f g m : sum_n (fun i => f i + g i) m = sum_n f m + sum_n g m.
Proof. induction m as [|m IH]; cbn; [ring|]. rewrite IH. ring. Qed.
Lemma sum_n_scal c f m : sum_n (fun i => c * f i) m = c * sum_n f m.
Proof. induction m as [|m IH]; cbn; [ring|]. rewrite IH. ring. Qed.
Lemma sum_n_const c m : sum_n (fun _ => c) m = INR m * c.
Proof. induction m as [|m IH]; [cbn; ring|]. rewrite S_INR. cbn. rewrite IH. ring. Qed.
Lemma sum_n_tel f m : sum_n (fun i => f (S i) - f i) m = f m - f O.
Proof. induction m as [|m IH]; cbn; [ring|]. rewrite IH. ring. Qed.
Lemma sum_n_swap (f : nat -> nat -> R) m k : sum_n (fun i => sum_n (f i) k) m = sum_n (fun j => sum_n (fun i => f i j) m) k.
Proof.
  induction m as [|m IH]; cbn.
  - induction k as [|k IHk]; cbn; [reflexivity|]. rewrite <- IHk. ring.
  - rewrite IH, <- sum_n_plus. reflexivity.
Qed.
Lemma sum_n_S f m : sum_n f (S m) = f O + sum_n (fun i => f (S i)) m.
Proof. induction m as [|m IH]; [cbn; ring|]. change (sum_n f (S (S m))) with (sum_n f (S m) + f (S m)). rewrite IH. cbn [sum_n]. ring. Qed.

(* ---------------------------------------------------------------- *)
(** ** Sums of cosines and sines on the grid *)

Lemma half_cos a i : 2 * sin (a / 2) * cos (INR i * a) = sin ((INR (S i) - 1 / 2) * a) - sin ((INR i - 1 / 2) * a).
Proof.
  rewrite S_INR. replace ((INR i + 1 - 1 / 2) * a) with (INR i * a + a / 2) by field.
  replace ((INR i - 1 / 2) * a) with (INR i * a - a / 2) by field. rewrite sin_plus, sin_minus. ring.
Qed.
Lemma half_sin a i : 2 * sin (a / 2) * sin (INR i * a) = - cos ((INR (S i) - 1 / 2) * a) - - cos ((INR i - 1 / 2) * a).
Proof.
  rewrite S_INR. replace ((INR i + 1 - 1 / 2) * a) with (INR i * a + a / 2) by field.
  replace ((INR i - 1 / 2) * a) with (INR i * a - a / 2) by field. rewrite cos_plus, cos_minus. ring.
Qed.

Lemma sum_cos_a a m (k : nat) : sin (a / 2) <> 0 -> INR m * a = 2 * INR k * PI -> sum_n (fun i => cos (INR i * a)) m = 0.
Proof.
  intros Hs Ha. apply Rmult_eq_reg_l with (2 * sin (a / 2)); [|lra].
  rewrite <- sum_n_scal. rewrite (sum_n_ext _ (fun i => sin ((INR (S i) - 1 / 2) * a) - sin ((INR i - 1 / 2) * a))) by (intros; apply half_cos).
  rewrite (sum_n_tel (fun i => sin ((INR i - 1 / 2) * a))). replace ((INR m - 1 / 2) * a) with (- (a / 2) + 2 * INR k * PI) by (rewrite <- Ha; field).
  rewrite sin_period. cbn [INR]. replace ((0 - 1 / 2) * a) with (- (a / 2)) by field. ring.
Qed.
Lemma sum_sin_a a m (k : nat) : sin (a / 2) <> 0 -> INR m * a = 2 * INR k * PI -> sum_n (fun i => sin (INR i * a)) m = 0.
Proof.
  intros Hs Ha. apply Rmult_eq_reg_l with (2 * sin (a / 2)); [|lra].
  rewrite <- sum_n_scal. rewrite (sum_n_ext _ (fun i => - cos ((INR (S i) - 1 / 2) * a) - - cos ((INR i - 1 / 2) * a))) by (intros; apply half_sin).
  rewrite (sum_n_tel (fun i => - cos ((INR i - 1 / 2) * a))). replace ((INR m - 1 / 2) * a) with (- (a / 2) + 2 * INR k * PI) by (rewrite <- Ha; field).
  rewrite cos_period. cbn [INR]. replace ((0 - 1 / 2) * a) with (- (a / 2)) by field. ring.
Qed.

Lemma INR_pos n : (0 < n)%nat -> 0 < INR n. Proof. apply lt_0_INR. Qed.

Lemma sin_multiple n k : (0 < n)%nat -> (0 < k mod (2 * n))%nat -> sin (INR k * PI / INR n / 2) <> 0.
Proof.
  intros Hn Hk. assert (P : 0 < INR n) by (apply lt_0_INR; exact Hn).
  set (r := (k mod (2 * n))%nat) in *. set (q := (k / (2 * n))%nat).
  assert (E : k = (2 * n * q + r)%nat) by (apply Nat.div_mod; lia).
  assert (Rlt' : (r < 2 * n)%nat) by (apply Nat.mod_upper_bound; lia).
  replace (INR k * PI / INR n / 2) with (INR r * PI / INR n / 2 + INR q * PI).
  2:{ rewrite E, plus_INR, !mult_INR. cbn [INR]. field. lra. }
  assert (S0 : 0 < sin (INR r * PI / INR n / 2)).
  { pose proof PI_RGT_0. assert (0 < INR r) by (apply lt_0_INR; exact Hk).
    assert (INR r < 2 * INR n) by (rewrite <- (mult_INR 2); apply lt_INR; exact Rlt').
    apply sin_gt_0.
    - apply Rdiv_lt_0_compat; [|lra]. apply Rdiv_lt_0_compat; [nra|lra].
    - apply Rmult_lt_reg_r with (2 * INR n); [lra|]. replace (INR r * PI / INR n / 2 * (2 * INR n)) with (INR r * PI) by (field; lra). nra. }
  clear -S0. induction q as [|q IH].
  - cbn [INR]. rewrite Rmult_0_l, Rplus_0_r. lra.
  - rewrite S_INR. replace (INR r * PI / INR n / 2 + (INR q + 1) * PI) with (INR r * PI / INR n / 2 + INR q * PI + PI) by ring.
    rewrite neg_sin. intros H. apply IH. lra.
Qed.

Lemma grid_arg n k i : (0 < n)%nat -> INR k * grid n i = INR i * (INR k * PI / INR n).
Proof. intros Hn. unfold grid. field. apply not_0_INR. lia. Qed.

Lemma grid_sum_cos n k : (0 < n)%nat -> sum_n (fun i => cos (INR k * grid n i)) (2 * n) = if Nat.eqb (k mod (2 * n)) 0 then 2 * INR n else 0.
Proof.
  intros Hn. destruct (Nat.eqb_spec (k mod (2 * n)) 0) as [E|E].
  - apply Nat.div_exact in E; [|lia]. rewrite (sum_n_ext _ (fun _ => 1)).
    + rewrite sum_n_const, mult_INR. cbn [INR]. ring.
    + intros i _. rewrite grid_arg by exact Hn. replace (INR i * (INR k * PI / INR n)) with (0 + 2 * INR (i * (k / (2 * n))) * PI).
      * rewrite cos_period. apply cos_0.
      * rewrite E at 2. rewrite !mult_INR. cbn [INR]. field. apply not_0_INR. lia.
  - rewrite (sum_n_ext _ (fun i => cos (INR i * (INR k * PI / INR n)))) by (intros; rewrite grid_arg by exact Hn; reflexivity).
    apply (sum_cos_a _ _ k); [apply sin_multiple; lia|]. rewrite mult_INR. cbn [INR]. field. apply not_0_INR. lia.
Qed.

Lemma grid_sum_sin n k : (0 < n)%nat -> sum_n (fun i => sin (INR k * grid n i)) (2 * n) = 0.
Proof.
  intros Hn. destruct (Nat.eq_dec (k mod (2 * n)) 0) as [E|E].
  - apply Nat.div_exact in E; [|lia]. rewrite (sum_n_ext _ (fun _ => 0)).
    + rewrite sum_n_const. ring.
    + intros i _. rewrite grid_arg by exact Hn. replace (INR i * (INR k * PI / INR n)) with (0 + 2 * INR (i * (k / (2 * n))) * PI).
      * rewrite sin_period. apply sin_0.
      * rewrite E at 2. rewrite !mult_INR. cbn [INR]. field. apply not_0_INR. lia.
  - rewrite (sum_n_ext _ (fun i => sin (INR i * (INR k * PI / INR n)))) by (intros; rewrite grid_arg by exact Hn; reflexivity).
    apply (sum_sin_a _ _ k); [apply sin_multiple; lia|]. rewrite mult_INR. cbn [INR]. field. apply not_0_INR. lia.
Qed.

(* ---------------------------------------------------------------- *)
(** ** linspace *)

Lemma linspace_length a b m : List.length (linspace a b m) = S m.
Proof. unfold linspace. rewrite map_length, seq_length. reflexivity. Qed.
Lemma linspace_nth a b m i d : (i <= m)%nat -> nth i (linspace a b m) d = a + INR i * ((b - a) / INR m).
Proof.
  intros H. unfold linspace. rewrite (nth_indep _ d (a + INR 0 * ((b - a) / INR m))) by (rewrite map_length, seq_length; lia).
  rewrite (map_nth (fun i => a + INR i * ((b - a) / INR m))). rewrite seq_nth by lia. reflexivity.
Qed.
Lemma linspace_grid n i d : (0 < n)%nat -> (i <= 2 * n)%nat -> nth i (linspace 0 (2 * PI) (2 * n)) d = grid n i.
Proof. intros Hn Hi. rewrite linspace_nth by exact Hi. rewrite mult_INR. unfold grid. cbn [INR]. field. apply not_0_INR. lia. Qed.

Lemma nth_map_linspace (f : R -> R) n i d : (0 < n)%nat -> (i <= 2 * n)%nat -> nth i (map f (linspace 0 (2 * PI) (2 * n))) d = f (grid n i).
Proof.
  intros Hn Hi. rewrite (nth_indep _ d (f 0)) by (rewrite map_length, linspace_length; lia).
  rewrite (map_nth f). f_equal. apply linspace_grid; assumption.
Qed.

(* ---------------------------------------------------------------- *)
(** ** Integrals of trigonometric polynomials *)

Lemma int_cos k : (0 < k)%nat -> is_RInt (fun t => cos (INR k * t)) 0 (2 * PI) 0.
Proof.
  intros Hk. assert (K : INR k <> 0) by (apply not_0_INR; lia).
  replace 0 with (sin (INR k * (2 * PI)) / INR k - sin (INR k * 0) / INR k) at 2.
  - apply (is_RInt_derive (fun t => sin (INR k * t) / INR k)).
    + intros x _. auto_derive; [trivial|]. field. exact K.
    + intros x _. apply (ex_derive_continuous (fun t => cos (INR k * t))). auto_derive. trivial.
  - rewrite Rmult_0_r, sin_0. replace (INR k * (2 * PI)) with (0 + 2 * INR k * PI) by ring. rewrite sin_period, sin_0. field. exact K.
Qed.
Lemma int_sin k : (0 < k)%nat -> is_RInt (fun t => sin (INR k * t)) 0 (2 * PI) 0.
Proof.
  intros Hk. assert (K : INR k <> 0) by (apply not_0_INR; lia).
  replace 0 with (- cos (INR k * (2 * PI)) / INR k - - cos (INR k * 0) / INR k) at 2.
  - apply (is_RInt_derive (fun t => - cos (INR k * t) / INR k)).
    + intros x _. auto_derive; [trivial|]. field. exact K.
    + intros x _. apply (ex_derive_continuous (fun t => sin (INR k * t))). auto_derive. trivial.
  - rewrite Rmult_0_r, cos_0. replace (INR k * (2 * PI)) with (0 + 2 * INR k * PI) by ring. rewrite cos_period, cos_0. field. exact K.
Qed.

Lemma int_trig a b m : is_RInt (trig a b m) 0 (2 * PI) (2 * PI * a O).
Proof.
  unfold trig. induction m as [|m IH]; cbn [sum_n].
  - apply (is_RInt_ext (fun _ => a O)); [intros x _; symmetry; exact (Rplus_0_r (a O))|]. replace (2 * PI * a O) with (Hierarchy.scal (2 * PI - 0) (a O)) by (unfold Hierarchy.scal; cbn; unfold mult; cbn; ring).
    apply (is_RInt_const (V := R_NormedModule)).
  - apply (is_RInt_ext (fun t => plus (a O + sum_n (fun k => a (S k) * cos (INR (S k) * t) + b (S k) * sin (INR (S k) * t)) m)
      (plus (Hierarchy.scal (a (S m)) (cos (INR (S m) * t))) (Hierarchy.scal (b (S m)) (sin (INR (S m) * t)))))).
    { intros x _. unfold Hierarchy.plus, Hierarchy.scal; cbn -[INR]; unfold mult; cbn -[INR]. ring. }
    replace (2 * PI * a O) with (plus (2 * PI * a O) (plus (Hierarchy.scal (a (S m)) 0) (Hierarchy.scal (b (S m)) 0)))
      by (unfold Hierarchy.plus, Hierarchy.scal; cbn; unfold mult; cbn; ring).
    apply (is_RInt_plus (V := R_NormedModule)); [exact IH|]. apply (is_RInt_plus (V := R_NormedModule)); apply (is_RInt_scal (V := R_NormedModule)); [apply int_cos|apply int_sin]; lia.
Qed.

Lemma rule_trig n a b m : (0 < n)%nat -> sum_n (fun i => trig a b m (grid n i)) (2 * n) =
  2 * INR n * a O + sum_n (fun k => if Nat.eqb (S k mod (2 * n)) 0 then 2 * INR n * a (S k) else 0) m.
Proof.
  intros Hn. unfold trig. rewrite sum_n_plus, sum_n_const, mult_INR. change (INR 2) with 2. f_equal.
  rewrite sum_n_swap. apply sum_n_ext. intros k _. rewrite sum_n_plus, !sum_n_scal, grid_sum_cos, grid_sum_sin by exact Hn.
  destruct (Nat.eqb _ 0); ring.
Qed.

(* ---------------------------------------------------------------- *)
(** ** Kress *)

Lemma kress_c_pos p t : (2 <= p)%nat -> 0 <= t <= 2 * PI -> 0 <= kress_c p t <= 1.
Proof.
  intros Hp Ht. pose proof PI_RGT_0. unfold kress_c, kress_s. set (s := t / PI - 1).
  assert (Hs : -1 <= s <= 1).
  { unfold s. split; apply Rmult_le_reg_r with PI; try assumption; replace ((t / PI - 1) * PI) with (t - PI) by (field; lra); lra. }
  assert (P : 2 <= INR p) by (change 2 with (INR 2); apply le_INR; exact Hp).
  set (q := 1 / INR p). replace (s / INR p) with (s * q) by (unfold q; field; lra).
  assert (Q : 0 < q <= 1 / 2). { unfold q. split; [apply Rdiv_lt_0_compat; lra|]. apply Rmult_le_reg_r with (INR p); [lra|]. replace (1 / INR p * INR p) with 1 by (field; lra). lra. }
  clearbody s q. assert (-1 <= s * s * s <= 1) by nra. nra.
Qed.
Lemma kress_c_int p t : (2 <= p)%nat -> 0 < t < 2 * PI -> 0 < kress_c p t < 1.
Proof.
  intros Hp Ht. pose proof PI_RGT_0. unfold kress_c, kress_s. set (s := t / PI - 1).
  assert (Hs : -1 < s < 1).
  { unfold s. split; apply Rmult_lt_reg_r with PI; try assumption; replace ((t / PI - 1) * PI) with (t - PI) by (field; lra); lra. }
  assert (P : 2 <= INR p) by (change 2 with (INR 2); apply le_INR; exact Hp).
  set (q := 1 / INR p). replace (s / INR p) with (s * q) by (unfold q; field; lra).
  assert (Q : 0 < q <= 1 / 2). { unfold q. split; [apply Rdiv_lt_0_compat; lra|]. apply Rmult_le_reg_r with (INR p); [lra|]. replace (1 / INR p * INR p) with 1 by (field; lra). lra. }
  clearbody s q. assert (-1 < s * s * s < 1) by nra. nra.
Qed.

Lemma kress_den_pos p t : (2 <= p)%nat -> 0 <= t <= 2 * PI -> 0 < kress_den p t.
Proof.
  intros Hp Ht. destruct (kress_c_pos p t Hp Ht) as [A B]. unfold kress_den. set (c := kress_c p t) in *.
  assert (0 <= c ^ p) by (apply pow_le; exact A). assert (0 <= (1 - c) ^ p) by (apply pow_le; lra).
  destruct (Rlt_le_dec 0 c) as [L|L].
  - assert (0 < c ^ p) by (apply pow_lt; exact L). lra.
  - assert (0 < (1 - c) ^ p) by (apply pow_lt; lra). lra.
Qed.

Lemma kress_c_derive p t : (2 <= p)%nat -> is_derive (kress_c p) t ((3 * (1 / 2 - 1 / INR p) * (kress_s t * kress_s t) + 1 / INR p) / PI).
Proof.
  intros Hp. pose proof PI_RGT_0. assert (INR p <> 0) by (apply not_0_INR; lia). unfold kress_c, kress_s. auto_derive; [split; trivial|]. field. split; lra.
Qed.

Lemma kress_derive p t : (2 <= p)%nat -> 0 <= t <= 2 * PI -> is_derive (kress_node p) t (kress_wgt p t).
Proof.
  intros Hp Ht. pose proof PI_RGT_0. pose proof (kress_den_pos p t Hp Ht) as D. unfold kress_node.
  pose proof (kress_c_derive p t Hp) as C. set (c' := _ / PI) in C.
  assert (Ep : is_derive (fun x => (kress_c p x) ^ p) t (INR p * c' * (kress_c p t) ^ pred p)) by (apply is_derive_pow; exact C).
  assert (E1 : is_derive (fun x => 1 - kress_c p x) t (- c')).
  { replace (- c') with (minus 0 c') by (unfold minus, plus, opp; cbn; ring). apply (is_derive_minus (fun _ => 1) (kress_c p)); [apply (is_derive_const (V := R_NormedModule))|exact C]. }
  assert (Eq : is_derive (fun x => (1 - kress_c p x) ^ p) t (INR p * - c' * (1 - kress_c p t) ^ pred p)) by (apply (is_derive_pow (fun x => 1 - kress_c p x)); exact E1).
  assert (Ed : is_derive (kress_den p) t (INR p * c' * (kress_c p t) ^ pred p + INR p * - c' * (1 - kress_c p t) ^ pred p)) by (apply (is_derive_plus (V := R_NormedModule) _ _ _ _ _ Ep Eq)).
  assert (En : is_derive (fun x => 2 * PI * (kress_c p x) ^ p) t (2 * PI * (INR p * c' * (kress_c p t) ^ pred p))) by (apply (is_derive_scal (fun x => (kress_c p x) ^ p)); exact Ep).
  pose proof (is_derive_div _ _ t _ _ En Ed ltac:(lra)) as F. 
  match type of F with is_derive _ _ ?v => replace (kress_wgt p t) with v; [exact F|] end.
  unfold kress_wgt, c'. set (s := kress_s t). unfold kress_den in *. set (c := kress_c p t) in *.
  destruct p as [|k]; [lia|]. cbn [pred]. replace (S k - 1)%nat with k by lia.
  assert (I : INR (S k) <> 0) by (apply not_0_INR; lia). rewrite Rpow_mult_distr. rewrite <- !tech_pow_Rmult in *.
  set (u := c ^ k) in *. set (v := (1 - c) ^ k) in *. set (N := INR (S k)) in *. clearbody u v N c s. field. repeat split; lra.
Qed.

Lemma kress_c_0 p : (2 <= p)%nat -> kress_c p 0 = 0.
Proof. intros H. pose proof PI_RGT_0. assert (INR p <> 0) by (apply not_0_INR; lia). unfold kress_c, kress_s. field. split; lra. Qed.
Lemma kress_c_sym p t : kress_c p (2 * PI - t) = 1 - kress_c p t.
Proof.
  pose proof PI_RGT_0. unfold kress_c. replace (kress_s (2 * PI - t)) with (- kress_s t) by (unfold kress_s; field; lra).
  unfold Rdiv. generalize (/ INR p) (kress_s t). intros q s. field.
Qed.
Lemma kress_den_sym p t : kress_den p (2 * PI - t) = kress_den p t.
Proof. unfold kress_den. rewrite kress_c_sym. replace (1 - (1 - kress_c p t)) with (kress_c p t) by ring. ring. Qed.

Lemma kress_sym p t : (2 <= p)%nat -> 0 <= t <= 2 * PI -> kress_node p (2 * PI - t) = 2 * PI - kress_node p t.
Proof.
  intros Hp Ht. pose proof (kress_den_pos p t Hp Ht) as D. unfold kress_node. rewrite kress_den_sym, kress_c_sym.
  replace ((1 - kress_c p t) ^ p) with (kress_den p t - kress_c p t ^ p) by (unfold kress_den; cbn; ring). field. lra.
Qed.
Lemma kress_wgt_sym p t : kress_wgt p (2 * PI - t) = kress_wgt p t.
Proof.
  pose proof PI_RGT_0. unfold kress_wgt. rewrite kress_den_sym, kress_c_sym. replace (kress_s (2 * PI - t)) with (- kress_s t) by (unfold kress_s; field; lra).
  replace ((1 - kress_c p t) * (1 - (1 - kress_c p t))) with (kress_c p t * (1 - kress_c p t)) by ring.
  replace (- kress_s t * - kress_s t) with (kress_s t * kress_s t) by ring. reflexivity.
Qed.
Lemma kress_0 p : (2 <= p)%nat -> kress_node p 0 = 0.
Proof. intros H. unfold kress_node. rewrite kress_c_0 by exact H. rewrite pow_i by lia. unfold Rdiv. ring. Qed.
Lemma kress_2PI p : (2 <= p)%nat -> kress_node p (2 * PI) = 2 * PI.
Proof.
  intros H. pose proof PI_RGT_0. replace (2 * PI) with (2 * PI - 0) at 1 by ring. rewrite kress_sym by (assumption || lra). rewrite kress_0 by exact H. ring.
Qed.
Lemma kress_wgt_0 p : (2 <= p)%nat -> kress_wgt p 0 = 0.
Proof. intros H. unfold kress_wgt. rewrite kress_c_0 by exact H. rewrite Rmult_0_l, pow_i by lia. unfold Rdiv. ring. Qed.
Lemma kress_wgt_pos p t : (2 <= p)%nat -> 0 < t < 2 * PI -> 0 < kress_wgt p t.
Proof.
  intros H Ht. pose proof (kress_den_pos p t H ltac:(lra)) as D. destruct (kress_c_int p t H Ht) as [A B]. unfold kress_wgt.
  assert (P : 2 <= INR p) by (change 2 with (INR 2); apply le_INR; exact H).
  apply Rdiv_lt_0_compat; [|apply pow_lt; exact D]. apply Rmult_lt_0_compat.
  - pose proof (Rle_0_sqr (kress_s t)) as Q. unfold Rsqr in Q. assert (0 <= (INR p - 2) * (kress_s t * kress_s t)) by (apply Rmult_le_pos; lra). lra.
  - apply pow_lt. nra.
Qed.
Lemma kress_incr p x y : (2 <= p)%nat -> 0 <= x -> x < y -> y <= 2 * PI -> kress_node p x < kress_node p y.
Proof.
  intros H Hx Hxy Hy.
  destruct (MVT_gen (kress_node p) x y (kress_wgt p)) as (c & Hc & E).
  - intros z Hz. rewrite Rmin_left, Rmax_right in Hz by lra. apply kress_derive; [exact H|lra].
  - intros z Hz. rewrite Rmin_left, Rmax_right in Hz by lra. apply continuity_pt_filterlim. apply (ex_derive_continuous (kress_node p)).
    eexists. apply kress_derive; [exact H|lra].
  - rewrite Rmin_left, Rmax_right in Hc by lra.
    (* c may be an end of the interval: use the midpoint to get strictness *)
    assert (W : forall u v, 0 <= u -> u < v -> v <= 2 * PI -> kress_node p u <= kress_node p v).
    { intros u v Hu Huv Hv. destruct (MVT_gen (kress_node p) u v (kress_wgt p)) as (d & Hd & Ed).
      - intros z Hz. rewrite Rmin_left, Rmax_right in Hz by lra. apply kress_derive; [exact H|lra].
      - intros z Hz. rewrite Rmin_left, Rmax_right in Hz by lra. apply continuity_pt_filterlim. apply (ex_derive_continuous (kress_node p)).
        eexists. apply kress_derive; [exact H|lra].
      - rewrite Rmin_left, Rmax_right in Hd by lra. assert (0 <= kress_wgt p d).
        { destruct (Req_dec d 0) as [->|N0]; [rewrite kress_wgt_0 by exact H; lra|].
          destruct (Req_dec d (2 * PI)) as [->|N1]; [replace (2 * PI) with (2 * PI - 0) by ring; rewrite kress_wgt_sym, kress_wgt_0 by exact H; lra|].
          left. apply kress_wgt_pos; [exact H|lra]. }
        nra. }
    set (u := (2 * x + y) / 3). set (v := (x + 2 * y) / 3).
    assert (Hu : x < u < v) by (unfold u, v; lra). assert (Hv : v < y) by (unfold v; lra).
    apply Rle_lt_trans with (kress_node p u); [apply W; lra|]. apply Rlt_le_trans with (kress_node p v); [|apply W; lra].
    destruct (MVT_gen (kress_node p) u v (kress_wgt p)) as (d & Hd & Ed).
    + intros z Hz. rewrite Rmin_left, Rmax_right in Hz by lra. apply kress_derive; [exact H|lra].
    + intros z Hz. rewrite Rmin_left, Rmax_right in Hz by lra. apply continuity_pt_filterlim. apply (ex_derive_continuous (kress_node p)).
      eexists. apply kress_derive; [exact H|lra].
    + rewrite Rmin_left, Rmax_right in Hd by lra. assert (0 < kress_wgt p d) by (apply kress_wgt_pos; [exact H|lra]). nra.
Qed.

(* ---------------------------------------------------------------- *)
(** ** Martensen *)

Lemma mart_sum_n m t : mart_sum m t = sum_n (fun k => cos (INR (S k) * t) / INR (S k)) m.
Proof. induction m as [|m IH]; [reflexivity|]. cbn [mart_sum sum_n]. rewrite IH. reflexivity. Qed.

Lemma cos_prod a b : cos a * cos b = (cos (a + b) + cos (a - b)) / 2.
Proof. rewrite cos_plus, cos_minus. field. Qed.
Lemma cos_sin_prod a b : cos a * sin b = (sin (a + b) - sin (a - b)) / 2.
Proof. rewrite sin_plus, sin_minus. field. Qed.

Lemma grid_cos_cos n m k : (0 < n)%nat -> (1 <= m <= n)%nat -> (k <= n)%nat ->
  sum_n (fun i => cos (INR m * grid n i) * cos (INR k * grid n i)) (2 * n) =
  if Nat.eqb m k then (if Nat.eqb k n then 2 * INR n else INR n) else 0.
Proof.
  intros Hn Hm Hk. rewrite (sum_n_ext _ (fun i => / 2 * cos (INR (m + k) * grid n i) + / 2 * cos (INR (Nat.max m k - Nat.min m k) * grid n i))).
  2:{ intros i _. rewrite cos_prod. rewrite plus_INR, Rmult_plus_distr_r. destruct (Nat.le_gt_cases m k).
      - rewrite Nat.max_r, Nat.min_l, minus_INR by lia. replace ((INR k - INR m) * grid n i) with (- (INR m * grid n i - INR k * grid n i)) by ring. rewrite cos_neg. field.
      - rewrite Nat.max_l, Nat.min_r, minus_INR by lia. replace ((INR m - INR k) * grid n i) with (INR m * grid n i - INR k * grid n i) by ring. field. }
  rewrite sum_n_plus, !sum_n_scal, !grid_sum_cos by exact Hn.
  destruct (Nat.eqb_spec m k) as [->|Nk].
  - rewrite Nat.max_id, Nat.min_id, Nat.sub_diag, Nat.mod_0_l by lia. cbn [Nat.eqb]. destruct (Nat.eqb_spec k n) as [->|N'].
    + replace (n + n)%nat with (2 * n)%nat by lia. rewrite Nat.mod_same by lia. cbn [Nat.eqb]. field.
    + rewrite Nat.mod_small by lia. destruct (Nat.eqb_spec (k + k) 0); [lia|]. field.
  - rewrite !Nat.mod_small by lia. destruct (Nat.eqb_spec (m + k) 0); [lia|]. destruct (Nat.eqb_spec (Nat.max m k - Nat.min m k) 0); [lia|]. field.
Qed.

Lemma grid_cos_sin n m k : (0 < n)%nat -> sum_n (fun i => cos (INR m * grid n i) * sin (INR k * grid n i)) (2 * n) = 0.
Proof.
  intros Hn. destruct (Nat.le_gt_cases k m).
  - rewrite (sum_n_ext _ (fun i => / 2 * sin (INR (m + k) * grid n i) + - / 2 * sin (INR (m - k) * grid n i))).
    + rewrite sum_n_plus, !sum_n_scal, !grid_sum_sin by exact Hn. ring.
    + intros i _. rewrite cos_sin_prod, plus_INR, minus_INR by lia. rewrite Rmult_plus_distr_r.
      replace ((INR m - INR k) * grid n i) with (INR m * grid n i - INR k * grid n i) by ring. field.
  - rewrite (sum_n_ext _ (fun i => / 2 * sin (INR (m + k) * grid n i) + / 2 * sin (INR (k - m) * grid n i))).
    + rewrite sum_n_plus, !sum_n_scal, !grid_sum_sin by exact Hn. ring.
    + intros i _. rewrite cos_sin_prod, plus_INR, minus_INR by lia. rewrite Rmult_plus_distr_r.
      replace ((INR k - INR m) * grid n i) with (- (INR m * grid n i - INR k * grid n i)) by ring. rewrite sin_neg. field.
Qed.

Lemma sum_n_pick (f : nat -> R) j m : (j < m)%nat -> sum_n (fun i => if Nat.eqb i j then f i else 0) m = f j.
Proof.
  induction m as [|m IH]; intros H; [lia|]. cbn [sum_n]. destruct (Nat.eqb_spec m j) as [->|N].
  - rewrite (sum_n_ext _ (fun _ => 0)), sum_n_const; [ring|]. intros i Hi. destruct (Nat.eqb_spec i j); [lia|reflexivity].
  - rewrite IH by lia. ring.
Qed.
Lemma sum_n_zero f m : (forall i, (i < m)%nat -> f i = 0) -> sum_n f m = 0.
Proof. intros H. rewrite (sum_n_ext _ (fun _ => 0)) by exact H. rewrite sum_n_const. ring. Qed.

Lemma mart_cos n k : (0 < n)%nat -> (k <= n)%nat ->
  sum_n (fun i => mart_wgt n (grid n i) * cos (INR k * grid n i)) (2 * n) =
  if Nat.eqb k 0 then 0 else if Nat.eqb k n then 1 / INR n else 1 / (2 * INR k).
Proof.
  intros Hn Hk. assert (N0 : INR n <> 0) by (apply not_0_INR; lia).
  rewrite (sum_n_ext _ (fun i => sum_n (fun m => / (2 * INR n * INR (S m)) * (cos (INR (S m) * grid n i) * cos (INR k * grid n i))) n)).
  2:{ intros i _. unfold mart_wgt. rewrite mart_sum_n.
      rewrite (Rmult_comm (sum_n _ n)), Rmult_assoc, (Rmult_comm (sum_n _ n)), <- Rmult_assoc, <- sum_n_scal.
      apply sum_n_ext. intros m _. assert (INR (S m) <> 0) by (apply not_0_INR; lia). field. split; assumption. }
  rewrite sum_n_swap.
  rewrite (sum_n_ext _ (fun m => if Nat.eqb (S m) k then / (2 * INR n * INR (S m)) * (if Nat.eqb k n then 2 * INR n else INR n) else 0)).
  2:{ intros m Hm. rewrite sum_n_scal, grid_cos_cos by lia. destruct (Nat.eqb (S m) k); ring. }
  destruct k as [|k].
  - cbn [Nat.eqb]. rewrite sum_n_const. ring.
  - change (Nat.eqb (S k) 0) with false; cbv iota. etransitivity; [exact (sum_n_pick (fun m => / (2 * INR n * INR (S m)) * (if Nat.eqb (S k) n then 2 * INR n else INR n)) k n Hk)|].
    assert (K0 : INR (S k) <> 0) by (apply not_0_INR; lia). destruct (Nat.eqb_spec (S k) n) as [E|E]; [rewrite <- E in *|]; field; try split; assumption.
Qed.

Lemma mart_sin n k : (0 < n)%nat -> sum_n (fun i => mart_wgt n (grid n i) * sin (INR k * grid n i)) (2 * n) = 0.
Proof.
  intros Hn. assert (N0 : INR n <> 0) by (apply not_0_INR; lia).
  rewrite (sum_n_ext _ (fun i => sum_n (fun m => / (2 * INR n * INR (S m)) * (cos (INR (S m) * grid n i) * sin (INR k * grid n i))) n)).
  2:{ intros i _. unfold mart_wgt. rewrite mart_sum_n.
      rewrite (Rmult_comm (sum_n _ n)), Rmult_assoc, (Rmult_comm (sum_n _ n)), <- Rmult_assoc, <- sum_n_scal.
      apply sum_n_ext. intros m _. assert (INR (S m) <> 0) by (apply not_0_INR; lia). field. split; assumption. }
  rewrite sum_n_swap. apply sum_n_zero. intros m _. rewrite sum_n_scal, grid_cos_sin by exact Hn. ring.
Qed.

Lemma mart_wgt_sym n i : (0 < n)%nat -> (i <= 2 * n)%nat -> mart_wgt n (grid n (2 * n - i)) = mart_wgt n (grid n i).
Proof.
  intros Hn Hi. unfold mart_wgt. f_equal. rewrite !mart_sum_n. apply sum_n_ext. intros k _. f_equal.
  replace (INR (S k) * grid n (2 * n - i)) with (- (INR (S k) * grid n i) + 2 * INR (S k) * PI).
  - rewrite cos_period, cos_neg. reflexivity.
  - unfold grid. rewrite minus_INR, mult_INR by exact Hi. change (INR 2) with 2. field. apply not_0_INR. lia.
Qed.
