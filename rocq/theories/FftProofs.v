(** Lemmas on the discrete Fourier transform. *)
From Coq Require Import List ZArith Reals Lia Lra Bool.
From Coquelicot Require Import Coquelicot.
From Verif Require Import PyBase EdgeSpec ContourModel CellModel FftModel FftSpec.
Import List ListNotations.
Open Scope R_scope.

(** ** Complex sums *)
Open Scope C_scope.
Lemma csum_ext (f g : nat -> C) n : (forall i, (i < n)%nat -> f i = g i) -> csum_n f n = csum_n g n.
Proof. induction n as [|n IH]; intros E; [reflexivity|]. cbn [csum_n]. rewrite IH, (E n) by (intros; try apply E; lia). reflexivity. Qed.
Lemma csum_add (f g : nat -> C) n : csum_n (fun i => f i + g i) n = csum_n f n + csum_n g n.
Proof. induction n as [|n IH]; [cbn; ring|]. cbn [csum_n]. rewrite IH. ring. Qed.
Lemma csum_scal c (f : nat -> C) n : csum_n (fun i => c * f i) n = c * csum_n f n.
Proof. induction n as [|n IH]; [cbn; ring|]. cbn [csum_n]. rewrite IH. ring. Qed.
Lemma csum_0 n : csum_n (fun _ => RtoC 0) n = 0.
Proof. induction n as [|n IH]; [reflexivity|]. cbn [csum_n]. rewrite IH. ring. Qed.
Lemma csum_swap (f : nat -> nat -> C) n m : csum_n (fun i => csum_n (fun j => f i j) m) n = csum_n (fun j => csum_n (fun i => f i j) n) m.
Proof. induction n as [|n IH]; cbn [csum_n]; [symmetry; apply csum_0|]. rewrite IH, <- csum_add. reflexivity. Qed.
Lemma csum_single (f : nat -> C) n i : (i < n)%nat -> (forall j, (j < n)%nat -> j <> i -> f j = 0) -> csum_n f n = f i.
Proof.
  induction n as [|n IH]; intros L Z; [lia|]. cbn [csum_n]. destruct (Nat.eq_dec i n) as [->|NE].
  - rewrite (csum_ext f (fun _ => RtoC 0) n) by (intros; apply Z; lia). rewrite csum_0. ring.
  - rewrite IH, (Z n) by (intros; try apply Z; lia). ring.
Qed.
Close Scope C_scope.
Lemma csum_re f n : Re (csum_n f n) = sum_list (map (fun i => Re (f i)) (seq 0 n)).
Proof.
  induction n as [|n IH]; [reflexivity|]. rewrite seq_S, map_app. cbn [csum_n]. assert (A : forall l r, sum_list (l ++ [r]) = sum_list l + r) by (induction l as [|x l IHl]; intros r; cbn; [lra|]; change (fold_right Rplus 0 (l ++ [r])) with (sum_list (l ++ [r])); rewrite IHl; unfold sum_list; lra).
  cbn [map app]. rewrite A, <- IH. reflexivity.
Qed.

(** ** Roots of unity *)
Lemma expi_add a b : expi (a + b) = Cmult (expi a) (expi b).
Proof. unfold expi, Cmult. cbn [fst snd]. rewrite cos_plus, sin_plus. apply f_equal2; ring. Qed.
Lemma expi_0 : expi 0 = RtoC 1.
Proof. unfold expi. rewrite cos_0, sin_0. reflexivity. Qed.
Lemma expi_neg a : expi (- a) = Cconj (expi a).
Proof. unfold expi, Cconj. rewrite cos_neg, sin_neg. reflexivity. Qed.
Lemma cos_zp x k : cos (x + 2 * IZR k * PI) = cos x.
Proof.
  destruct (Z.le_ge_cases 0 k) as [L|L].
  - rewrite <- (Z2Nat.id k L), <- INR_IZR_INZ. apply cos_period.
  - rewrite <- (cos_period (x + 2 * IZR k * PI) (Z.to_nat (- k))). f_equal. rewrite (INR_IZR_INZ (Z.to_nat (-k))), Z2Nat.id, opp_IZR by lia. ring.
Qed.
Lemma sin_zp x k : sin (x + 2 * IZR k * PI) = sin x.
Proof.
  destruct (Z.le_ge_cases 0 k) as [L|L].
  - rewrite <- (Z2Nat.id k L), <- INR_IZR_INZ. apply sin_period.
  - rewrite <- (sin_period (x + 2 * IZR k * PI) (Z.to_nat (- k))). f_equal. rewrite (INR_IZR_INZ (Z.to_nat (-k))), Z2Nat.id, opp_IZR by lia. ring.
Qed.
Lemma expi_zp x k : expi (x + 2 * IZR k * PI) = expi x.
Proof. unfold expi. rewrite cos_zp, sin_zp. reflexivity. Qed.
(** The angle of the n-th power of the m-th root *)
Definition ang (N : nat) (m : Z) (n : nat) : R := 2 * PI * IZR m * INR n / INR N.
Lemma ang_shift N m k n : (0 < N)%nat -> expi (ang N (m + k * Z.of_nat N) n) = expi (ang N m n).
Proof.
  intros P. assert (INR N <> 0) by (apply not_0_INR; lia). rewrite <- (expi_zp (ang N m n) (k * Z.of_nat n)). f_equal. unfold ang. rewrite plus_IZR, !mult_IZR, <- !INR_IZR_INZ. field. assumption.
Qed.
Lemma ang_mod N m n : (0 < N)%nat -> expi (ang N (m mod Z.of_nat N) n) = expi (ang N m n).
Proof. intros P. rewrite <- (ang_shift N (m mod Z.of_nat N) (m / Z.of_nat N) n P). f_equal. f_equal. pose proof (Z.div_mod m (Z.of_nat N)). lia. Qed.
Lemma expi_not_1 t : 0 < t < 2 * PI -> expi t <> RtoC 1.
Proof.
  intros B E. injection E as E1 E2. assert (S : 0 < sin (t / 2)) by (apply sin_gt_0; lra). replace t with (2 * (t / 2)) in E1 by field. rewrite cos_2a_sin in E1. nra.
Qed.
Lemma geom (w : C) (g : nat -> C) n : (forall i, g (S i) = Cmult w (g i)) -> Cmult (Cminus w (RtoC 1)) (csum_n g n) = Cminus (g n) (g O).
Proof. intros G. induction n as [|n IH]; cbn [csum_n]; [ring|]. rewrite G. transitivity (Cplus (Cmult (Cminus w (RtoC 1)) (csum_n g n)) (Cminus (Cmult w (g n)) (g n))); [ring|]. rewrite IH. ring. Qed.
Lemma orth N d : (0 < N)%nat -> csum_n (fun n => expi (ang N d n)) N = if (d mod Z.of_nat N =? 0)%Z then RtoC (INR N) else RtoC 0.
Proof.
  intros P. assert (NZ : INR N <> 0) by (apply not_0_INR; lia). assert (PN : 0 < INR N) by (apply lt_0_INR; exact P). rewrite (csum_ext _ (fun n => expi (ang N (d mod Z.of_nat N) n))) by (intros; symmetry; apply ang_mod, P).
  pose proof (Z.mod_pos_bound d (Z.of_nat N)). set (e := (d mod Z.of_nat N)%Z) in *. destruct (Z.eqb_spec e 0) as [->|NE].
  - rewrite (csum_ext _ (fun _ => Cmult (RtoC 1) (RtoC 1))) by (intros; unfold ang; replace (2 * PI * 0 * INR i / INR N) with 0 by (field; exact NZ); rewrite expi_0; ring). clear. rewrite csum_scal. induction N as [|n IH]; [cbn; ring|]. cbn [csum_n]. rewrite S_INR, RtoC_plus, <- IH. ring.
  - pose proof (geom (expi (ang N e 1)) (fun n => expi (ang N e n)) N) as G. cbv beta in G.
    assert (Z0 : Cminus (expi (ang N e N)) (expi (ang N e 0)) = RtoC 0).
    { unfold ang. replace (2 * PI * IZR e * INR N / INR N) with (0 + 2 * IZR e * PI) by (field; exact NZ). rewrite expi_zp. cbn [INR]. replace (2 * PI * IZR e * 0 / INR N) with 0 by (field; exact NZ). ring. }
    rewrite Z0 in G. assert (W : Cminus (expi (ang N e 1)) (RtoC 1) <> RtoC 0).
    { intros E. apply (expi_not_1 (ang N e 1)).
      - unfold ang. assert (0 < IZR e) by (apply IZR_lt; lia). assert (IZR e < INR N) by (rewrite INR_IZR_INZ; apply IZR_lt; lia). pose proof PI_RGT_0. cbn [INR]. split; [apply Rdiv_lt_0_compat; nra|]. apply (Rmult_lt_reg_r (INR N)); [exact PN|]. unfold Rdiv. rewrite Rmult_assoc, Rinv_l by exact NZ. nra.
      - transitivity (Cplus (Cminus (expi (ang N e 1)) (RtoC 1)) (RtoC 1)); [ring|]. rewrite E. ring. }
    assert (G0 : Cmult (Cminus (expi (ang N e 1)) (RtoC 1)) (csum_n (fun n => expi (ang N e n)) N) = RtoC 0).
    { apply G. intros i. rewrite <- expi_add. f_equal. unfold ang. rewrite S_INR. cbn [INR]. field. exact NZ. }
    destruct (Ceq_dec (csum_n (fun n => expi (ang N e n)) N) (RtoC 0)) as [E|E]; [exact E|]. exfalso. exact (Cmult_neq_0 _ _ W E G0).
Qed.

(** ** Frequencies *)
Definition zfreq (N k : nat) : Z := if (2 * k <? N)%nat then Z.of_nat k else (Z.of_nat k - Z.of_nat N)%Z.
Lemma half_split N : (0 < N)%nat -> ((N - 1) / 2 + 1 + N / 2 = N)%nat.
Proof. intros P. pose proof (Nat.div_mod N 2). pose proof (Nat.div_mod (N - 1) 2). pose proof (Nat.mod_upper_bound N 2). pose proof (Nat.mod_upper_bound (N - 1) 2). lia. Qed.
Lemma fftfreq_length N : (0 < N)%nat -> length (fftfreq N) = N.
Proof. intros P. unfold fftfreq. rewrite map_length, app_length, !map_length, !seq_length. apply half_split, P. Qed.
Lemma fftfreq_nth N k : (k < N)%nat -> nth k (fftfreq N) 0 = IZR (zfreq N k) / INR N.
Proof.
  intros L. assert (P : (0 < N)%nat) by lia. pose proof (half_split N P) as HS. unfold fftfreq. rewrite (nth_indep _ 0 (IZR 0 / INR N)) by (rewrite map_length, app_length, !map_length, !seq_length; lia). rewrite (map_nth (fun m => IZR m / INR N)). f_equal. f_equal. unfold zfreq.
  pose proof (Nat.div_mod N 2). pose proof (Nat.div_mod (N - 1) 2). pose proof (Nat.mod_upper_bound N 2). pose proof (Nat.mod_upper_bound (N - 1) 2). destruct (Nat.ltb_spec (2 * k) N) as [A|A].
  - rewrite app_nth1 by (rewrite map_length, seq_length; lia). rewrite (nth_indep _ 0%Z (Z.of_nat 0)) by (rewrite map_length, seq_length; lia). rewrite map_nth, seq_nth by lia. reflexivity.
  - rewrite app_nth2 by (rewrite map_length, seq_length; lia). rewrite map_length, seq_length. rewrite (nth_indep _ 0%Z ((fun k => Z.of_nat k - Z.of_nat (N / 2)) 0%nat)%Z) by (rewrite map_length, seq_length; lia). rewrite (map_nth (fun k => Z.of_nat k - Z.of_nat (N / 2))%Z), seq_nth by lia. lia.
Qed.
Lemma zfreq_range N k : (k < N)%nat -> (- Z.of_nat N <= 2 * zfreq N k < Z.of_nat N)%Z.
Proof. intros L. unfold zfreq. destruct (Nat.ltb_spec (2 * k) N); lia. Qed.
Lemma zfreq_mod N m : (0 < N)%nat -> (- Z.of_nat N <= 2 * m < Z.of_nat N)%Z -> zfreq N (Z.to_nat (m mod Z.of_nat N)) = m.
Proof.
  intros P B. unfold zfreq. destruct (Z.ltb_spec m 0) as [L|L].
  - assert (E : (m mod Z.of_nat N = m + Z.of_nat N)%Z) by (symmetry; apply (Z.mod_unique _ _ (-1)); lia). rewrite E. destruct (Nat.ltb_spec (2 * Z.to_nat (m + Z.of_nat N)) N); lia.
  - rewrite Z.mod_small by lia. destruct (Nat.ltb_spec (2 * Z.to_nat m) N); lia.
Qed.
Lemma zfreq_ang N k j : (0 < N)%nat -> expi (ang N (zfreq N k) j) = expi (ang N (Z.of_nat k) j).
Proof. intros P. unfold zfreq. destruct (2 * k <? N)%nat; [reflexivity|]. rewrite <- (ang_shift N (Z.of_nat k) (-1) j P). do 2 f_equal; lia. Qed.

(** ** Multipliers *)
(** The k-th coefficient of the transform of x *)
Definition dft (N : nat) (x : nat -> C) (k : nat) : C := csum_n (fun n => Cmult (x n) (expi (- ang N (Z.of_nat k) n))) N.
Definition mult (N : nat) (phi : Z -> C) (x : nat -> C) : C := Cmult (RtoC (/ INR N)) (csum_n (fun k => Cmult (dft N x k) (phi (zfreq N k))) N).
Lemma dft_ext N x y k : (forall n, (n < N)%nat -> x n = y n) -> dft N x k = dft N y k.
Proof. intros E. apply csum_ext. intros i L. rewrite E by exact L. reflexivity. Qed.
Lemma mult_ext N phi x y : (forall n, (n < N)%nat -> x n = y n) -> mult N phi x = mult N phi y.
Proof. intros E. unfold mult. f_equal. apply csum_ext. intros k _. rewrite (dft_ext N x y k E). reflexivity. Qed.
Lemma dft_lin N a b x y k : dft N (fun n => Cplus (Cmult a (x n)) (Cmult b (y n))) k = Cplus (Cmult a (dft N x k)) (Cmult b (dft N y k)).
Proof. unfold dft. rewrite <- !csum_scal, <- csum_add. apply csum_ext. intros; ring. Qed.
Lemma mult_lin N phi a b x y : mult N phi (fun n => Cplus (Cmult a (x n)) (Cmult b (y n))) = Cplus (Cmult a (mult N phi x)) (Cmult b (mult N phi y)).
Proof.
  unfold mult. rewrite (csum_ext _ (fun k => Cplus (Cmult a (Cmult (dft N x k) (phi (zfreq N k)))) (Cmult b (Cmult (dft N y k) (phi (zfreq N k)))))) by (intros; rewrite dft_lin; ring). rewrite csum_add, !csum_scal. ring.
Qed.
Lemma mult_0 N phi : mult N phi (fun _ => RtoC 0) = RtoC 0.
Proof.
  unfold mult. rewrite (csum_ext _ (fun _ => RtoC 0)); [rewrite csum_0; ring|]. intros k _. unfold dft. rewrite (csum_ext _ (fun _ => RtoC 0)) by (intros; ring). rewrite csum_0. ring.
Qed.
Lemma mult_exp N phi m : (0 < N)%nat -> (- Z.of_nat N <= 2 * m < Z.of_nat N)%Z -> mult N phi (fun n => expi (ang N m n)) = phi m.
Proof.
  intros P B. assert (NZ : INR N <> 0) by (apply not_0_INR; lia). pose proof (Z.mod_pos_bound m (Z.of_nat N)) as MB. unfold mult.
  assert (D : forall k, dft N (fun n => expi (ang N m n)) k = if ((m - Z.of_nat k) mod Z.of_nat N =? 0)%Z then RtoC (INR N) else RtoC 0).
  { intros k. unfold dft. rewrite <- orth by exact P. apply csum_ext. intros i _. rewrite <- expi_add. f_equal. unfold ang. rewrite minus_IZR. field. exact NZ. }
  rewrite (csum_single _ N (Z.to_nat (m mod Z.of_nat N))).
  - rewrite D, zfreq_mod by assumption. rewrite Z2Nat.id by lia. rewrite Zminus_mod_idemp_r, Z.sub_diag, Zmod_0_l. rewrite Z.eqb_refl, Cmult_assoc, <- RtoC_mult, Rinv_l by exact NZ. ring.
  - lia.
  - intros j L NE. rewrite D. destruct (Z.eqb_spec ((m - Z.of_nat j) mod Z.of_nat N) 0) as [E|E]; [|ring]. exfalso. apply NE. assert (X : (m mod Z.of_nat N = Z.of_nat j)%Z); [|lia].
    symmetry. apply (Z.mod_unique _ _ ((m - Z.of_nat j) / Z.of_nat N)); [lia|]. pose proof (Z.div_mod (m - Z.of_nat j) (Z.of_nat N)). lia.
Qed.

(** ** Trigonometric polynomials *)
Definition hermitian (phi : Z -> C) : Prop := forall m, phi (- m)%Z = Cconj (phi m).
Definition tcoef (phi : Z -> C) (q : tterm) : R := let '(m, (a, b)) := q in a * Re (phi m) + b * Im (phi m).
Lemma tval_node L N n m a b : L <> 0 -> (0 < N)%nat -> tval_at L (L * INR n / INR N) (m, (a, b)) = a * cos (ang N m n) + b * sin (ang N m n).
Proof.
  intros LZ P. assert (NZ : INR N <> 0) by (apply not_0_INR; lia). unfold tval_at, ang. replace (2 * PI * IZR m / L * (L * INR n / INR N)) with (2 * PI * IZR m * INR n / INR N) by (field; auto). reflexivity.
Qed.
Lemma ang_neg N m n : ang N (- m) n = - ang N m n.
Proof. unfold ang. rewrite opp_IZR. unfold Rdiv. ring. Qed.
Lemma nyq_angle N m n : (0 < N)%nat -> (2 * Z.abs m = Z.of_nat N)%Z -> ang N m n = PI * INR n \/ ang N m n = - (PI * INR n).
Proof.
  intros P E. assert (NZ : INR N <> 0) by (apply not_0_INR; lia). assert (X : INR N = 2 * IZR m \/ INR N = - (2 * IZR m)).
  { destruct (Z.abs_eq_or_opp m) as [A|A]; [left|right]; rewrite INR_IZR_INZ, <- E, A, mult_IZR; [reflexivity|]. rewrite opp_IZR. ring. }
  unfold ang. destruct X as [X|X]; [left|right]; rewrite X in *; field; lra.
Qed.
Lemma sin_npi n : sin (PI * INR n) = 0.
Proof. rewrite Rmult_comm. apply sin_eq_0_1. exists (Z.of_nat n). rewrite <- INR_IZR_INZ. reflexivity. Qed.
Lemma cos_npi n : cos (PI * INR n) = (-1) ^ n.
Proof. induction n as [|n IH]; [cbn [INR pow]; rewrite Rmult_0_r; apply cos_0|]. rewrite S_INR, Rmult_plus_distr_l, Rmult_1_r, neg_cos, IH. cbn [pow]. ring. Qed.
Lemma nyq_sin N m n : (0 < N)%nat -> (2 * Z.abs m = Z.of_nat N)%Z -> sin (ang N m n) = 0.
Proof. intros P E. destruct (nyq_angle N m n P E) as [->| ->]; [|rewrite sin_neg]; rewrite sin_npi; ring. Qed.
Lemma nyq_cos N m n : (0 < N)%nat -> (2 * Z.abs m = Z.of_nat N)%Z -> cos (ang N m n) = (-1) ^ n.
Proof. intros P E. destruct (nyq_angle N m n P E) as [->| ->]; [|rewrite cos_neg]; apply cos_npi. Qed.

Lemma mult_term N L phi q : (0 < N)%nat -> L <> 0 -> hermitian phi -> resolved1 N q ->
  Re (mult N phi (fun n => RtoC (tval_at L (L * INR n / INR N) q))) = tcoef phi q.
Proof.
  intros P LZ Hm. destruct q as [m [a b]]. intros Rs. cbn [resolved1] in Rs. destruct Rs as [B|[B ->]].
  - rewrite (mult_ext N phi _ (fun n => Cplus (Cmult (a / 2, - b / 2) (expi (ang N m n))) (Cmult (a / 2, b / 2) (expi (ang N (- m) n))))).
    + rewrite mult_lin, !mult_exp by lia. rewrite Hm. cbn [tcoef]. destruct (phi m) as [u v]. cbn. field.
    + intros n _. rewrite tval_node by assumption. rewrite ang_neg. unfold expi. rewrite cos_neg, sin_neg. unfold RtoC, Cplus, Cmult. cbn [fst snd]. apply f_equal2; field.
  - set (m' := (- Z.abs m)%Z). assert (B' : (2 * Z.abs m' = Z.of_nat N)%Z) by (unfold m'; lia).
    rewrite (mult_ext N phi _ (fun n => Cplus (Cmult (RtoC a) (expi (ang N m' n))) (Cmult (RtoC 0) (RtoC 0)))).
    + rewrite (mult_lin N phi (RtoC a) (RtoC 0) (fun n => expi (ang N m' n)) (fun _ => RtoC 0)). rewrite mult_exp by (unfold m'; lia). assert (X : Re (phi m') = Re (phi m)).
      { unfold m'. destruct (Z.abs_eq_or_opp m) as [->| ->]; [rewrite Hm; reflexivity|rewrite Z.opp_involutive; reflexivity]. }
      cbn [tcoef]. rewrite <- X. destruct (phi m') as [u v]. rewrite mult_0. cbn. unfold Re, Im. cbn [fst snd]. ring.
    + intros n _. rewrite tval_node by assumption. unfold expi. rewrite (nyq_sin N m' n), (nyq_cos N m' n), (nyq_cos N m n) by assumption. unfold RtoC, Cplus, Cmult. cbn [fst snd]. apply f_equal2; ring.
Qed.
Lemma mult_trig N L phi T : (0 < N)%nat -> L <> 0 -> hermitian phi -> resolved N T ->
  Re (mult N phi (fun n => RtoC (trig L T (L * INR n / INR N)))) = sum_list (map (tcoef phi) T).
Proof.
  intros P LZ Hm Rs. induction Rs as [|q T Q Rs IH].
  - unfold trig. cbn [map]. change (sum_list []) with 0. rewrite mult_0. reflexivity.
  - rewrite (mult_ext N phi _ (fun n => Cplus (Cmult (RtoC 1) (RtoC (tval_at L (L * INR n / INR N) q))) (Cmult (RtoC 1) (RtoC (trig L T (L * INR n / INR N)))))).
    + rewrite (mult_lin N phi (RtoC 1) (RtoC 1)). rewrite !Cmult_1_l. transitivity (tcoef phi q + sum_list (map (tcoef phi) T)); [|reflexivity]. rewrite <- IH, <- (mult_term N L phi q P LZ Hm Q). reflexivity.
    + intros n _. unfold trig. cbn [map]. change (sum_list (tval_at L (L * INR n / INR N) q :: map (tval_at L (L * INR n / INR N)) T)) with (tval_at L (L * INR n / INR N) q + sum_list (map (tval_at L (L * INR n / INR N)) T)). rewrite RtoC_plus. ring.
Qed.

(** ** The code as multipliers *)
Lemma fft_length x : length (fft x) = length x.
Proof. unfold fft. rewrite map_length, seq_length. reflexivity. Qed.
Lemma fft_nth x k : (k < length x)%nat -> nth k (fft x) (RtoC 0) = dft (length x) (fun n => nth n x (RtoC 0)) k.
Proof.
  intros L. unfold fft. rewrite (nth_indep _ _ ((fun k => csum_n (fun n => Cmult (nth n x (RtoC 0)) (expi (- (2 * PI * INR k * INR n / INR (length x))))) (length x)) 0%nat)) by (rewrite map_length, seq_length; exact L). rewrite (map_nth (fun k => csum_n (fun n => Cmult (nth n x (RtoC 0)) (expi (- (2 * PI * INR k * INR n / INR (length x))))) (length x))), seq_nth by exact L.
  unfold dft, ang. rewrite Nat.add_0_l, <- INR_IZR_INZ. reflexivity.
Qed.
Lemma cmul_arr_length u v : length u = length v -> length (cmul_arr u v) = length u.
Proof. intros E. unfold cmul_arr. rewrite map_length, combine_length, <- E. apply Nat.min_id. Qed.
Lemma cmul_arr_nth u v k : length u = length v -> (k < length u)%nat -> nth k (cmul_arr u v) (RtoC 0) = Cmult (nth k u (RtoC 0)) (nth k v (RtoC 0)).
Proof.
  intros E L. unfold cmul_arr. rewrite (nth_indep _ _ ((fun p : C * C => Cmult (fst p) (snd p)) (RtoC 0, RtoC 0))) by (rewrite map_length, combine_length; lia). rewrite (map_nth (fun p => Cmult (fst p) (snd p))), combine_nth by exact E. reflexivity.
Qed.
Lemma nth_map_in {A B} (g : A -> B) l k a b : (k < length l)%nat -> nth k (map g l) b = g (nth k l a).
Proof. intros L. rewrite (nth_indep _ b (g a)) by (rewrite map_length; exact L). apply map_nth. Qed.
Lemma nth_rtoc f n : nth n (map RtoC f) (RtoC 0) = RtoC (nth n f 0).
Proof. apply map_nth. Qed.
(** A list of coefficients that are those of f times a multiplier *)
Lemma ifft_mult f X phi : X <> [] -> length X = length f -> (forall k, (k < length f)%nat -> nth k X (RtoC 0) = Cmult (dft (length f) (fun n => RtoC (nth n f 0)) k) (phi (zfreq (length f) k))) ->
  map Re (ifft X) = map (fun j => Re (mult (length f) (fun m => Cmult (phi m) (expi (ang (length f) m j))) (fun n => RtoC (nth n f 0)))) (seq 0 (length f)).
Proof.
  intros NE LX E. unfold ifft. rewrite map_map, LX. apply map_ext_in. intros j _. unfold mult. do 2 f_equal. apply csum_ext. intros k Lk. rewrite E by exact Lk. rewrite zfreq_ang by lia. unfold ang. rewrite <- INR_IZR_INZ. ring.
Qed.
Definition phi_d (L : R) (m : Z) : C := Cmult Ci (RtoC (2 * PI * IZR m / L)).
Definition phi_a (L : R) (m : Z) : C := if (m =? 0)%Z then RtoC 0 else Cmult (Copp Ci) (RtoC (L / (2 * PI * IZR m))).
Lemma derivative_mult f L : f <> [] -> L <> 0 ->
  fft_derivative f L = Ok (map (fun j => Re (mult (length f) (fun m => Cmult (phi_d L m) (expi (ang (length f) m j))) (fun n => RtoC (nth n f 0)))) (seq 0 (length f))).
Proof.
  intros NE LZ. unfold fft_derivative. destruct f as [|f0 f']; [congruence|]. set (f := f0 :: f') in *. destruct (Req_EM_T L 0) as [Z|_]; [contradiction|]. f_equal. assert (P : (0 < length f)%nat) by (unfold f; cbn; lia). assert (NZ : INR (length f) <> 0) by (apply not_0_INR; lia).
  assert (LL : length (fft (map RtoC f)) = length (map (fun q => Cmult (Cmult Ci (RtoC (INR (length f)))) (RtoC q)) (fftfreq (length f)))) by (rewrite fft_length, !map_length, fftfreq_length by exact P; reflexivity).
  apply ifft_mult.
  - intros E. apply (f_equal (@length C)) in E. rewrite map_length, cmul_arr_length, fft_length, map_length in E by exact LL. cbn in E. lia.
  - rewrite map_length, cmul_arr_length, fft_length, map_length by exact LL. reflexivity.
  - intros k Lk. rewrite (nth_map_in _ _ k (RtoC 0)) by (rewrite cmul_arr_length, fft_length, map_length by exact LL; exact Lk). rewrite cmul_arr_nth by (try exact LL; rewrite fft_length, map_length; exact Lk). rewrite fft_nth by (rewrite map_length; exact Lk). rewrite (nth_map_in _ _ k 0) by (rewrite fftfreq_length; assumption). rewrite fftfreq_nth by exact Lk. rewrite map_length.
    rewrite (dft_ext _ (fun n => nth n (map RtoC f) (RtoC 0)) (fun n => RtoC (nth n f 0))) by (intros; apply nth_rtoc). unfold phi_d. rewrite <- !Cmult_assoc. f_equal. f_equal. rewrite <- !RtoC_mult. f_equal. field. auto.
Qed.
Lemma set_first_length {A} (u : list A) a : length (set_first u a) = length u.
Proof. destruct u; reflexivity. Qed.
Lemma set_first_nth {A} (u : list A) a d k : (k < length u)%nat -> nth k (set_first u a) d = if Nat.eqb k 0 then a else nth k u d.
Proof. destruct u as [|x u]; intros L; [cbn in L; lia|]. destruct k; reflexivity. Qed.
Lemma zfreq_0 N k : (k < N)%nat -> (zfreq N k = 0%Z <-> k = 0%nat).
Proof. intros L. unfold zfreq. destruct (Nat.ltb_spec (2 * k) N); split; lia. Qed.
Lemma antiderivative_mult f L : f <> [] -> L <> 0 ->
  fft_antiderivative f L = Ok (map (fun j => Re (mult (length f) (fun m => Cmult (phi_a L m) (expi (ang (length f) m j))) (fun n => RtoC (nth n f 0)))) (seq 0 (length f))).
Proof.
  intros NE LZ. unfold fft_antiderivative. destruct f as [|f0 f']; [congruence|]. set (f := f0 :: f') in *. f_equal. assert (P : (0 < length f)%nat) by (unfold f; cbn; lia). assert (NZ : INR (length f) <> 0) by (apply not_0_INR; lia).
  assert (LL : length (fft (map RtoC f)) = length (map (fun q => Cdiv (Copp Ci) (RtoC (INR (length f) * q))) (set_first (fftfreq (length f)) 1))) by (rewrite fft_length, !map_length, set_first_length, fftfreq_length by exact P; reflexivity).
  apply ifft_mult.
  - intros E. apply (f_equal (@length C)) in E. rewrite set_first_length, map_length, cmul_arr_length, fft_length, map_length in E by exact LL. cbn in E. lia.
  - rewrite set_first_length, map_length, cmul_arr_length, fft_length, map_length by exact LL. reflexivity.
  - intros k Lk. rewrite set_first_nth by (rewrite map_length, cmul_arr_length, fft_length, map_length by exact LL; exact Lk). unfold phi_a. pose proof (zfreq_0 (length f) k Lk) as Zf. destruct (Nat.eqb_spec k 0) as [K|K].
    + destruct Zf as [_ Zf]. rewrite (Zf K). cbn [Z.eqb]. ring.
    + destruct (Z.eqb_spec (zfreq (length f) k) 0) as [E|E]; [exfalso; apply K, Zf, E|]. assert (FZ : IZR (zfreq (length f) k) <> 0) by (apply IZR_neq; exact E). rewrite (nth_map_in _ _ k (RtoC 0)) by (rewrite cmul_arr_length, fft_length, map_length by exact LL; exact Lk). rewrite cmul_arr_nth by (try exact LL; rewrite fft_length, map_length; exact Lk). rewrite fft_nth by (rewrite map_length; exact Lk).
      rewrite (nth_map_in _ _ k 0) by (rewrite set_first_length, fftfreq_length; assumption). rewrite set_first_nth by (rewrite fftfreq_length; assumption). destruct (Nat.eqb_spec k 0); [contradiction|]. rewrite fftfreq_nth by exact Lk. rewrite map_length.
      rewrite (dft_ext _ (fun n => nth n (map RtoC f) (RtoC 0)) (fun n => RtoC (nth n f 0))) by (intros; apply nth_rtoc). rewrite <- !Cmult_assoc. f_equal. pose proof PI_neq0. replace (INR (length f) * (IZR (zfreq (length f) k) / INR (length f))) with (IZR (zfreq (length f) k)) by (field; exact NZ). unfold Cdiv. rewrite <- RtoC_inv by exact FZ. rewrite <- Cmult_assoc, <- RtoC_mult. f_equal. f_equal. field. auto.
Qed.
