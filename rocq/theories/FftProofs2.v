(** Spectral derivative and antiderivative of trigonometric polynomials. *)
From Coq Require Import List ZArith Reals Lia Lra Bool.
From Coquelicot Require Import Coquelicot.
From Verif Require Import PyBase EdgeSpec ContourModel CellModel FftModel FftSpec FftProofs.
Import List ListNotations.
Open Scope R_scope.

Lemma samples_length L N g : length (samples L N g) = N.
Proof. unfold samples. rewrite map_length, seq_length. reflexivity. Qed.
Lemma samples_nth L N g n : (n < N)%nat -> nth n (samples L N g) 0 = g (L * INR n / INR N).
Proof. intros Ln. unfold samples. rewrite (nth_map_in _ _ n 0%nat) by (rewrite seq_length; exact Ln). rewrite seq_nth by exact Ln. reflexivity. Qed.
Lemma samples_ne L N g : (0 < N)%nat -> samples L N g <> [].
Proof. intros P E. apply (f_equal (@length R)) in E. rewrite samples_length in E. cbn in E. lia. Qed.
Lemma samples_ext L N g h : (forall n, (n < N)%nat -> g (L * INR n / INR N) = h (L * INR n / INR N)) -> samples L N g = samples L N h.
Proof. intros E. apply map_ext_in. intros n I. apply in_seq in I. apply E. lia. Qed.
Lemma as_list f : f = map (fun j => nth j f 0) (seq 0 (length f)).
Proof. apply (nth_ext _ _ 0 0); [rewrite map_length, seq_length; reflexivity|]. intros n L. rewrite (nth_map_in _ _ n 0%nat) by (rewrite seq_length; exact L). rewrite seq_nth by exact L. reflexivity. Qed.

Lemma hermitian_mul p q : hermitian p -> hermitian q -> hermitian (fun m => Cmult (p m) (q m)).
Proof. intros A B m. rewrite A, B. destruct (p m), (q m). unfold Cconj, Cmult. cbn [fst snd]. apply f_equal2; ring. Qed.
Lemma hermitian_ang N j : hermitian (fun m => expi (ang N m j)).
Proof. intros m. rewrite ang_neg. apply expi_neg. Qed.
Lemma hermitian_d L : hermitian (phi_d L).
Proof. intros m. unfold phi_d, Ci, RtoC, Cmult, Cconj. cbn [fst snd]. rewrite opp_IZR. unfold Rdiv. apply f_equal2; ring. Qed.
Lemma hermitian_a L : hermitian (phi_a L).
Proof.
  intros m. unfold phi_a. destruct (Z.eqb_spec m 0) as [->|NE]; [cbn; unfold Cconj, RtoC; cbn [fst snd]; apply f_equal2; ring|]. destruct (Z.eqb_spec (- m) 0) as [E|_]; [lia|]. assert (IZR m <> 0) by (apply IZR_neq; exact NE). pose proof PI_neq0.
  unfold Ci, RtoC, Cmult, Cconj, Copp. cbn [fst snd]. rewrite opp_IZR. apply f_equal2; field; auto.
Qed.

(** Derivative and antiderivative of a term as the transforms see it: the alternating term is lost *)
Definition lost (N : nat) (m : Z) : bool := (2 * Z.abs m =? Z.of_nat N)%Z.
Definition dterm (L : R) (N : nat) (q : tterm) : tterm :=
  let '(m, (a, b)) := q in if lost N m then (m, (0, 0)) else (m, (b * (2 * PI * IZR m / L), - a * (2 * PI * IZR m / L))).
Definition aterm (L : R) (N : nat) (q : tterm) : tterm :=
  let '(m, (a, b)) := q in if (m =? 0)%Z || lost N m then (m, (0, 0)) else (m, (- b * (L / (2 * PI * IZR m)), a * (L / (2 * PI * IZR m)))).
Lemma resolved_map N (g : tterm -> tterm) T : resolved N T -> (forall q, resolved1 N q -> resolved1 N (g q)) -> resolved N (map g T).
Proof. intros Rs G. induction Rs; constructor; auto. Qed.
Lemma dterm_resolved L N q : resolved1 N q -> resolved1 N (dterm L N q).
Proof. destruct q as [m [a b]]. cbn [resolved1 dterm]. unfold lost. destruct (Z.eqb_spec (2 * Z.abs m) (Z.of_nat N)) as [E|E]; cbn [resolved1]; intros [A|[A B]]; try lia; auto. Qed.
Lemma aterm_resolved L N q : resolved1 N q -> resolved1 N (aterm L N q).
Proof. destruct q as [m [a b]]. cbn [resolved1 aterm]. unfold lost. destruct (Z.eqb_spec m 0) as [M|M]; [subst; cbn [orb resolved1]; intros [A|[A B]]; auto|]. destruct (Z.eqb_spec (2 * Z.abs m) (Z.of_nat N)) as [E|E]; cbn [orb resolved1]; intros [A|[A B]]; try lia; auto. Qed.

Lemma sum_cons x l : sum_list (x :: l) = x + sum_list l.
Proof. reflexivity. Qed.
Lemma sum_map_ext {A} (g h : A -> R) l : Forall (fun x => g x = h x) l -> sum_list (map g l) = sum_list (map h l).
Proof. induction 1 as [|x l E F IH]; [reflexivity|]. cbn [map]. change (g x + sum_list (map g l) = h x + sum_list (map h l)). rewrite E, IH. reflexivity. Qed.
Lemma derivative_samples L N T : (0 < N)%nat -> L <> 0 -> resolved N T ->
  fft_derivative (samples L N (trig L T)) L = Ok (samples L N (trig L (map (dterm L N) T))).
Proof.
  intros P LZ Rs. rewrite derivative_mult by (try apply samples_ne; assumption). rewrite samples_length. f_equal. apply map_ext_in. intros j Ij. rewrite (mult_ext _ _ _ (fun n => RtoC (trig L T (L * INR n / INR N)))) by (intros n Ln; rewrite samples_nth by exact Ln; reflexivity).
  rewrite mult_trig by (first [assumption|apply hermitian_mul; [apply hermitian_d|apply hermitian_ang]]). unfold trig. rewrite map_map. apply sum_map_ext. eapply Forall_impl; [|exact Rs]. intros [m [a b]] Q. cbn [resolved1] in Q. cbn [dterm tcoef]. unfold lost, phi_d. destruct (Z.eqb_spec (2 * Z.abs m) (Z.of_nat N)) as [E|E].
  - rewrite tval_node by assumption. destruct Q as [Q|[_ ->]]; [lia|]. unfold expi. rewrite (nyq_sin N m j P E). cbn. ring.
  - rewrite tval_node by assumption. unfold expi. cbn. unfold Rdiv. ring.
Qed.
Lemma antiderivative_samples L N T : (0 < N)%nat -> L <> 0 -> resolved N T ->
  fft_antiderivative (samples L N (trig L T)) L = Ok (samples L N (trig L (map (aterm L N) T))).
Proof.
  intros P LZ Rs. rewrite antiderivative_mult by (try apply samples_ne; assumption). rewrite samples_length. f_equal. apply map_ext_in. intros j Ij. rewrite (mult_ext _ _ _ (fun n => RtoC (trig L T (L * INR n / INR N)))) by (intros n Ln; rewrite samples_nth by exact Ln; reflexivity).
  rewrite mult_trig by (first [assumption|apply hermitian_mul; [apply hermitian_a|apply hermitian_ang]]). unfold trig. rewrite map_map. apply sum_map_ext. eapply Forall_impl; [|exact Rs]. intros [m [a b]] Q. cbn [resolved1] in Q. cbn [aterm tcoef]. unfold lost, phi_a. destruct (Z.eqb_spec m 0) as [M|M]; [cbn [orb]; rewrite tval_node by assumption; cbn; ring|]. destruct (Z.eqb_spec (2 * Z.abs m) (Z.of_nat N)) as [E|E]; cbn [orb].
  - rewrite tval_node by assumption. destruct Q as [Q|[_ ->]]; [lia|]. unfold expi. rewrite (nyq_sin N m j P E). cbn. ring.
  - rewrite tval_node by assumption. unfold expi. cbn. ring.
Qed.

(** ** Every data has an interpolant, and it is unique *)
Definition fit (f : list R) : list tterm :=
  map (fun k => let X := dft (length f) (fun n => RtoC (nth n f 0)) k in (zfreq (length f) k, (Re X / INR (length f), - Im X / INR (length f)))) (seq 0 (length f)).
Lemma csum_im f n : Im (csum_n f n) = sum_list (map (fun i => Im (f i)) (seq 0 n)).
Proof.
  induction n as [|n IH]; [reflexivity|]. rewrite seq_S, map_app. cbn [csum_n]. assert (A : forall l r, sum_list (l ++ [r]) = sum_list l + r) by (induction l as [|x l IHl]; intros r; cbn; [lra|]; change (fold_right Rplus 0 (l ++ [r])) with (sum_list (l ++ [r])); rewrite IHl; unfold sum_list; lra).
  cbn [map app]. rewrite A, <- IH. reflexivity.
Qed.
Lemma dft_alternating N (x : nat -> R) h : (0 < N)%nat -> (2 * h = N)%nat -> dft N (fun n => RtoC (x n)) h = RtoC (sum_list (map (fun n => (-1) ^ n * x n) (seq 0 N))).
Proof.
  intros P E. unfold dft. rewrite (csum_ext _ (fun n => RtoC ((-1) ^ n * x n))).
  - apply injective_projections; [exact (csum_re _ N)|]. transitivity (sum_list (map (fun i => Im (RtoC ((-1) ^ i * x i))) (seq 0 N))); [exact (csum_im _ N)|]. generalize (seq 0 N). induction l as [|n l IH]; [reflexivity|]. cbn [map]. change (0 + sum_list (map (fun i => Im (RtoC ((-1) ^ i * x i))) l) = 0). rewrite IH. cbn. ring.
  - intros n _. rewrite expi_neg. unfold expi. rewrite nyq_sin, nyq_cos by lia. unfold RtoC, Cmult, Cconj. cbn [fst snd]. apply f_equal2; ring.
Qed.
Lemma fit_resolved f : f <> [] -> resolved (length f) (fit f).
Proof.
  intros NE. apply Forall_forall. intros q I. apply in_map_iff in I as (k & <- & I). apply in_seq in I. cbn [resolved1]. pose proof (zfreq_range (length f) k ltac:(lia)) as B. destruct (Z.eq_dec (2 * Z.abs (zfreq (length f) k)) (Z.of_nat (length f))) as [E|E]; [|left; lia]. right. split; [exact E|].
  assert (K : (2 * k = length f)%nat) by (unfold zfreq in *; destruct (Nat.ltb_spec (2 * k) (length f)); lia). rewrite (dft_alternating _ _ k) by lia. cbn. unfold Rdiv. ring.
Qed.
Lemma re_scal r z : Re (Cmult (RtoC r) z) = r * Re z.
Proof. destruct z as [u v]. unfold Re, Cmult, RtoC. cbn [fst snd]. ring. Qed.
Lemma inverse_dft N (x : nat -> C) j : (j < N)%nat -> Cmult (RtoC (/ INR N)) (csum_n (fun k => Cmult (dft N x k) (expi (ang N (Z.of_nat k) j))) N) = x j.
Proof.
  intros Lj. assert (P : (0 < N)%nat) by lia. assert (NZ : INR N <> 0) by (apply not_0_INR; lia). unfold dft.
  rewrite (csum_ext _ (fun k => csum_n (fun n => Cmult (x n) (expi (ang N (Z.of_nat j - Z.of_nat n) k))) N)).
  - rewrite csum_swap. rewrite (csum_ext _ (fun n => Cmult (x n) (csum_n (fun k => expi (ang N (Z.of_nat j - Z.of_nat n) k)) N))) by (intros; rewrite csum_scal; reflexivity).
    rewrite (csum_single _ N j Lj).
    + rewrite orth, Z.sub_diag, Zmod_0_l, Z.eqb_refl by exact P. rewrite (Cmult_comm (x j)), Cmult_assoc, <- RtoC_mult, Rinv_l by exact NZ. ring.
    + intros i Li NE. rewrite orth by exact P. destruct (Z.eqb_spec ((Z.of_nat j - Z.of_nat i) mod Z.of_nat N) 0) as [E|E]; [|ring]. exfalso. apply Z.mod_divide in E; [|lia]. destruct E as [z E]. assert (z = 0)%Z by nia. lia.
  - intros k _. rewrite Cmult_comm, <- csum_scal. apply csum_ext. intros n _. rewrite (Cmult_comm (expi _)), <- Cmult_assoc, <- expi_add. do 2 f_equal. unfold ang. rewrite minus_IZR, <- !INR_IZR_INZ. field. exact NZ.
Qed.
Lemma fit_samples f L : f <> [] -> L <> 0 -> f = samples L (length f) (trig L (fit f)).
Proof.
  intros NE LZ. assert (P : (0 < length f)%nat) by (destruct f; [congruence|cbn; lia]). assert (NZ : INR (length f) <> 0) by (apply not_0_INR; lia). rewrite (as_list f) at 1. apply map_ext_in. intros j Ij. apply in_seq in Ij. unfold trig, fit. rewrite map_map.
  pose proof (inverse_dft (length f) (fun n => RtoC (nth n f 0)) j ltac:(lia)) as E. apply (f_equal Re) in E. cbn [Re RtoC fst] in E. rewrite <- E.
  transitivity (/ INR (length f) * Re (csum_n (fun k => Cmult (dft (length f) (fun n => RtoC (nth n f 0)) k) (expi (ang (length f) (Z.of_nat k) j))) (length f))); [apply re_scal|].
  rewrite csum_re. assert (SC : forall c (l : list R), c * sum_list l = sum_list (map (Rmult c) l)) by (intros c l; induction l as [|x l IH]; cbn; [ring|]; unfold sum_list in IH; rewrite <- IH; ring). rewrite SC, map_map. apply sum_map_ext. apply Forall_forall. intros k Ik.
  rewrite tval_node by assumption. rewrite <- (zfreq_ang _ k j P). unfold expi. destruct (dft _ _ _) as [u v]. cbn. field. exact NZ.
Qed.
Lemma trig_mult L N T t : (0 < N)%nat -> L <> 0 -> resolved N T -> trig L T t = Re (mult N (fun m => expi (2 * PI * IZR m / L * t)) (fun n => RtoC (trig L T (L * INR n / INR N)))).
Proof.
  intros P LZ Rs. rewrite mult_trig by (first [assumption|idtac]; intros m; rewrite <- expi_neg; f_equal; rewrite opp_IZR; unfold Rdiv; ring). apply sum_map_ext, Forall_forall. intros [m [a b]] _. reflexivity.
Qed.
Lemma trig_unique L N T T' t : (0 < N)%nat -> L <> 0 -> resolved N T -> resolved N T' -> samples L N (trig L T) = samples L N (trig L T') -> trig L T t = trig L T' t.
Proof.
  intros P LZ R1 R2 E. rewrite (trig_mult L N T t), (trig_mult L N T' t) by assumption. f_equal. apply mult_ext. intros n Ln. f_equal. rewrite <- (samples_nth L N (trig L T) n Ln), E. apply samples_nth, Ln.
Qed.

(** ** Mean and alternating part *)
Lemma mean_terms L N T : (0 < N)%nat -> L <> 0 -> resolved N T -> mean (samples L N (trig L T)) = sum_list (map (fun q : tterm => if (fst q =? 0)%Z then fst (snd q) else 0) T).
Proof.
  intros P LZ Rs. assert (NZ : INR N <> 0) by (apply not_0_INR; lia). transitivity (sum_list (map (tcoef (fun m => if (m =? 0)%Z then RtoC 1 else RtoC 0)) T)).
  - rewrite <- (mult_trig N L) by (first [assumption|intros m; destruct (Z.eqb_spec m 0) as [->|M]; [cbn|destruct (Z.eqb_spec (- m) 0) as [E|_]; [lia|]]; unfold Cconj, RtoC; cbn [fst snd]; apply f_equal2; ring]).
    unfold mult. rewrite (csum_single _ N 0%nat P).
    + replace (zfreq N 0) with 0%Z by (unfold zfreq; destruct (Nat.ltb_spec (2 * 0) N); lia). cbn [Z.eqb]. unfold mean. rewrite samples_length. unfold dft. rewrite (csum_ext _ (fun n => RtoC (trig L T (L * INR n / INR N)))).
      * rewrite Cmult_1_r. unfold Rdiv. rewrite (Rmult_comm _ (/ INR N)). pose proof (csum_re (fun n => RtoC (trig L T (L * INR n / INR N))) N) as E. cbn [Re RtoC fst] in E. unfold samples. rewrite <- E. symmetry. apply re_scal.
      * intros n _. unfold ang. cbn [Z.of_nat]. replace (- (2 * PI * 0 * INR n / INR N)) with 0 by (field; exact NZ). rewrite expi_0. ring.
    + intros k Lk NE. destruct (Z.eqb_spec (zfreq N k) 0) as [E|_]; [|ring]. apply zfreq_0 in E; lia.
  - apply sum_map_ext, Forall_forall. intros [m [a b]] _. cbn. destruct (m =? 0)%Z; cbn; ring.
Qed.
Lemma alternating_terms L N T : (0 < N)%nat -> L <> 0 -> resolved N T -> alternating (samples L N (trig L T)) = sum_list (map (fun q : tterm => if lost N (fst q) then fst (snd q) else 0) T).
Proof.
  intros P LZ Rs. assert (NZ : INR N <> 0) by (apply not_0_INR; lia). transitivity (sum_list (map (tcoef (fun m => if lost N m then RtoC 1 else RtoC 0)) T)).
  - rewrite <- (mult_trig N L) by (first [assumption|intros m; unfold lost; rewrite Z.abs_opp; destruct (2 * Z.abs m =? Z.of_nat N)%Z; unfold Cconj, RtoC; cbn [fst snd]; apply f_equal2; ring]).
    unfold alternating. rewrite samples_length. destruct (Nat.even N) eqn:Ev.
    + apply Nat.even_spec in Ev. destruct Ev as [h Eh]. unfold mult. rewrite (csum_single _ N h ltac:(lia)).
      * replace (lost N (zfreq N h)) with true by (unfold lost, zfreq; symmetry; apply Z.eqb_eq; destruct (Nat.ltb_spec (2 * h) N); lia). rewrite dft_alternating by lia. rewrite Cmult_1_r, <- RtoC_mult. cbn [Re RtoC fst]. unfold Rdiv. rewrite Rmult_comm. f_equal. f_equal. apply map_ext_in. intros j Ij. apply in_seq in Ij. rewrite samples_nth by lia. reflexivity.
      * intros k Lk NE. replace (lost N (zfreq N k)) with false by (unfold lost, zfreq; symmetry; apply Z.eqb_neq; destruct (Nat.ltb_spec (2 * k) N); lia). ring.
    + unfold mult. rewrite (csum_ext _ (fun _ => RtoC 0)).
      * rewrite csum_0. cbn. ring.
      * intros k Lk. replace (lost N (zfreq N k)) with false; [ring|]. unfold lost. symmetry. apply Z.eqb_neq. intros E. assert (X : Nat.even N = true) by (apply Nat.even_spec; exists (Z.to_nat (Z.abs (zfreq N k))); lia). congruence.
  - apply sum_map_ext, Forall_forall. intros [m [a b]] _. cbn. destruct (lost N m); cbn; ring.
Qed.
(** The trigonometric polynomial without constant and alternating terms *)
Definition osc (N : nat) (T : list tterm) : list tterm := filter (inner1 N) T.
Lemma osc_samples L N T n : (0 < N)%nat -> L <> 0 -> resolved N T -> (n < N)%nat ->
  trig L (osc N T) (L * INR n / INR N) = trig L T (L * INR n / INR N) - mean (samples L N (trig L T)) - (-1) ^ n * alternating (samples L N (trig L T)).
Proof.
  intros P LZ Rs Ln. rewrite mean_terms, alternating_terms by assumption. unfold trig. induction Rs as [|[m [a b]] T Q Rs IH]; [cbn; ring|]. cbn [map osc filter]. unfold inner1 at 1. cbn [fst snd].
  rewrite ?sum_cons. fold (osc N T). cbn [resolved1] in Q. unfold lost in *. destruct (Z.eqb_spec m 0) as [->|M]; cbn [negb andb].
  - replace (2 * Z.abs 0 =? Z.of_nat N)%Z with false by (symmetry; apply Z.eqb_neq; lia). rewrite IH, tval_node by assumption. unfold ang. replace (2 * PI * 0 * INR n / INR N) with 0 by (field; apply not_0_INR; lia). rewrite cos_0, sin_0. rewrite ?sum_cons. ring.
  - destruct (Z.ltb_spec (2 * Z.abs m) (Z.of_nat N)) as [B|B].
    + replace (2 * Z.abs m =? Z.of_nat N)%Z with false by (symmetry; apply Z.eqb_neq; lia). cbn [map]. rewrite ?sum_cons. rewrite IH. ring.
    + destruct Q as [Q|[Q ->]]; [lia|]. replace (2 * Z.abs m =? Z.of_nat N)%Z with true by (symmetry; apply Z.eqb_eq; lia). rewrite ?sum_cons. rewrite IH, tval_node, nyq_cos by assumption. ring.
Qed.
(** Both compositions keep exactly these terms *)
Lemma compose_terms L N T t : L <> 0 -> resolved N T -> trig L (map (aterm L N) (map (dterm L N) T)) t = trig L (osc N T) t /\ trig L (map (dterm L N) (map (aterm L N) T)) t = trig L (osc N T) t.
Proof.
  intros LZ Rs. pose proof PI_neq0 as PZ. induction Rs as [|[m [a b]] T Q Rs IH]; [split; reflexivity|]. unfold trig, osc in *. cbn [map filter]. destruct IH as [I1 I2]. change (inner1 N (m, (a, b))) with (negb (m =? 0) && (2 * Z.abs m <? Z.of_nat N))%Z. cbn [resolved1] in Q. cbn [dterm aterm]. unfold lost.
  destruct (Z.eqb_spec m 0) as [->|M]; cbn [negb andb orb].
  - destruct (2 * Z.abs 0 =? Z.of_nat N)%Z; cbn [aterm dterm Z.eqb orb]; unfold lost; try (destruct (2 * Z.abs 0 =? Z.of_nat N)%Z); rewrite ?sum_cons; rewrite ?I1, ?I2; cbn [tval_at]; split; unfold Rdiv; ring.
  - assert (IZR m <> 0) by (apply IZR_neq; exact M). destruct (Z.eqb_spec (2 * Z.abs m) (Z.of_nat N)) as [E|E]; cbn [aterm dterm]; unfold lost; (destruct (Z.eqb_spec m 0); [lia|]); (destruct (Z.eqb_spec (2 * Z.abs m) (Z.of_nat N)); [|]); try lia; cbn [orb].
    + destruct (Z.ltb_spec (2 * Z.abs m) (Z.of_nat N)); [lia|]. rewrite ?sum_cons. rewrite ?I1, ?I2. cbn [tval_at]. split; ring.
    + destruct (Z.ltb_spec (2 * Z.abs m) (Z.of_nat N)); [|destruct Q; lia]. cbn [map]. rewrite ?sum_cons. rewrite ?I1, ?I2. cbn [tval_at]. split; f_equal; field; auto.
Qed.
