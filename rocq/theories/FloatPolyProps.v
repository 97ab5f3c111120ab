(** C75: polynomials in double precision *)
From Coq Require Import List ZArith Reals Lia Lra Permutation Sorted Bool.
From Flocq Require Import Core BinarySingleNaN.
From Verif Require Import PyBase PolyModel PolySpec PolyProofs FloatIdxModel FloatPolyModel FloatErr FloatPolySpec FloatPolyProofs.
Import ListNotations.
Open Scope R_scope.

(** ** Evaluation *)
(** If the power function rounds at most [j n] times, a finite value of a polynomial is the exact one up to the growth of
    [J + 2 + length p] roundings of the sizes of the terms, and underflow. *)
Theorem C75_eval pow j f (J : nat) (p : poly DS) (x y : double) :
  accurate pow j f -> Forall (fun m => (j (mx (malpha m)) + j (my (malpha m)) <= J)%nat) p -> fin (dp_eval pow p x y) = true ->
  let k := (List.length p + (J + 2))%nat in
  Rabs (val (dp_eval pow p x y) - peval RS (real p) (val x) (val y)) <= ((1 + uro) ^ k - 1) * size_at p (val x) (val y) + slack_at f p x y * (1 + uro) ^ k.
Proof. intros A H F k. rewrite peval_value. exact (proj2 (proj2 (proj2 (eval_near pow j f J p x y A H F)))). Qed.
Print Assumptions C75_eval.

(** The same for powers by repeated multiplication: one rounding for each factor. *)
Theorem C75_eval_repeated (D : nat) (p : poly DS) (x y : double) :
  Forall (fun m => (mx (malpha m) + my (malpha m) <= D)%nat) p -> fin (peval DS p x y) = true ->
  let k := (List.length p + (D + 2))%nat in
  Rabs (val (peval DS p x y) - peval RS (real p) (val x) (val y)) <= ((1 + uro) ^ k - 1) * size_at p (val x) (val y) + slack_at (fun x n => geo (val x) n) p x y * (1 + uro) ^ k.
Proof. intros H F. rewrite peval_dp in *. exact (C75_eval _ _ _ D p x y spow_accurate H F). Qed.
Print Assumptions C75_eval_repeated.

(** The growth of [k] roundings is at most [2 k] units. *)
Theorem C75_growth k : INR k * uro <= 1 / 2 -> INR k * uro <= (1 + uro) ^ k - 1 <= 2 * INR k * uro.
Proof.
  intros H. split; [|apply growth; exact H]. clear H. induction k as [|k IH]; [cbn; lra|]. rewrite S_INR. cbn [pow]. pose proof uro_pos. pose proof (pow1_ge k). nra.
Qed.
Print Assumptions C75_growth.

(** Integers: if the terms and all that is computed for them stay below 2^53, the value is exact, whatever the power function
    does with other numbers. *)
Theorem C75_exact pow (p : list (Z * dmono)) (x y : double) (X Y : Z) : exact_pow pow -> Forall (fun cm => isint (coefd (snd cm)) (fst cm)) p -> isint x X -> isint y Y -> (zsize p X Y <= 2 ^ 53)%Z ->
  fin (dp_eval pow (map snd p) x y) = true /\ val (dp_eval pow (map snd p) x y) = IZR (zvalue p X Y) /\ peval RS (real (map snd p)) (IZR X) (IZR Y) = IZR (zvalue p X Y).
Proof.
  intros EP F Ix Iy H. destruct (eval_int pow p x y X Y EP F Ix Iy H) as [A B]. split; [exact A|]. split; [exact B|]. rewrite peval_value. clear -F. induction F as [|[c m] p Fc Fp IH]; [reflexivity|]. cbn [map snd real value malpha mcoef zvalue]. fold (real (map snd p)). rewrite IH, plus_IZR. f_equal. unfold zterm. cbn [fst snd] in Fc. rewrite (proj2 Fc), !mult_IZR, <- !pow_IZR. reflexivity.
Qed.
Print Assumptions C75_exact.

(** Repeated multiplication is such a power function. *)
Theorem C75_exact_repeated : exact_pow (spow DS).
Proof. exact spow_exact. Qed.
Print Assumptions C75_exact_repeated.

(** ** Canonical form *)
(** Lists of terms with finite coefficients are brought to canonical form: exponents in strictly ascending order, no coefficient
    below the cutoff, and each coefficient the rounded sum of those of the list, from left to right. *)
Theorem C75_consolidate (l : poly DS) : finite_poly l ->
  neat (consolidate DS l) /\ forall m, In m (consolidate DS l) <-> negligible (coefd m) = false /\ sum1 (of_index (midx (malpha m)) l) = Some (coefd m).
Proof. exact (consolidate_spec l). Qed.
Print Assumptions C75_consolidate.

(** Sums of canonical polynomials *)
Theorem C75_add (p q : poly DS) : neat p -> neat q -> finite_poly p -> finite_poly q ->
  neat (padd DS p q) /\ forall m, In m (padd DS p q) <-> negligible (coefd m) = false /\ join (entry p (midx (malpha m))) (entry q (midx (malpha m))) = Some (coefd m).
Proof. exact (padd_spec p q). Qed.
Print Assumptions C75_add.

(** One rounding for each coefficient *)
Theorem C75_add_error (p q : poly DS) m a b : neat p -> neat q -> finite_poly p -> finite_poly q -> entry p (midx (malpha m)) = Some a -> entry q (midx (malpha m)) = Some b ->
  In m (padd DS p q) -> fin (coefd m) = true -> Rabs (val (coefd m) - (val a + val b)) <= uro * Rabs (val a + val b).
Proof.
  intros Np Nq Fp Fq Ea Eb Im F. apply (proj2 (padd_spec p q Np Nq Fp Fq)) in Im. destruct Im as [_ E]. unfold ixd in E. rewrite Ea, Eb in E. cbn [join] in E. injection E as E. rewrite <- E in *. destruct (dadd_fin _ _ F) as (Fa & Fb & V). destruct (round_sum (val a) (val b) (generic_format_B2R _ _ a) (generic_format_B2R _ _ b)) as (eps & He & Rd). rewrite V, Rd. replace ((val a + val b) * (1 + eps) - (val a + val b)) with (eps * (val a + val b)) by ring. rewrite Rabs_mult. apply Rmult_le_compat_r; [apply Rabs_pos|exact He].
Qed.
Print Assumptions C75_add_error.

(** Addition commutes, bit for bit. *)
Theorem C75_add_commutes (p q : poly DS) : neat p -> neat q -> finite_poly p -> finite_poly q -> padd DS p q = padd DS q p.
Proof.
  intros Np Nq Fp Fq. destruct (padd_spec p q Np Nq Fp Fq) as [[A _] B]. destruct (padd_spec q p Nq Np Fq Fp) as [[C _] D]. apply ascending_ext; [exact A|exact C|]. intros m. rewrite B, D, join_comm. tauto.
Qed.
Print Assumptions C75_add_commutes.

(** ** What rounding breaks *)
Definition mono_of (c : double) (a b : nat) : dmono := @Mono DS (MI a b) c.
Definition two53 : double := of_int (2 ^ 53).
Definition huge : double := of_int (2 ^ 1023).
Definition show (p : poly DS) : list (nat * nat * SpecFloat.spec_float) := map (fun m => (mx (malpha m), my (malpha m), B2SF (coefd m))) p.
Lemma show_inj p : forall q, show p = show q -> p = q.
Proof. induction p as [|[[a b] c] p IH]; intros [|[[a' b'] c'] q] E; try discriminate; [reflexivity|]. cbn [show map malpha mx my coefd mcoef] in E. injection E as E1 E2 E3 E4. apply B2SF_inj in E3. subst. f_equal. apply IH. exact E4. Qed.
Lemma neat_one c a b : negligible c = false -> neat [mono_of c a b].
Proof. intros H. split; [constructor; constructor|constructor; [exact H|constructor]]. Qed.
Lemma finite_one c a b : fin c = true -> finite_poly [mono_of c a b].
Proof. intros H. constructor; [exact H|constructor]. Qed.

(** Addition is not associative: 1 + 2^53 - 2^53 is 0 from the left and 1 from the right. *)
Theorem C75_add_associative_refuted : exists p q r : poly DS, (neat p /\ finite_poly p) /\ (neat q /\ finite_poly q) /\ (neat r /\ finite_poly r) /\
  padd DS (padd DS p q) r = [] /\ show (padd DS p (padd DS q r)) = show p /\ p <> [].
Proof.
  exists [mono_of (of_int 1) 0 0], [mono_of two53 0 0], [mono_of (of_int (- 2 ^ 53)) 0 0]. split; [split; [apply neat_one; vm_compute; reflexivity|apply finite_one; vm_compute; reflexivity]|]. split; [split; [apply neat_one; vm_compute; reflexivity|apply finite_one; vm_compute; reflexivity]|]. split; [split; [apply neat_one; vm_compute; reflexivity|apply finite_one; vm_compute; reflexivity]|]. split; [apply show_inj; vm_compute; reflexivity|]. split; [vm_compute; reflexivity|discriminate].
Qed.
Print Assumptions C75_add_associative_refuted.

(** Multiplication does not commute: the products for one exponent pair are added in the order of the left factor. *)
Theorem C75_mul_commutes_refuted : exists p q : poly DS, (neat p /\ finite_poly p) /\ (neat q /\ finite_poly q) /\
  entry (pmul DS p q) (midx (MI 2 0)) = None /\ option_map B2SF (entry (pmul DS q p) (midx (MI 2 0))) = Some (B2SF (of_int 1)).
Proof.
  exists [mono_of (of_int 1) 0 0; mono_of two53 1 0; mono_of (of_int (- 2 ^ 53)) 2 0], [mono_of (of_int 1) 0 0; mono_of (of_int 1) 1 0; mono_of (of_int 1) 2 0].
  assert (N : forall a b c, negligible a = false -> negligible b = false -> negligible c = false -> neat [mono_of a 0 0; mono_of b 1 0; mono_of c 2 0]). { intros a b c A B C. split; [|repeat constructor; assumption]. repeat constructor. }
  assert (F : forall a b c, fin a = true -> fin b = true -> fin c = true -> finite_poly [mono_of a 0 0; mono_of b 1 0; mono_of c 2 0]) by (intros a b c A B C; repeat constructor; assumption).
  split; [split; [apply N|apply F]; vm_compute; reflexivity|]. split; [split; [apply N|apply F]; vm_compute; reflexivity|]. split; vm_compute; reflexivity.
Qed.
Print Assumptions C75_mul_commutes_refuted.

(** Finite polynomials have sums with infinite coefficients. The sum of two of these has two terms with the same exponents, of
    which the second is NaN: consolidation scales it by zero and cannot remove it. *)
Theorem C75_canonical_refuted : exists p : poly DS, neat p /\ finite_poly p /\ let q := padd DS p p in neat q /\
  show (padd DS q q) = [(1, 0, SpecFloat.S754_infinity false); (1, 0, SpecFloat.S754_nan)]%nat /\ ~ neat (padd DS q q).
Proof.
  exists [mono_of huge 1 0]. split; [apply neat_one; vm_compute; reflexivity|]. split; [apply finite_one; vm_compute; reflexivity|]. cbv zeta. assert (Q : padd DS [mono_of huge 1 0] [mono_of huge 1 0] = [mono_of (B754_infinity false) 1 0]) by (apply show_inj; vm_compute; reflexivity). rewrite Q. split; [apply neat_one; vm_compute; reflexivity|]. assert (E : padd DS [mono_of (B754_infinity false) 1 0] [mono_of (B754_infinity false) 1 0] = [mono_of (B754_infinity false) 1 0; mono_of B754_nan 1 0]) by (apply show_inj; vm_compute; reflexivity). rewrite E. split; [reflexivity|]. intros [A _]. inversion A as [|? ? _ F]; subst. inversion F as [|? ? L _]; subst. vm_compute in L. lia.
Qed.
Print Assumptions C75_canonical_refuted.

(** The value of a finite polynomial at a finite point can be NaN though the exact value is 0. *)
Theorem C75_eval_finite_refuted : exists (p : poly DS) (x y : double), neat p /\ finite_poly p /\ fin x = true /\ fin y = true /\ (peval RS (real p) (val x) (val y) : R) = 0 /\ B2SF (peval DS p x y) = SpecFloat.S754_nan.
Proof.
  exists [mono_of huge 1 0; mono_of (Bopp huge) 0 1], (of_int 4), (of_int 4). split; [split; [repeat constructor|repeat constructor; vm_compute; reflexivity]|]. split; [repeat constructor; vm_compute; reflexivity|]. split; [reflexivity|]. split; [reflexivity|]. split; [|vm_compute; reflexivity]. rewrite peval_value. cbn [real map value malpha mcoef mono_of coefd mx my pow]. unfold val. rewrite (B2R_Bopp 53 1024 huge). change (@eq R (B2R huge * (B2R (of_int 4) * 1) * 1 + (- B2R huge * 1 * (B2R (of_int 4) * 1) + 0)) 0). ring.
Qed.
Print Assumptions C75_eval_finite_refuted.

(** ** Examples *)
(** (3 x^2 y - 5) at (100, 7) is 209995, exactly. *)
Example C75_exact_example : val (dp_eval (spow DS) [mono_of (of_int 3) 2 1; mono_of (of_int (-5)) 0 0] (of_int 100) (of_int 7)) = 209995.
Proof.
  assert (I : forall n, (Z.abs n <= 2 ^ 53)%Z -> isint (of_int n) n) by (intros n H; exact (of_int_val n H)). exact (proj1 (proj2 (C75_exact (spow DS) [(3%Z, mono_of (of_int 3) 2 1); ((-5)%Z, mono_of (of_int (-5)) 0 0)] (of_int 100) (of_int 7) 100 7 C75_exact_repeated ltac:(constructor; [apply (I 3%Z); discriminate|constructor; [apply (I (-5)%Z); discriminate|constructor]]) (I 100%Z ltac:(discriminate)) (I 7%Z ltac:(discriminate)) ltac:(vm_compute; discriminate)))).
Qed.
(** 1/3 x y + 1/7 at (1/10, 1/10): the hypotheses of the error bound hold and rounding happens. *)
Example C75_eval_example : let p := [mono_of (ddiv (of_int 1) (of_int 3)) 1 1; mono_of (ddiv (of_int 1) (of_int 7)) 0 0] in let x := ddiv (of_int 1) (of_int 10) in
  fin (peval DS p x x) = true /\ Forall (fun m : dmono => (mx (malpha m) + my (malpha m) <= 2)%nat) p /\ List.length p = 2%nat /\ INR (2 + (2 + 2)) * uro <= 1 / 2.
Proof. cbv zeta. split; [vm_compute; reflexivity|]. split; [repeat constructor|]. split; [reflexivity|]. pose proof uro_small. cbn [INR Nat.add]. lra. Qed.
(** 0.1 x + 0.2 x is not 0.3 x: the coefficient is 0.30000000000000004. *)
Example C75_add_example : let d n := ddiv (of_int n) (of_int 10) in
  show (padd DS [mono_of (d 1%Z) 1 0] [mono_of (d 2%Z) 1 0]) = [(1%nat, 0%nat, SpecFloat.S754_finite false 5404319552844596 (-54))] /\ B2SF (d 3%Z) = SpecFloat.S754_finite false 5404319552844595 (-54).
Proof. cbv zeta. split; vm_compute; reflexivity. Qed.
