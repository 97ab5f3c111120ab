(** Further properties of C03 and C04: operand dispatch, index-based construction, copies. *)
From Coq Require Import List ZArith Reals Lia Lra.
From Verif Require Import PyBase PolyModel PolySpec PolyProofs PolyProofs2.
Import ListNotations.
Open Scope R_scope.

(** Coefficients of an operand seen as a polynomial; scalars are constants. *)
Definition ocoef (o : pyobj RS) (a b : nat) : R :=
  match o with
  | OPoly _ q => coef q a b
  | OScal _ c => match a, b with O, O => c | _, _ => 0 end
  | OOther _ => 0
  end.
Definition operand_ok (o : pyobj RS) : Prop :=
  match o with
  | OPoly _ q => canonical q
  | OScal _ c => c = 0 \/ tol <= Rabs c
  | OOther _ => False
  end.

Lemma cutoff_sig c : c = 0 \/ tol <= Rabs c -> cutoff c = c.
Proof. intros [->|H]; [apply cutoff_zero|apply cutoff_id, H]. Qed.

(** p + o, o + p (scalar o), p - o, o - p (scalar o): coefficientwise, one cutoff. *)
Theorem C04_operands p o : canonical p -> operand_ok o ->
  (exists r, py_add RS p o = Ok r /\ canonical r /\ forall a b, coef r a b = cutoff (coef p a b + ocoef o a b)) /\
  (exists r, py_sub RS p o = Ok r /\ canonical r /\ forall a b, coef r a b = cutoff (coef p a b - ocoef o a b)) /\
  (forall c, o = OScal RS c ->
     (exists r, py_radd RS p o = Ok r /\ canonical r /\ forall a b, coef r a b = cutoff (c * match a, b with O, O => 1 | _, _ => 0 end + coef p a b)) /\
     canonical (prsub_scal RS c p) /\ forall a b, coef (prsub_scal RS c p) a b = cutoff (ocoef o a b - coef p a b)).
Proof.
  intros Hp Ho. destruct o as [q|c|]; cbn [py_add py_sub operand_ok ocoef] in *; [| |destruct Ho].
  - split; [|split; [|intros c H; discriminate]].
    + eexists. split; [reflexivity|]. split; [apply padd_canonical|]. intros a b. apply coef_padd; assumption.
    + eexists. split; [reflexivity|]. split; [apply padd_canonical|]. intros a b. apply coef_psub; assumption.
  - assert (D : forall p' (c' : R), canonical p' -> c' = 0 \/ tol <= Rabs c' -> forall a b,
       coef (padd_scal RS p' c') a b = cutoff (coef p' a b + match a, b with O, O => c' | _, _ => 0 end)).
    { intros p' c' Hp' Hc' a b. rewrite coef_padd_scal by exact Hp'. rewrite (cutoff_sig c') by exact Hc'. destruct a, b; reflexivity. }
    assert (Ho' : (-1 * c = 0 \/ tol <= Rabs (-1 * c))).
    { destruct Ho as [->|Ho]; [left; ring|right]. rewrite Rabs_mult, Rabs_left by lra. lra. }
    split; [|split; [|intros c' H; injection H as <-; split; [|split]]].
    + eexists. split; [reflexivity|]. split; [apply consolidate_canonical|]. intros a b. apply D; assumption.
    + eexists. split; [reflexivity|]. split; [apply consolidate_canonical|]. intros a b.
      unfold psub_scal. cbn [smul sofZ RS]. etransitivity; [exact (D p (-1 * c) Hp Ho' a b)|].
      f_equal. destruct a, b; ring.
    + eexists. split; [reflexivity|]. split; [apply consolidate_canonical|]. intros a b.
      etransitivity; [exact (D p c Hp Ho a b)|]. f_equal. destruct a, b; ring.
    + apply consolidate_canonical.
    + intros a b. unfold prsub_scal. fold (pneg RS p). etransitivity; [exact (D (pneg RS p) c (pneg_canonical p Hp) Ho a b)|].
      f_equal. rewrite coef_pneg by exact Hp. destruct a, b; ring.
Qed.
Print Assumptions C04_operands.

(** Anything that is neither a polynomial nor a number is rejected; so is a polynomial on the
    left of a reflected addition. *)
Theorem C04_operands_rejected p q : py_add RS p (OOther RS) = Err TypeError /\ py_sub RS p (OOther RS) = Err TypeError /\
  py_mul RS p (OOther RS) = Err TypeError /\ py_radd RS p (OOther RS) = Err TypeError /\ py_radd RS p (OPoly RS q) = Err TypeError.
Proof. repeat split. Qed.

Theorem C04_mul_operand p c : canonical p -> exists r, py_mul RS p (OScal RS c) = Ok r /\ canonical r /\
  forall a b, coef r a b = cutoff (coef p a b * c).
Proof.
  intros Hp. eexists. split; [reflexivity|]. split; [apply pscale_canonical, Hp|]. intros a b. apply coef_pscale, Hp.
Qed.

Example C04_operand_example : operand_ok (OScal RS 3) /\ canonical [rmon 2 1 0] /\
  exists r, py_sub RS [rmon 2 1 0] (OScal RS 3) = Ok r /\ coef r 0 0 = -3 /\ coef r 1 0 = 2.
Proof.
  assert (C : canonical [rmon 2 1 0]).
  { constructor; [cbn; rewrite Rabs_right by lra; unfold tol; lra|constructor|constructor]. }
  assert (O : operand_ok (OScal RS 3)) by (right; rewrite Rabs_right by lra; unfold tol; lra).
  split; [exact O|]. split; [exact C|].
  destruct (C04_operands _ _ C O) as (_ & (r & E & _ & K) & _). exists r. split; [exact E|]. rewrite !K. cbn. split.
  - rewrite cutoff_id; [ring|]. rewrite Rabs_left by lra. unfold tol. lra.
  - rewrite cutoff_id; [ring|]. rewrite Rabs_right by lra. unfold tol. lra.
Qed.

(** Construction from (coefficient, index) lists: mismatched lists are rejected; otherwise the
    result is canonical and, on a grid, its coefficients are the sums of those given. *)
Fixpoint idx_sum (cs : list R) (ks : list nat) (k : nat) : R :=
  match cs, ks with
  | c :: cs', j :: ks' => (if Nat.eqb j k then c else 0) + idx_sum cs' ks' k
  | _, _ => 0
  end.

Lemma with_idx_step p (c : R) k : canonical p -> c = 0 \/ tol <= Rabs c ->
  canonical (add_monomial_with_idx RS p c k) /\
  forall j, coef (add_monomial_with_idx RS p c k) (mx (mi_of_idx j)) (my (mi_of_idx j)) =
    cutoff (coef p (mx (mi_of_idx j)) (my (mi_of_idx j)) + if Nat.eqb k j then c else 0).
Proof.
  intros Hp Hc. split; [apply consolidate_canonical|]. intros j. unfold add_monomial_with_idx.
  rewrite coef_consolidate, add_monomial_app, coef_app, coef_filter_single, (cutoff_sig c) by exact Hc. f_equal. f_equal.
  destruct (Nat.eqb_spec k j) as [->|Hne].
  - rewrite !Nat.eqb_refl. reflexivity.
  - destruct (Nat.eqb_spec (mx (mi_of_idx k)) (mx (mi_of_idx j))) as [E1|]; [|reflexivity].
    destruct (Nat.eqb_spec (my (mi_of_idx k)) (my (mi_of_idx j))) as [E2|]; [|reflexivity]. exfalso. apply Hne.
    rewrite <- (mi_of_idx_spec k), <- (mi_of_idx_spec j). f_equal. destruct (mi_of_idx k), (mi_of_idx j). cbn in *. congruence.
Qed.

Theorem C03_with_idxs u p cs ks : tol <= u -> canonical p -> on_grid u p -> Forall (fun c => exists z, c = u * IZR z) cs ->
  (length cs <> length ks -> add_monomials_with_idxs RS p cs ks = Err PolynomialError) /\
  (length cs = length ks -> exists r, add_monomials_with_idxs RS p cs ks = Ok r /\ canonical r /\
     forall k, coef r (mx (mi_of_idx k)) (my (mi_of_idx k)) = coef p (mx (mi_of_idx k)) (my (mi_of_idx k)) + idx_sum cs ks k).
Proof.
  intros Hu Hp Gp Hc. unfold add_monomials_with_idxs. split; intros L.
  - replace (Nat.eqb _ _) with false by (symmetry; apply Nat.eqb_neq; exact L). reflexivity.
  - replace (Nat.eqb _ _) with true by (symmetry; apply Nat.eqb_eq; exact L). eexists. split; [reflexivity|]. split; [apply consolidate_canonical|].
    assert (Gc : forall k, exists z, coef p (mx (mi_of_idx k)) (my (mi_of_idx k)) = u * IZR z) by (intros; apply on_grid_coef, Gp).
    clear Gp. intros k. rewrite coef_consolidate.
    assert (G : (exists z, coef p (mx (mi_of_idx k)) (my (mi_of_idx k)) + idx_sum cs ks k = u * IZR z) /\
      coef (fold_left (fun p ck => add_monomial_with_idx RS p (fst ck) (snd ck)) (combine cs ks) p) (mx (mi_of_idx k)) (my (mi_of_idx k))
      = coef p (mx (mi_of_idx k)) (my (mi_of_idx k)) + idx_sum cs ks k).
    { revert p ks L Hp Gc. induction Hc as [|c cs [z ->] Hc IH]; intros p ks L Hp Gc.
      - destruct ks; [|discriminate]. cbn [combine fold_left idx_sum]. destruct (Gc k) as [w ->]. split; [exists w; ring|ring].
      - destruct ks as [|j ks]; [discriminate|]. cbn [combine fold_left fst snd idx_sum].
        assert (Sg : u * IZR z = 0 \/ tol <= Rabs (u * IZR z)).
        { pose proof tol_pos. destruct (grid_mul_abs u z) as [E|E]; [lra|left; exact E|right; lra]. }
        destruct (with_idx_step p (u * IZR z) j Hp Sg) as [C E].
        assert (E' : forall i, coef (add_monomial_with_idx RS p (u * IZR z) j) (mx (mi_of_idx i)) (my (mi_of_idx i))
           = coef p (mx (mi_of_idx i)) (my (mi_of_idx i)) + if Nat.eqb j i then u * IZR z else 0).
        { intros i. rewrite E. destruct (Gc i) as [w ->]. destruct (Nat.eqb j i).
          - rewrite <- Rmult_plus_distr_l, <- plus_IZR. apply grid_cutoff, Hu.
          - rewrite Rplus_0_r. apply grid_cutoff, Hu. }
        destruct (IH (add_monomial_with_idx RS p (u * IZR z) j) ks) as [I1 I2].
        + injection L as L. exact L.
        + exact C.
        + intros i. rewrite E'. destruct (Gc i) as [w ->]. destruct (Nat.eqb j i).
          * exists (w + z)%Z. rewrite plus_IZR. ring.
          * exists w. ring.
        + rewrite E' in I1, I2. split.
          * destruct I1 as [w Hw]. exists w. rewrite <- Hw. ring.
          * rewrite I2. ring. }
    destruct G as [[z Hz] G]. etransitivity; [apply f_equal; exact G|]. rewrite Hz. apply grid_cutoff, Hu.
Qed.
Print Assumptions C03_with_idxs.

Example C03_with_idxs_example : exists r, add_monomials_with_idxs RS [] [1; 2; 1] [3%nat; 5%nat; 3%nat] = Ok r /\ coef r 2 0 = 2 /\ coef r 0 2 = 2.
Proof.
  destruct (C03_with_idxs 1 [] [1; 2; 1] [3%nat; 5%nat; 3%nat]) as [_ H].
  - unfold tol. lra.
  - constructor.
  - intros m [].
  - repeat constructor; [exists 1%Z|exists 2%Z|exists 1%Z]; lra.
  - destruct (H eq_refl) as (r & E & _ & K). exists r. split; [exact E|].
    split; [specialize (K 3%nat)|specialize (K 5%nat)]; cbn in K; lra.
Qed.

(** is_zero: true exactly when every coefficient is below the cutoff; copies are equal. *)
Theorem C03_is_zero p : (snd (p_is_zero RS p) = true <-> forall a b, cutoff (coef p a b) = 0) /\ fst (p_is_zero RS p) = consolidate RS p.
Proof.
  unfold p_is_zero. cbn [fst snd]. split; [|reflexivity].
  pose proof (consolidate_canonical p) as C. pose proof (coef_consolidate p) as K.
  destruct (consolidate RS p) as [|m q].
  - split; [|reflexivity]. intros _ a b. rewrite <- K. reflexivity.
  - split; [discriminate|]. intros H. exfalso.
    pose proof (canonical_coef_In m (m :: q) C (or_introl eq_refl)) as E. rewrite K, H in E.
    inversion C as [|? ? B]; subst. rewrite <- E, Rabs_R0 in B. pose proof tol_pos. lra.
Qed.
Print Assumptions C03_is_zero.

Theorem C03_copy p : canonical p -> pcopy RS p = p.
Proof.
  intros Hp. apply canonical_ext; [apply consolidate_canonical|exact Hp|].
  intros a b. unfold pcopy, add_monomials. rewrite coef_consolidate, fold_add_monomial, filter_nz_canonical by exact Hp. cbn [app].
  apply cutoff_sig. apply canonical_coef_big, Hp.
Qed.
Print Assumptions C03_copy.
