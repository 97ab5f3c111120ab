(** Properties C01 and C03-C13: multi-indices and polynomials. *)
From Coq Require Import List ZArith Reals Lra Lia QArith Qreals.
From Verif Require Import PyBase PolyModel PolySpec PolyProofs PolyProofs2 PolyProofs3
  PolyTransfer PolyProofs4 PolyAliasModel PolyAliasSpec PolyAliasProofs.
Import ListNotations.
Open Scope R_scope.

(** Concrete polynomials for the examples: 3x - 2xy + y^2/2 and 5 + x + 2xy. *)
Definition ex_p : rpoly := [rmon 3 1 0; rmon (-2) 1 1; rmon (1/2) 0 2].
Definition ex_q : rpoly := [rmon 5 0 0; rmon 1 1 0; rmon 2 1 1].

Ltac canon := repeat first [apply can_nil | apply can_cons | apply Forall_nil | apply Forall_cons];
  cbn; unfold tol, exp_lt; cbn; try lia; try (split_Rabs; lra).
Ltac grid := let m := fresh in let H := fresh in intros m H; cbn in H;
  repeat (destruct H as [<-|H]; [cbn|]); try contradiction.

Example ex_p_canonical : canonical ex_p. Proof. canon. Qed.
Example ex_q_canonical : canonical ex_q. Proof. canon. Qed.
Example ex_p_grid : on_grid (1/2) ex_p.
Proof. grid; [exists 6%Z|exists (-4)%Z|exists 1%Z]; lra. Qed.
Example ex_q_grid : on_grid 1 ex_q.
Proof. grid; [exists 5%Z|exists 1%Z|exists 2%Z]; lra. Qed.
Example ex_q_grid2 : on_grid (1/2) ex_q.
Proof. grid; [exists 10%Z|exists 2%Z|exists 4%Z]; lra. Qed.

(* ------------------------------------------------------------------ *)
(** ** C01 *)

Theorem C01_index_bijection :
  (forall a b : mindex, midx a = midx b -> a = b) /\
  (forall k, exists a, midx a = k) /\
  (forall a b : mindex, (mx a + my a < mx b + my b)%nat -> (midx a < midx b)%nat) /\
  (forall a b : mindex, (midx a < midx b)%nat <-> exp_lt a b).
Proof.
  split; [exact midx_inj|]. split; [intros k; exists (mi_of_idx k); apply mi_of_idx_spec|].
  split; [intros a b H; apply midx_lt_iff; left; exact H|exact midx_lt_iff].
Qed.
Print Assumptions C01_index_bijection.

(** set_from_idx, with the square root, the division and the floor taken in the reals
    exactly as the code writes them, inverts idx; a negative number is rejected. *)
Theorem C01_set_from_idx :
  (forall a, mi_set_from_idx_real (Z.of_nat (midx a)) = Ok a) /\
  (forall k : nat, exists a, mi_set_from_idx_real (Z.of_nat k) = Ok a /\ midx a = k) /\
  (forall k, (k < 0)%Z -> mi_set_from_idx_real k = Err ValueError).
Proof.
  split; [|split].
  - intros a. rewrite set_from_idx_real_ok, mi_of_idx_midx. reflexivity.
  - intros k. exists (mi_of_idx k). split; [apply set_from_idx_real_ok|apply mi_of_idx_spec].
  - intros k H. apply set_from_idx_neg, H.
Qed.
Print Assumptions C01_set_from_idx.

(** The integer variant, and the constructor's validation. *)
Theorem C01_set_from_idx_int :
  forall a, mi_set_from_idx (Z.of_nat (midx a)) = Ok a.
Proof. intros a. rewrite set_from_idx_ok, mi_of_idx_midx. reflexivity. Qed.
Print Assumptions C01_set_from_idx_int.

Theorem C01_constructor (x y : Z) :
  mi_set (Some [PInt x; PInt y]) =
  if (Z.ltb x 0 || Z.ltb y 0)%bool then Err ValueError else Ok (MI (Z.to_nat x) (Z.to_nat y)).
Proof. reflexivity. Qed.

Example C01_example : midx (MI 2 3) = 18%nat /\ mi_set_from_idx 18 = Ok (MI 2 3).
Proof. split; vm_compute; reflexivity. Qed.

(* ------------------------------------------------------------------ *)
(** ** C03 *)

Theorem C03_canonical (e : pexpr) : canonical (pexpr_eval e).
Proof. exact (pexpr_canonical e). Qed.
Print Assumptions C03_canonical.

(** The constructor rejects malformed input and otherwise gives a canonical polynomial. *)
Theorem C03_constructor l p : pset RS l = Ok p -> canonical p.
Proof. exact (pset_canonical l p). Qed.
Print Assumptions C03_constructor.

(** The constructor keeps, for every exponent pair, the sum of the given coefficients. *)
Theorem C03_constructor_coef (l : list (R * nat * nat)) :
  pset RS (Some (map (fun t => match t with (c, a, b) =>
     Triple RS c (PInt (Z.of_nat a)) (PInt (Z.of_nat b)) end) l)) = Ok (mkpoly RS l) /\
  forall a b, coef (mkpoly RS l) a b =
    cutoff (fold_right (fun t s => match t with (c, i, j) =>
       (if (Nat.eqb i a && Nat.eqb j b)%bool then cutoff c else 0) + s end) 0 l).
Proof. split; [exact (pset_mkpoly l)|]. intros a b. apply coef_mkpoly. Qed.
Print Assumptions C03_constructor_coef.

(** A canonical polynomial is determined by its coefficients, so canonical forms are unique. *)
Theorem C03_unique p q : canonical p -> canonical q ->
  (forall a b, coef p a b = coef q a b) -> p = q.
Proof. exact (canonical_ext p q). Qed.
Print Assumptions C03_unique.

Example C03_example : pexpr_eval (ESub (EMul (EMake [(1, 1%nat, 0%nat); (2, 0%nat, 1%nat)])
                                          (EMake [(1, 1%nat, 0%nat); (2, 0%nat, 1%nat)]))
                                   (EMake [(1, 2%nat, 0%nat)])) = [rmon 4 1 1; rmon 4 0 2].
Proof.
  cbn [pexpr_eval].
  replace [(1, 1%nat, 0%nat); (2, 0%nat, 1%nat)] with (ht [(1%Q, 1%nat, 0%nat); (2%Q, 0%nat, 1%nat)])
    by (cbn; unfold Q2R; cbn; repeat f_equal; lra).
  replace [(1, 2%nat, 0%nat)] with (ht [(1%Q, 2%nat, 0%nat)]) by (cbn; unfold Q2R; cbn; repeat f_equal; lra).
  rewrite !t_mkpoly, t_pmul, t_psub.
  match goal with |- hp ?p = _ => let v := eval vm_compute in p in change p with v end.
  cbn. unfold hm, rmon, Q2R. cbn. repeat f_equal; lra.
Qed.

(* ------------------------------------------------------------------ *)
(** ** C04 *)

(** Coefficientwise: every result coefficient is the cutoff of the expected one. *)
Theorem C04_coefficients p q c : canonical p -> canonical q -> forall a b,
  coef (padd RS p q) a b = cutoff (coef p a b + coef q a b) /\
  coef (psub RS p q) a b = cutoff (coef p a b - coef q a b) /\
  coef (pneg RS p) a b = - coef p a b /\
  coef (pscale RS p c) a b = cutoff (coef p a b * c).
Proof.
  intros Hp Hq a b. split; [exact (coef_padd p q a b Hp Hq)|]. split; [exact (coef_psub p q a b Hp Hq)|].
  split; [exact (coef_pneg p a b Hp)|exact (coef_pscale p c a b Hp)].
Qed.
Print Assumptions C04_coefficients.

Theorem C04_add p q x y : canonical p -> canonical q ->
  (forall a b, coef p a b + coef q a b = 0 \/ tol <= Rabs (coef p a b + coef q a b)) ->
  peval RS (padd RS p q) x y = peval RS p x y + peval RS q x y.
Proof. rewrite !peval_value. exact (value_padd p q x y). Qed.
Print Assumptions C04_add.

Theorem C04_add_error p q x y : canonical p -> canonical q ->
  Rabs (peval RS (padd RS p q) x y - (peval RS p x y + peval RS q x y))
    <= tol * (msize p x y + msize q x y).
Proof. rewrite !peval_value. exact (value_padd_err p q x y). Qed.
Print Assumptions C04_add_error.

Theorem C04_sub p q x y : canonical p -> canonical q ->
  (forall a b, coef p a b - coef q a b = 0 \/ tol <= Rabs (coef p a b - coef q a b)) ->
  peval RS (psub RS p q) x y = peval RS p x y - peval RS q x y.
Proof. rewrite !peval_value. exact (value_psub p q x y). Qed.
Print Assumptions C04_sub.

Theorem C04_neg p x y : canonical p -> peval RS (pneg RS p) x y = - peval RS p x y.
Proof. rewrite !peval_value. exact (value_pneg p x y). Qed.
Print Assumptions C04_neg.

Theorem C04_scale p c x y : canonical p ->
  (forall a b, coef p a b * c = 0 \/ tol <= Rabs (coef p a b * c)) ->
  peval RS (pscale RS p c) x y = peval RS p x y * c.
Proof. rewrite !peval_value. exact (value_pscale p c x y). Qed.
Print Assumptions C04_scale.

Theorem C04_scale_error p (c : R) x y : canonical p ->
  Rabs (peval RS (pscale RS p c) x y - peval RS p x y * c) <= tol * msize p x y.
Proof. rewrite !peval_value. exact (value_pscale_err p c x y). Qed.
Print Assumptions C04_scale_error.

Theorem C04_div p c x y : canonical p -> c <> 0 ->
  (forall a b, coef p a b / c = 0 \/ tol <= Rabs (coef p a b / c)) ->
  exists q, pdiv_scal RS p c false = Ok q /\ peval RS q x y = peval RS p x y / c.
Proof.
  intros H1 H2 H3. destruct (pdiv_value p c x y H1 H2 H3) as (q & E & V).
  exists q. split; [exact E|]. rewrite !peval_value. exact V.
Qed.
Print Assumptions C04_div.

Theorem C04_div_zero p c : pdiv_scal RS p c true = Err ZeroDivisionError.
Proof. reflexivity. Qed.

Theorem C04_add_scalar p c x y : canonical p -> (c = 0 \/ tol <= Rabs c) ->
  (coef p 0 0 + c = 0 \/ tol <= Rabs (coef p 0 0 + c)) ->
  peval RS (padd_scal RS p c) x y = peval RS p x y + c.
Proof. rewrite !peval_value. exact (value_padd_scal p c x y). Qed.
Print Assumptions C04_add_scalar.

Theorem C04_grid u p q x y : canonical p -> canonical q -> tol <= u -> on_grid u p -> on_grid u q ->
  peval RS (padd RS p q) x y = peval RS p x y + peval RS q x y.
Proof. rewrite !peval_value. exact (value_padd_grid u p q x y). Qed.
Print Assumptions C04_grid.

Example C04_example x y : peval RS (padd RS ex_p ex_q) x y = peval RS ex_p x y + peval RS ex_q x y.
Proof.
  apply (C04_grid (1/2)); [exact ex_p_canonical|exact ex_q_canonical|unfold tol; lra|exact ex_p_grid|exact ex_q_grid2].
Qed.

(* ------------------------------------------------------------------ *)
(** ** C05 *)

Theorem C05_cauchy_product p q : canonical p -> canonical q -> forall a b,
  coef (pmul RS p q) a b =
  cutoff (sum_f_R0 (fun i => sum_f_R0 (fun j => cutoff (coef p i j * coef q (a - i) (b - j))) b) a).
Proof. intros Hp Hq a b. exact (coef_pmul p q a b Hp Hq). Qed.
Print Assumptions C05_cauchy_product.

Theorem C05_value p q x y :
  (forall m n : rmono, In m p -> In n q -> tol <= Rabs (mcoef m * mcoef n)) ->
  (forall a b, t_mul (coef p) (coef q) a b = 0 \/ tol <= Rabs (t_mul (coef p) (coef q) a b)) ->
  peval RS (pmul RS p q) x y = peval RS p x y * peval RS q x y.
Proof. rewrite !peval_value. exact (value_pmul p q x y). Qed.
Print Assumptions C05_value.

Theorem C05_value_error p q x y :
  Rabs (peval RS (pmul RS p q) x y - peval RS p x y * peval RS q x y)
    <= 2 * tol * (msize p x y * msize q x y).
Proof. rewrite !peval_value. exact (value_pmul_err p q x y). Qed.
Print Assumptions C05_value_error.

Theorem C05_value_grid u v p q x y : canonical p -> canonical q -> tol <= u * v ->
  on_grid u p -> on_grid v q ->
  peval RS (pmul RS p q) x y = peval RS p x y * peval RS q x y.
Proof. rewrite !peval_value. exact (value_pmul_grid u v p q x y). Qed.
Print Assumptions C05_value_grid.

Theorem C05_commutative p q : canonical p -> canonical q -> pmul RS p q = pmul RS q p.
Proof. exact (pmul_comm p q). Qed.
Print Assumptions C05_commutative.

Theorem C05_distributive u v p q r : canonical p -> canonical q -> canonical r ->
  tol <= u * v -> tol <= u -> on_grid u p -> on_grid u q -> on_grid v r ->
  pmul RS (padd RS p q) r = padd RS (pmul RS p r) (pmul RS q r).
Proof. exact (pmul_distr u v p q r). Qed.
Print Assumptions C05_distributive.

Theorem C05_associative u v w p q r : canonical p -> canonical q -> canonical r ->
  tol <= u * v * w -> tol <= u * v -> tol <= v * w ->
  on_grid u p -> on_grid v q -> on_grid w r ->
  pmul RS (pmul RS p q) r = pmul RS p (pmul RS q r).
Proof. exact (pmul_assoc u v w p q r). Qed.
Print Assumptions C05_associative.

Example C05_example x y : peval RS (pmul RS ex_p ex_q) x y = peval RS ex_p x y * peval RS ex_q x y.
Proof.
  apply (C05_value_grid (1/2) 1); [exact ex_p_canonical|exact ex_q_canonical|unfold tol; lra|exact ex_p_grid|exact ex_q_grid].
Qed.

(** Without a grid condition neither law holds: the cutoff drops 1e-7 * 1e-7. *)
Theorem C05_distributive_unconditional_refuted :
  exists p q r, canonical p /\ canonical q /\ canonical r /\
    pmul RS (padd RS p q) r <> padd RS (pmul RS p r) (pmul RS q r).
Proof.
  set (e := (1 # 1000000)%Q). set (f := (3 # 10000000)%Q).
  exists (hp [Mono (S:=QS) (MI 0 0) e]), (hp [Mono (S:=QS) (MI 0 0) f]), (hp [Mono (S:=QS) (MI 0 0) e]).
  assert (Ce : canonical (hp [Mono (S:=QS) (MI 0 0) e])).
  { canon. unfold Q2R. cbn. split_Rabs; lra. }
  assert (Cf : canonical (hp [Mono (S:=QS) (MI 0 0) f])).
  { canon. unfold Q2R. cbn. split_Rabs; lra. }
  split; [exact Ce|]. split; [exact Cf|]. split; [exact Ce|].
  rewrite !t_padd, !t_pmul, t_padd.
  match goal with |- hp ?a <> hp ?b => let v := eval vm_compute in a in let w := eval vm_compute in b in
    change a with v; change b with w end.
  cbn. unfold hm. cbn. intros E. inversion E as [E1]. revert E1. unfold Q2R. cbn. lra.
Qed.
Print Assumptions C05_distributive_unconditional_refuted.

(* ------------------------------------------------------------------ *)
(** ** C06 *)

Theorem C06_partial_x p : canonical p ->
  exists q, ppartial RS p VX = Ok q /\ is_dx (peval RS p) (peval RS q).
Proof.
  intros H. exists (pdx RS p). split; [exact (ppartial_x p)|].
  intros x y. rewrite peval_value. eapply derivable_pt_lim_ext; [|exact (pdx_lim p H x y)].
  intros t. rewrite peval_value. reflexivity.
Qed.
Print Assumptions C06_partial_x.

Theorem C06_partial_y p : canonical p ->
  exists q, ppartial RS p VY = Ok q /\ is_dy (peval RS p) (peval RS q).
Proof.
  intros H. exists (pdy RS p). split; [exact (ppartial_y p)|].
  intros x y. rewrite peval_value. eapply derivable_pt_lim_ext; [|exact (pdy_lim p H x y)].
  intros t. rewrite peval_value. reflexivity.
Qed.
Print Assumptions C06_partial_y.

(** grad returns the pair. *)
Theorem C06_grad p : canonical p ->
  is_dx (peval RS p) (peval RS (fst (pgrad RS p))) /\ is_dy (peval RS p) (peval RS (snd (pgrad RS p))).
Proof.
  intros H. split.
  - destruct (C06_partial_x p H) as (q & E & D). rewrite ppartial_x in E. inversion E; subst. exact D.
  - destruct (C06_partial_y p H) as (q & E & D). rewrite ppartial_y in E. inversion E; subst. exact D.
Qed.
Print Assumptions C06_grad.

(** Any other variable is rejected for a nonzero polynomial ... *)
Theorem C06_other_rejected p : p <> [] -> ppartial RS p VOther = Err InvalidVariableError.
Proof. intros H. rewrite ppartial_other. destruct p; [contradiction|reflexivity]. Qed.
Print Assumptions C06_other_rejected.
(** ... but accepted by the zero polynomial. *)
Theorem C06_other_rejected_refuted : exists p, canonical p /\ is_ok (ppartial RS p VOther) = true.
Proof. exists []. split; [constructor|reflexivity]. Qed.
Print Assumptions C06_other_rejected_refuted.

Example C06_example : canonical ex_p /\ exists q, ppartial RS ex_p VX = Ok q /\ coef q 0 1 = -2.
Proof.
  split; [exact ex_p_canonical|]. exists (pdx RS ex_p). split; [apply ppartial_x|].
  rewrite (coef_pdx ex_p 0 1 ex_p_canonical). unfold t_dx. cbn. lra.
Qed.

(* ------------------------------------------------------------------ *)
(** ** C07 *)

Theorem C07_laplacian u p : canonical p -> tol <= u -> on_grid u p ->
  is_laplacian (peval RS p) (peval RS (plaplacian RS p)).
Proof.
  intros H1 H2 H3. destruct (plap_is_laplacian u p H1 H2 H3) as (fx & fy & fxx & fyy & A & B & C & D & E).
  exists fx, fy, fxx, fyy. split; [|split; [|split; [exact C|split; [exact D|]]]].
  - intros x y. eapply derivable_pt_lim_ext; [|exact (A x y)]. intros t. rewrite peval_value. reflexivity.
  - intros x y. eapply derivable_pt_lim_ext; [|exact (B x y)]. intros t. rewrite peval_value. reflexivity.
  - intros x y. rewrite peval_value. apply E.
Qed.
Print Assumptions C07_laplacian.

Theorem C07_coefficients p a b : canonical p ->
  coef (plaplacian RS p) a b = cutoff (t_lap (coef p) a b).
Proof. exact (coef_plap p a b). Qed.
Print Assumptions C07_coefficients.

(** For every canonical polynomial, within the dropped terms. *)
Theorem C07_laplacian_error p : canonical p ->
  exists pxx pyy : rpoly,
    (exists px, is_dx (peval RS p) (peval RS px) /\ is_dx (peval RS px) (peval RS pxx)) /\
    (exists py, is_dy (peval RS p) (peval RS py) /\ is_dy (peval RS py) (peval RS pyy)) /\
    forall x y, Rabs (peval RS (plaplacian RS p) x y - (peval RS pxx x y + peval RS pyy x y))
      <= tol * (msize pxx x y + msize pyy x y).
Proof.
  intros H. exists (pdx RS (pdx RS p)), (pdy RS (pdy RS p)). split; [|split].
  - exists (pdx RS p). split; [exact (proj1 (C06_grad p H))|exact (proj1 (C06_grad _ (pdx_canonical p H)))].
  - exists (pdy RS p). split; [exact (proj2 (C06_grad p H))|exact (proj2 (C06_grad _ (pdy_canonical p H)))].
  - intros x y. rewrite !peval_value. exact (value_plap_err p x y H).
Qed.
Print Assumptions C07_laplacian_error.

Example C07_example : coef (plaplacian RS ex_p) 0 0 = 1.
Proof.
  rewrite (coef_plap_grid (1/2) ex_p 0 0 ex_p_canonical); [|unfold tol; lra|exact ex_p_grid].
  unfold t_lap, t_dx, t_dy. cbn. lra.
Qed.

(* ------------------------------------------------------------------ *)
(** ** C08 *)

(** Every polynomial of every degree whose coefficients of degree d are multiples of u(d),
    with u(d) * al_unit(d) at least the cutoff. *)
Theorem C08_anti_laplacian u p : canonical p -> graded_grid u p ->
  (forall m : rmono, In m p ->
     let d := (mx (malpha m) + my (malpha m))%nat in tol <= u d * al_unit d) ->
  plaplacian RS (panti_laplacian RS p) = p.
Proof. exact (antilap_roundtrip u p). Qed.
Print Assumptions C08_anti_laplacian.

Example C08_example : plaplacian RS (panti_laplacian RS ex_p) = ex_p.
Proof.
  apply (C08_anti_laplacian (fun _ => 1/2)); [exact ex_p_canonical| |].
  - grid; [exists 6%Z|exists (-4)%Z|exists 1%Z]; lra.
  - grid; unfold al_unit, tol; cbn; lra.
Qed.

Lemma hp_length p : length (hp p) = length p.
Proof. apply map_length. Qed.

(** Without the condition the round trip fails: x^16 y^6, coefficient 1. *)
Theorem C08_anti_laplacian_refuted :
  exists p, canonical p /\ on_grid 1 p /\ plaplacian RS (panti_laplacian RS p) <> p.
Proof.
  exists [rmon 1 16 6]. split; [canon|]. split; [grid; exists 1%Z; lra|].
  replace [rmon 1 16 6] with (hp [Mono (S:=QS) (MI 16 6) 1%Q])
    by (cbn; unfold hm, rmon, Q2R; cbn; repeat f_equal; lra).
  rewrite t_panti_laplacian, t_plaplacian. intros E.
  apply (f_equal (@length _)) in E. rewrite !hp_length in E.
  assert (F : Nat.eqb (length (plaplacian QS (panti_laplacian QS [Mono (S:=QS) (MI 16 6) 1%Q]))) 1 = false)
    by (vm_cast_no_check (eq_refl false)).
  apply Nat.eqb_neq in F. exact (F E).
Qed.
Print Assumptions C08_anti_laplacian_refuted.

(* ------------------------------------------------------------------ *)
(** ** C09 *)

Theorem C09_pow u p (n : Z) x y : canonical p -> 0 < u <= 1 -> (0 <= n)%Z ->
  tol <= u ^ Z.to_nat n -> on_grid u p ->
  exists q, ppow RS p (PInt n) = Ok q /\ peval RS q x y = peval RS p x y ^ Z.to_nat n.
Proof.
  intros H1 H2 H3 H4 H5. exists (ppow_nat RS p (Z.to_nat n)). split.
  - unfold ppow. destruct (Z.ltb_spec n 0); [lia|reflexivity].
  - rewrite !peval_value. exact (value_ppow_grid u p (Z.to_nat n) x y H1 H2 H4 H5).
Qed.
Print Assumptions C09_pow.

Theorem C09_pow_rejected p : (forall n, (n < 0)%Z -> ppow RS p (PInt n) = Err ValueError) /\
  ppow RS p PNotInt = Err ValueError.
Proof.
  split; [|reflexivity]. intros n H. unfold ppow. destruct (Z.ltb_spec n 0); [reflexivity|lia].
Qed.
Print Assumptions C09_pow_rejected.

Theorem C09_compose p q1 q2 u (k D : nat) : canonical p -> canonical q1 -> canonical q2 ->
  on_grid u p -> (0 < k)%nat -> on_grid (/ INR k) q1 -> on_grid (/ INR k) q2 -> deg_le D p ->
  0 < u <= 1 -> tol <= u * (/ INR k) ^ D ->
  forall x y, peval RS (pcompose RS p q1 q2) x y = peval RS p (peval RS q1 x y) (peval RS q2 x y).
Proof.
  intros H1 H2 H3 H4 H5 H6 H7 H8 H9 H10 x y. rewrite !peval_value.
  exact (compose_exact p q1 q2 u k D H1 H2 H3 H4 H5 H6 H7 H8 H9 H10 x y).
Qed.
Print Assumptions C09_compose.

Example C09_example x y :
  peval RS (pcompose RS ex_p ex_q ex_p) x y = peval RS ex_p (peval RS ex_q x y) (peval RS ex_p x y).
Proof.
  apply (C09_compose ex_p ex_q ex_p (1/2) 2 2); try apply ex_p_canonical; try apply ex_q_canonical;
    try exact ex_p_grid; try lia; try lra.
  - cbn. replace (/ (1 + 1)) with (1/2) by lra. exact ex_q_grid2.
  - cbn. replace (/ (1 + 1)) with (1/2) by lra. exact ex_p_grid.
  - grid; lia.
  - cbn. unfold tol. lra.
Qed.
Example C09_pow_example x y :
  exists q, ppow RS ex_p (PInt 3) = Ok q /\ peval RS q x y = peval RS ex_p x y ^ 3.
Proof.
  apply (C09_pow (1/2) ex_p 3 x y ex_p_canonical); [lra|lia|change (Z.to_nat 3) with 3%nat; unfold tol; cbn [pow]; lra|exact ex_p_grid].
Qed.

(* ------------------------------------------------------------------ *)
(** ** C10 *)

Theorem C10_characterisation p q : canonical p -> canonical q ->
  (peqb RS p q = true <->
   map malpha p = map malpha q /\ forall a b, Rabs (coef p a b - coef q a b) < tol).
Proof. exact (peqb_spec p q). Qed.
Print Assumptions C10_characterisation.

(** Comparing sorts both operands; canonical ones are unchanged. *)
Theorem C10_pure p q : canonical p -> canonical q -> fst (peq RS p q) = (p, q).
Proof. exact (peq_pure p q). Qed.
Print Assumptions C10_pure.

Theorem C10_refl_sym p q : canonical p -> canonical q ->
  peqb RS p p = true /\ peqb RS p q = peqb RS q p.
Proof. intros Hp Hq. split; [exact (peqb_refl p Hp)|exact (peqb_sym p q Hp Hq)]. Qed.
Print Assumptions C10_refl_sym.

(** Not transitive: 1, 1 + 0.6e-12, 1 + 1.2e-12. *)
Theorem C10_transitive_refuted : exists p q r, canonical p /\ canonical q /\ canonical r /\
  peqb RS p q = true /\ peqb RS q r = true /\ peqb RS p r = false.
Proof.
  exists (hp [Mono (S:=QS) (MI 0 0) 1%Q]), (hp [Mono (S:=QS) (MI 0 0) (10000000000006 # 10000000000000)%Q]),
    (hp [Mono (S:=QS) (MI 0 0) (10000000000012 # 10000000000000)%Q]).
  split; [canon; unfold Q2R; cbn; split_Rabs; lra|]. split; [canon; unfold Q2R; cbn; split_Rabs; lra|].
  split; [canon; unfold Q2R; cbn; split_Rabs; lra|]. rewrite !t_peqb. vm_compute. auto.
Qed.
Print Assumptions C10_transitive_refuted.

(** What survives of transitivity. *)
Theorem C10_transitive_partial p q r : canonical p -> canonical q -> canonical r ->
  peqb RS p q = true -> peqb RS q r = true ->
  map malpha p = map malpha r /\ forall a b, Rabs (coef p a b - coef r a b) < 2 * tol.
Proof. exact (peqb_near_trans p q r). Qed.
Print Assumptions C10_transitive_partial.

Example C10_example : peqb RS ex_p ex_q = false /\ peqb RS ex_p ex_p = true.
Proof.
  split; [|exact (peqb_refl _ ex_p_canonical)].
  destruct (peqb RS ex_p ex_q) eqn:E; [|reflexivity].
  apply (C10_characterisation _ _ ex_p_canonical ex_q_canonical) in E. destruct E as [E _]. discriminate E.
Qed.

(* ------------------------------------------------------------------ *)
(** ** C11 *)

Theorem C11_iadd (st : pstore RS) self other : self <> other ->
  exists st', iadd_live RS (Datatypes.S (length (st other))) st self other 0 = Ok st' /\
    st' self = piadd RS (st self) (st other) /\ (forall o, o <> self -> st' o = st o).
Proof. exact (iadd_distinct RS st self other). Qed.
Print Assumptions C11_iadd.

Theorem C11_iadd_is_add (st : pstore RS) self other : self <> other ->
  canonical (st self) -> canonical (st other) ->
  exists st', iadd_live RS (Datatypes.S (length (st other))) st self other 0 = Ok st' /\
    st' self = padd RS (st self) (st other).
Proof.
  intros H Hs Ho. destruct (iadd_distinct RS st self other H) as (st' & E & V & _).
  exists st'. split; [exact E|]. rewrite V. apply canonical_ext; [apply piadd_canonical|apply consolidate_canonical|].
  intros a b. rewrite coef_piadd, coef_padd by assumption. reflexivity.
Qed.
Print Assumptions C11_iadd_is_add.

(** p += p never returns, whatever the number of iterations allowed, if p is not zero. *)
Theorem C11_self_alias_refuted (st : pstore RS) o : canonical (st o) -> st o <> [] ->
  forall fuel, iadd_live RS fuel st o o 0 = Err OutOfFuel.
Proof.
  intros Hc Hn fuel. apply iadd_self_diverges.
  - intros m Hm. pose proof (canonical_In m (st o) Hc Hm) as Hb.
    unfold m_is_zero. cbn. unfold Rltb. destruct (Rlt_dec _ _) as [L|L]; [|reflexivity].
    exfalso. exact (Rlt_irrefl _ (Rle_lt_trans _ _ _ Hb L)).
  - destruct (st o); [contradiction|cbn; lia].
Qed.
Print Assumptions C11_self_alias_refuted.

Example C11_example : canonical ex_p /\ ex_p <> [] /\
  forall fuel, iadd_live RS fuel (fun _ => ex_p) 0 0 0 = Err OutOfFuel.
Proof.
  split; [exact ex_p_canonical|]. split; [discriminate|].
  apply (C11_self_alias_refuted (fun _ => ex_p)); [exact ex_p_canonical|discriminate].
Qed.

(* ------------------------------------------------------------------ *)
(** ** C12 *)

(** Array x, and y an array of the same shape or a scalar: entry by entry. *)
Theorem C12_arrays p (x : narr RS) (y : floatlike RS) : conforms (nshape x) y ->
  exists r, peval_arr RS p (FArr x) y = Ok r /\ nshape r = nshape x /\
    forall i, in_shape (nshape x) i -> nat_at r i = peval RS p (nat_at x i) (fl_at y i).
Proof. exact (peval_arr_ok RS p x y). Qed.
Print Assumptions C12_arrays.

Theorem C12_scalars p (c d : RS) : exists r, peval_arr RS p (FScal c) (FScal d) = Ok r /\
  nshape r = [] /\ nat_at r [] = peval RS p c d.
Proof. exact (peval_arr_scalars RS p c d). Qed.
Print Assumptions C12_scalars.

(** Scalar x with an array y fails for every nonzero polynomial. *)
Theorem C12_scalar_x_array_y_refuted p (c : RS) (y : narr RS) : p <> [] -> nshape y <> [] ->
  exists e, peval_arr RS p (FScal c) (FArr y) = Err e.
Proof. exact (peval_arr_scalar_x RS p c y). Qed.
Print Assumptions C12_scalar_x_array_y_refuted.

Example C12_example : exists r,
  peval_arr RS ex_p (FArr (NArr (S:=RS) [2%nat] (fun i => match i with [O] => 1 | _ => 2 end))) (FScal (S:=RS) 3) = Ok r
  /\ nat_at r [1%nat] = 3 * 2 - 2 * 2 * 3 + 9 / 2.
Proof.
  destruct (C12_arrays ex_p (NArr (S:=RS) [2%nat] (fun i => match i with [O] => 1 | _ => 2 end)) (FScal (S:=RS) 3) I)
    as (r & E & _ & V). exists r. split; [exact E|].
  rewrite V by (repeat constructor). rewrite peval_value. cbn. lra.
Qed.

(* ------------------------------------------------------------------ *)
(** ** C13 *)

(** Each operator command yields, in a new object (for +=, in the target), the pure result
    of the operand values, and leaves the value of every other object unchanged. *)
Theorem C13_operator (st : pstate RS) (c : pcmd RS) st' : wf st -> arithmetic c ->
  exec RS st c = Ok st' ->
  wf st' /\ denote RS st' (target st c) = pure_result st c /\
  (exists q, pure_result st c = Ok q) /\
  forall o, o <> target st c -> forall p, look RS st o = Ok p -> denote RS st' o = denote RS st o.
Proof. exact (exec_ok RS st c st'). Qed.
Print Assumptions C13_operator.

(** Whole programs: objects that are never the target of += keep their value. *)
Theorem C13_frame (cs : list (pcmd RS)) st st' : wf st -> Forall arithmetic cs ->
  exec_all RS st cs = Ok st' ->
  forall o p, look RS st o = Ok p -> (forall o2, ~ In (CIadd RS o o2) cs) ->
  denote RS st' o = denote RS st o.
Proof. exact (exec_all_frame RS cs st st'). Qed.
Print Assumptions C13_frame.

(** copy() shares its Monomial objects: q = p.copy(); q.monos[0].set_coef(7) changes p. *)
Theorem C13_copy_independent_refuted :
  exists st, wf st /\ denote QS st 0 = Ok [Mono (S:=QS) (MI 1 0) 3%Q] /\
    exists st', exec_all QS st [CCopy QS 0; CSetCoef QS 1 0 7%Q] = Ok st' /\
      denote QS st' 0 = Ok [Mono (S:=QS) (MI 1 0) 7%Q].
Proof.
  exists (PState QS [Mono (S:=QS) (MI 1 0) 3%Q] [[0%nat]]).
  split; [repeat constructor|]. split; [reflexivity|]. eexists. split; vm_compute; reflexivity.
Qed.
Print Assumptions C13_copy_independent_refuted.

Example C13_example : exists st : pstate QS, wf st /\ exists st',
  exec_all QS st [CMul QS 0 1; CSub QS 2 0; CIadd QS 2 1; CCopy QS 2; CPow QS 1 2; CCompose QS 0 1 1] = Ok st' /\
  denote QS st' 0 = denote QS st 0.
Proof.
  exists (PState QS [Mono (S:=QS) (MI 1 0) 3%Q; Mono (S:=QS) (MI 0 1) (-2)%Q] [[0%nat]; [0%nat; 1%nat]]).
  split; [repeat constructor|]. eexists. split; vm_compute; reflexivity.
Qed.
