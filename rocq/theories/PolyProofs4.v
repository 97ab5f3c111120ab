(** Index decoding, equality, expressions, exactness summaries. *)
From Coq Require Import List ZArith Reals Lia Lra Arith Permutation.
From Verif Require Import PyBase PolyModel PolySpec PolyProofs PolyProofs2 PolyProofs3.
Import ListNotations.
Open Scope R_scope.

(* ---------------------------------------------------------------- *)
(** ** set_from_idx *)

Lemma mi_set_ok x y : (0 <= x)%Z -> (0 <= y)%Z ->
  mi_set (Some [PInt x; PInt y]) = Ok (MI (Z.to_nat x) (Z.to_nat y)).
Proof.
  intros Hx Hy. unfold mi_set.
  destruct (Z.ltb_spec x 0); [lia|]. destruct (Z.ltb_spec y 0); [lia|]. reflexivity.
Qed.

Lemma decode_t (k : nat) (t : nat) : (tri t <= k < tri (S t))%nat ->
  let tz := Z.of_nat t in let n := (tz * (tz + 1) / 2)%Z in
  mi_set (Some [PInt (tz - Z.of_nat k + n); PInt (Z.of_nat k - n)])%Z = Ok (mi_of_idx k).
Proof.
  intros Ht tz n.
  assert (Hn : n = Z.of_nat (tri t)).
  { unfold n, tz, tri. rewrite Nat2Z.inj_div, Nat2Z.inj_mul, Nat2Z.inj_add. reflexivity. }
  rewrite Hn. rewrite tri_S in Ht. rewrite mi_set_ok by (unfold tz; lia).
  unfold mi_of_idx. rewrite (sqrt_tri k t) by (rewrite tri_S; lia). fold (tri t).
  f_equal. unfold tz. f_equal; lia.
Qed.

Lemma set_from_idx_ok (k : nat) : mi_set_from_idx (Z.of_nat k) = Ok (mi_of_idx k).
Proof.
  unfold mi_set_from_idx. destruct (Z.ltb_spec (Z.of_nat k) 0); [lia|].
  destruct (tri_bounds k) as [t Ht].
  assert (E : ((Z.sqrt (8 * Z.of_nat k + 1) - 1) / 2)%Z = Z.of_nat t).
  { pose proof (two_tri t). pose proof (two_tri (S t)).
    assert (A : (2 * Z.of_nat t + 1 <= Z.sqrt (8 * Z.of_nat k + 1))%Z)
      by (apply Z.sqrt_le_square; nia).
    assert (B : (Z.sqrt (8 * Z.of_nat k + 1) < 2 * Z.of_nat t + 3)%Z)
      by (apply Z.sqrt_lt_square; nia).
    symmetry. apply Z.div_unique with (r := (Z.sqrt (8 * Z.of_nat k + 1) - 1 - 2 * Z.of_nat t)%Z); lia. }
  cbv zeta. rewrite E. apply decode_t, Ht.
Qed.

Lemma Int_part_unique (r : R) (z : Z) : IZR z <= r < IZR z + 1 -> Int_part r = z.
Proof.
  intros [H1 H2]. pose proof (base_Int_part r) as [H3 H4].
  assert (A : IZR (Int_part r) < IZR (z + 1)) by (rewrite plus_IZR; lra).
  assert (B : IZR z < IZR (Int_part r + 1)) by (rewrite plus_IZR; lra).
  apply lt_IZR in A. apply lt_IZR in B. lia.
Qed.

Lemma set_from_idx_real_ok (k : nat) : mi_set_from_idx_real (Z.of_nat k) = Ok (mi_of_idx k).
Proof.
  unfold mi_set_from_idx_real. destruct (Z.ltb_spec (8 * Z.of_nat k + 1) 0); [lia|].
  destruct (tri_bounds k) as [t Ht].
  assert (E : Int_part ((sqrt (IZR (8 * Z.of_nat k + 1)) - 1) / 2) = Z.of_nat t).
  { apply Int_part_unique. rewrite <- INR_IZR_INZ.
    pose proof (two_tri t) as T1. pose proof (two_tri (S t)) as T2.
    assert (A : 2 * INR t + 1 <= sqrt (IZR (8 * Z.of_nat k + 1))).
    { rewrite <- (sqrt_square (2 * INR t + 1)) by (pose proof (pos_INR t); lra).
      apply sqrt_le_1_alt. rewrite INR_IZR_INZ.
      replace ((2 * IZR (Z.of_nat t) + 1) * (2 * IZR (Z.of_nat t) + 1))
        with (IZR ((2 * Z.of_nat t + 1) * (2 * Z.of_nat t + 1)))
        by (rewrite mult_IZR, plus_IZR, mult_IZR; ring).
      apply IZR_le. nia. }
    assert (B : sqrt (IZR (8 * Z.of_nat k + 1)) < 2 * INR t + 3).
    { rewrite <- (sqrt_square (2 * INR t + 3)) by (pose proof (pos_INR t); lra).
      apply sqrt_lt_1_alt. split; [apply IZR_le; lia|]. rewrite INR_IZR_INZ.
      replace ((2 * IZR (Z.of_nat t) + 3) * (2 * IZR (Z.of_nat t) + 3))
        with (IZR ((2 * Z.of_nat t + 3) * (2 * Z.of_nat t + 3)))
        by (rewrite mult_IZR, plus_IZR, mult_IZR; ring).
      apply IZR_lt. nia. }
    lra. }
  cbv zeta. rewrite E. apply decode_t, Ht.
Qed.

Lemma set_from_idx_neg k : (k < 0)%Z ->
  mi_set_from_idx k = Err ValueError /\ mi_set_from_idx_real k = Err ValueError.
Proof.
  intros H. unfold mi_set_from_idx, mi_set_from_idx_real.
  destruct (Z.ltb_spec k 0); [|lia]. destruct (Z.ltb_spec (8 * k + 1) 0); [|lia]. auto.
Qed.

(* ---------------------------------------------------------------- *)
(** ** Equality *)

Lemma m_eqb_true (m n : rmono) :
  m_eqb RS m n = true <-> malpha m = malpha n /\ Rabs (mcoef m - mcoef n) < tol.
Proof.
  unfold m_eqb. destruct (Nat.eqb_spec (midx (malpha m)) (midx (malpha n))) as [E|E].
  - apply midx_inj in E. cbn [sltb sabs sadd smul sofZ RS]. rewrite stol_RS, Rltb_true.
    replace (mcoef m + -1 * mcoef n) with ((mcoef m : R) - mcoef n) by rring. tauto.
  - split; [discriminate|]. intros [H _]. rewrite H in E. congruence.
Qed.

Lemma forallb_combine_eq (l l' : rpoly) : length l = length l' ->
  (forallb (fun mn => m_eqb RS (fst mn) (snd mn)) (combine l l') = true <->
   map malpha l = map malpha l' /\
   Forall2 (fun m n : rmono => Rabs (mcoef m - mcoef n) < tol) l l').
Proof.
  revert l'. induction l as [|m l IH]; intros [|n l'] Hl; try discriminate; cbn [combine forallb map].
  - split; [intros _; split; [reflexivity|constructor]|reflexivity].
  - cbn [fst snd]. rewrite Bool.andb_true_iff, m_eqb_true, IH by (cbn in Hl; lia).
    split.
    + intros [[E1 E2] [E3 E4]]. split; [congruence|constructor; assumption].
    + intros [E1 E2]. inversion E1; inversion E2; subst. auto.
Qed.

Lemma Forall2_coef_close (l l' : rpoly) : canonical l -> canonical l' -> map malpha l = map malpha l' ->
  (Forall2 (fun m n : rmono => Rabs (mcoef m - mcoef n) < tol) l l' <->
   forall a b, Rabs (coef l a b - coef l' a b) < tol).
Proof.
  intros Hl. revert l'. induction Hl as [|m l Hm Hf Hl IH]; intros [|n l'] Hl' E; try discriminate.
  - split; intros _; [|constructor]. intros a b. cbn. replace (0 - 0) with 0 by ring.
    rewrite Rabs_R0. apply tol_pos.
  - inversion Hl' as [|? ? Hn Hf' Hl'']; subst. cbn [map] in E. inversion E as [[E1 E2]].
    specialize (IH l' Hl'' E2). split.
    + intros H. inversion H as [|? ? ? ? H1 H2]; subst. apply IH with (a:=0%nat) (b:=0%nat) in H2 as _H.
      intros a b. rewrite !coef_cons. unfold here. rewrite E1.
      destruct (Nat.eqb_spec (mx (malpha n)) a) as [<-|], (Nat.eqb_spec (my (malpha n)) b) as [<-|];
        cbn [andb]; rewrite ?Rplus_0_l; try (apply IH; exact H2).
      rewrite (coef_lt_all l' (malpha n) Hf'). rewrite <- E1, (coef_lt_all l (malpha m) Hf), !Rplus_0_r.
      exact H1.
    + intros H. constructor.
      * specialize (H (mx (malpha m)) (my (malpha m))). rewrite !coef_cons in H.
        unfold here in H. rewrite <- E1, !Nat.eqb_refl in H. cbn [andb] in H.
        rewrite (coef_lt_all l (malpha m) Hf) in H. rewrite E1, (coef_lt_all l' (malpha n) Hf') in H.
        rewrite !Rplus_0_r in H. exact H.
      * apply IH. intros a b. destruct (here m a b) eqn:Hh.
        { apply here_true in Hh. pose proof (coef_lt_all l (malpha m) Hf) as Z1.
          pose proof (coef_lt_all l' (malpha n) Hf') as Z2. rewrite <- E1 in Z2.
          rewrite Hh in Z1, Z2. cbn [mx my] in Z1, Z2. rewrite Z1, Z2.
          replace (0 - 0) with 0 by ring. rewrite Rabs_R0. apply tol_pos. }
        specialize (H a b). rewrite !coef_cons in H. unfold here in *. rewrite <- E1, Hh in H.
        rewrite !Rplus_0_l in H. exact H.
Qed.

Lemma peqb_spec p q : canonical p -> canonical q ->
  (peqb RS p q = true <->
   map malpha p = map malpha q /\ forall a b, Rabs (coef p a b - coef q a b) < tol).
Proof.
  intros Hp Hq. unfold peqb, peq. destruct (Nat.eqb_spec (length p) (length q)) as [E|E].
  - cbn [snd]. rewrite !psort_canonical by assumption. rewrite forallb_combine_eq by exact E.
    split; intros [H1 H2]; (split; [exact H1|]); apply (Forall2_coef_close p q Hp Hq H1); exact H2.
  - cbn [snd]. split; [discriminate|]. intros [H _].
    apply (f_equal (@length mindex)) in H. rewrite !map_length in H. congruence.
Qed.

(** On canonical polynomials the comparison leaves both operands unchanged. *)
Lemma peq_pure p q : canonical p -> canonical q -> fst (peq RS p q) = (p, q).
Proof.
  intros Hp Hq. unfold peq. destruct (Nat.eqb _ _); cbn [fst]; [|reflexivity].
  rewrite !psort_canonical by assumption. reflexivity.
Qed.

Lemma peqb_refl p : canonical p -> peqb RS p p = true.
Proof.
  intros H. apply peqb_spec; try assumption. split; [reflexivity|]. intros a b.
  replace (coef p a b - coef p a b) with 0 by ring. rewrite Rabs_R0. apply tol_pos.
Qed.

Lemma bool_iff_eq (a b : bool) : (a = true <-> b = true) -> a = b.
Proof. destruct a, b; intros [H1 H2]; try reflexivity; [symmetry; auto|auto]. Qed.

Lemma peqb_sym p q : canonical p -> canonical q -> peqb RS p q = peqb RS q p.
Proof.
  intros Hp Hq. apply bool_iff_eq. rewrite !peqb_spec by assumption.
  split; intros [H1 H2]; (split; [congruence|]); intros a b; rewrite Rabs_minus_sym; apply H2.
Qed.

Lemma peqb_near_trans p q r : canonical p -> canonical q -> canonical r ->
  peqb RS p q = true -> peqb RS q r = true ->
  map malpha p = map malpha r /\ forall a b, Rabs (coef p a b - coef r a b) < 2 * tol.
Proof.
  intros Hp Hq Hr H1 H2. apply peqb_spec in H1; try assumption. apply peqb_spec in H2; try assumption.
  destruct H1 as [E1 D1], H2 as [E2 D2]. split; [congruence|]. intros a b.
  specialize (D1 a b). specialize (D2 a b).
  replace (coef p a b - coef r a b) with ((coef p a b - coef q a b) + (coef q a b - coef r a b)) by ring.
  eapply Rle_lt_trans; [apply Rabs_triang|]. lra.
Qed.

(* ---------------------------------------------------------------- *)
(** ** Every expression is canonical *)

Lemma panti_canonical p : canonical (panti_laplacian RS p).
Proof.
  unfold panti_laplacian.
  assert (G : forall l acc, canonical acc -> canonical (fold_left (fun new m => piadd RS new (antilap_mono RS m)) l acc)).
  { induction l as [|m l IH]; intros acc H; cbn [fold_left]; [exact H|]. apply IH, piadd_canonical. }
  apply G. constructor.
Qed.

Lemma pexpr_canonical e : canonical (pexpr_eval e).
Proof.
  induction e; cbn [pexpr_eval]; try apply consolidate_canonical;
    try (apply pscale_canonical; assumption); try (apply pdx_canonical; assumption);
    try (apply pdy_canonical; assumption).
  - apply ppow_canonical.
  - apply pcompose_canonical.
  - apply panti_canonical.
Qed.

Lemma mkpoly_canonical l : canonical (mkpoly RS l).
Proof. apply consolidate_canonical. Qed.

Lemma coef_mkpoly l a b :
  coef (mkpoly RS l) a b
  = cutoff (fold_right (fun t s => match t with (c, i, j) =>
      (if (Nat.eqb i a && Nat.eqb j b)%bool then cutoff c else 0) + s end) 0 l).
Proof.
  unfold mkpoly. rewrite coef_consolidate, fold_add_monomial. cbn [app]. f_equal.
  induction l as [|[[c i] j] l IH]; [reflexivity|]. cbn [map fold_right].
  match goal with |- coef (filter nz (?m :: ?x)) _ _ = _ => change (m :: x) with ([m] ++ x) end.
  rewrite filter_app, coef_app, coef_filter_single, IH. reflexivity.
Qed.

Lemma pset_canonical l p : pset RS l = Ok p -> canonical p.
Proof.
  destruct l as [l|]; cbn [pset]; intros H.
  - unfold bind in H. match type of H with match ?r with _ => _ end = _ => destruct r end;
      inversion H; subst. apply consolidate_canonical.
  - inversion H. constructor.
Qed.

(** A constructor call with well-formed triples succeeds and gives [mkpoly]. *)
Lemma pset_mkpoly (l : list (R * nat * nat)) :
  pset RS (Some (map (fun t => match t with (c, a, b) =>
      Triple RS c (PInt (Z.of_nat a)) (PInt (Z.of_nat b)) end) l)) = Ok (mkpoly RS l).
Proof.
  unfold pset, mkpoly.
  match goal with |- (do x <- fold_res ?f ?L [] ; _) = _ =>
    assert (G : forall acc, fold_res f L acc
      = Ok (fold_left (add_monomial RS) (map (fun t : R * nat * nat => match t with (c, a, b) => Mono (S:=RS) (MI a b) c end) l) acc)) end.
  { induction l as [|[[c a] b] l IH]; intros acc; [reflexivity|].
    cbn [map fold_res]. rewrite mi_set_ok by lia. cbn [bind]. rewrite !Nat2Z.id. rewrite IH. reflexivity. }
  rewrite G. reflexivity.
Qed.

(* ---------------------------------------------------------------- *)
(** ** Distributivity *)

Lemma mulraw_app_l p q r : mulraw (p ++ q) r = mulraw p r ++ mulraw q r.
Proof. unfold mulraw. apply flat_map_app. Qed.

Lemma pmul_distr u v p q r : canonical p -> canonical q -> canonical r -> tol <= u * v -> tol <= u ->
  on_grid u p -> on_grid u q -> on_grid v r ->
  pmul RS (padd RS p q) r = padd RS (pmul RS p r) (pmul RS q r).
Proof.
  intros Hp Hq Hr Huv Hu Gp Gq Gr. apply canonical_ext; [apply pmul_canonical|apply padd_canonical|].
  intros a b.
  assert (Gpq : on_grid u (padd RS p q)) by (apply on_grid_padd; assumption).
  rewrite (coef_pmul_grid u v) by (try apply padd_canonical; assumption).
  rewrite coef_padd by apply pmul_canonical.
  rewrite !(coef_pmul_grid u v) by assumption.
  rewrite (coef_mulraw_ext (padd RS p q) (p ++ q) r r).
  - rewrite mulraw_app_l, coef_app. symmetry.
    rewrite <- coef_app. eapply on_grid_no_drop; [exact Huv|].
    apply on_grid_app; apply on_grid_mulraw; assumption.
  - intros i j. rewrite coef_padd, coef_app by assumption.
    rewrite <- coef_app. eapply on_grid_no_drop; [exact Hu|]. apply on_grid_app; assumption.
  - intros i j; reflexivity.
Qed.

Lemma pmul_assoc u v w p q r : canonical p -> canonical q -> canonical r ->
  tol <= u * v * w -> tol <= u * v -> tol <= v * w ->
  on_grid u p -> on_grid v q -> on_grid w r ->
  pmul RS (pmul RS p q) r = pmul RS p (pmul RS q r).
Proof.
  intros Hp Hq Hr H1 H2 H3 Gp Gq Gr. apply canonical_ext; try apply pmul_canonical.
  intros a b.
  rewrite (coef_pmul_grid (u * v) w) by (try apply pmul_canonical; try apply on_grid_pmul; assumption).
  rewrite (coef_pmul_grid u (v * w)) by (try apply pmul_canonical; try apply on_grid_pmul; try assumption;
    rewrite <- Rmult_assoc; assumption).
  rewrite (coef_mulraw_ext (pmul RS p q) (mulraw p q) r r);
    [|intros i j; apply (coef_pmul_grid u v); assumption|intros i j; reflexivity].
  rewrite (coef_mulraw_ext p p (pmul RS q r) (mulraw q r));
    [|intros i j; reflexivity|intros i j; apply (coef_pmul_grid v w); assumption].
  rewrite mulraw_assoc. reflexivity.
Qed.

Lemma pdiv_value p c x y : canonical p -> c <> 0 ->
  (forall a b, coef p a b / c = 0 \/ tol <= Rabs (coef p a b / c)) ->
  exists q, pdiv_scal RS p c false = Ok q /\ value q x y = value p x y / c.
Proof.
  intros Hp Hc H. eexists. split; [reflexivity|]. cbn [sdiv sone RS].
  rewrite value_pscale; [unfold Rdiv; ring|exact Hp|]. intros a b.
  replace (coef p a b * (1 / c)) with (coef p a b / c) by (unfold Rdiv; ring). apply H.
Qed.
