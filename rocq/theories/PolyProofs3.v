(** The anti-Laplacian. *)
From Coq Require Import List ZArith Reals Lia Lra Arith.
From Verif Require Import PyBase PolyModel PolySpec PolyProofs PolyProofs2.
Import ListNotations.
Open Scope R_scope.

(* ---------------------------------------------------------------- *)
(** ** Formal identities on coefficient tables *)

Definition teq (f g : table) : Prop := forall a b, f a b = g a b.
Definition homog (d : nat) (f : table) : Prop := forall a b, (a + b <> d)%nat -> f a b = 0.
Fixpoint t_iter (op : table -> table) (n : nat) (f : table) : table :=
  match n with O => f | S n' => op (t_iter op n' f) end.

Lemma t_lap_ext f g : teq f g -> teq (t_lap f) (t_lap g).
Proof. intros H a b. unfold t_lap, t_dx, t_dy. rewrite !H. reflexivity. Qed.
Lemma t_r2_ext f g : teq f g -> teq (t_r2 f) (t_r2 g).
Proof. intros H a b. unfold t_r2. rewrite !H. reflexivity. Qed.
Lemma t_iter_r2_ext n f g : teq f g -> teq (t_iter t_r2 n f) (t_iter t_r2 n g).
Proof. intros H. induction n as [|n IH]; cbn [t_iter]; [exact H|]. apply t_r2_ext, IH. Qed.
Lemma t_iter_lap_ext n f g : teq f g -> teq (t_iter t_lap n f) (t_iter t_lap n g).
Proof. intros H. induction n as [|n IH]; cbn [t_iter]; [exact H|]. apply t_lap_ext, IH. Qed.

Lemma t_lap_r2 f a b :
  t_lap (t_r2 f) a b = t_r2 (t_lap f) a b + (4 + 4 * INR (a + b)) * f a b.
Proof.
  unfold t_lap, t_dx, t_dy, t_r2.
  destruct a as [|[|a]]; destruct b as [|[|b]];
    repeat (rewrite Nat.add_1_r || rewrite Nat.add_0_r || rewrite Nat.add_0_l);
    cbn [Nat.leb Nat.sub Nat.add]; rewrite ?Nat.sub_0_r;
    repeat (rewrite Nat.add_succ_r || rewrite Nat.add_0_r);
    rewrite ?S_INR, ?plus_INR; cbn [INR]; try ring.
Qed.

Lemma t_r2_homog d f : homog d f -> homog (d + 2) (t_r2 f).
Proof.
  intros H a b Hab. unfold t_r2.
  destruct (Nat.leb_spec 2 a), (Nat.leb_spec 2 b); rewrite ?H by lia; ring.
Qed.
Lemma t_lap_homog d f : homog (d + 2) f -> homog d (t_lap f).
Proof. intros H a b Hab. unfold t_lap, t_dx, t_dy. rewrite !H by lia. ring. Qed.
Lemma t_lap_homog_low d f : (d < 2)%nat -> homog d f -> teq (t_lap f) (fun _ _ => 0).
Proof. intros Hd H a b. unfold t_lap, t_dx, t_dy. rewrite !H by lia. ring. Qed.
Lemma t_iter_r2_homog d n f : homog d f -> homog (d + 2 * n) (t_iter t_r2 n f).
Proof.
  intros H. induction n as [|n IH]; cbn [t_iter].
  - replace (d + 2 * 0)%nat with d by lia. exact H.
  - replace (d + 2 * S n)%nat with (d + 2 * n + 2)%nat by lia. apply t_r2_homog, IH.
Qed.
Lemma t_iter_lap_homog d n f : homog (d + 2 * n) f -> homog d (t_iter t_lap n f).
Proof.
  revert d. induction n as [|n IH]; intros d H; cbn [t_iter].
  - replace (d + 2 * 0)%nat with d in H by lia. exact H.
  - apply t_lap_homog, IH. replace (d + 2 + 2 * n)%nat with (d + 2 * S n)%nat by lia. exact H.
Qed.

Lemma t_r2_lin f g c a b :
  t_r2 (fun a b => f a b + c * g a b) a b = t_r2 f a b + c * t_r2 g a b.
Proof. unfold t_r2. destruct (Nat.leb 2 a), (Nat.leb 2 b); ring. Qed.
Lemma t_lap_lin f g c a b :
  t_lap (fun a b => f a b + c * g a b) a b = t_lap f a b + c * t_lap g a b.
Proof. unfold t_lap, t_dx, t_dy. ring. Qed.
Lemma t_r2_zero a b : t_r2 (fun _ _ => 0) a b = 0.
Proof. unfold t_r2. destruct (Nat.leb 2 a), (Nat.leb 2 b); ring. Qed.

(** Lap (R^(j+1) f) = R^(j+1) (Lap f) + 4 (j+1)(d+j+1) R^j f for f of degree d. *)
Lemma t_lap_iter_r2 d f j : homog d f -> teq (t_lap (t_iter t_r2 (S j) f))
  (fun a b => t_iter t_r2 (S j) (t_lap f) a b
              + 4 * INR (S j) * INR (d + S j) * t_iter t_r2 j f a b).
Proof.
  intros Hf. induction j as [|j IH]; intros a b.
  - cbn [t_iter]. rewrite t_lap_r2.
    destruct (Nat.eq_dec (a + b) d) as [<-|N].
    + rewrite (plus_INR (a + b) 1). cbn [INR]. ring.
    + rewrite (Hf a b N). ring.
  - change (t_iter t_r2 (S (S j)) f) with (t_r2 (t_iter t_r2 (S j) f)).
    rewrite t_lap_r2. rewrite (t_r2_ext _ _ IH a b), t_r2_lin.
    change (t_iter t_r2 (S (S j)) (t_lap f)) with (t_r2 (t_iter t_r2 (S j) (t_lap f))).
    change (t_r2 (t_iter t_r2 j f)) with (t_iter t_r2 (S j) f).
    destruct (Nat.eq_dec (a + b) (d + 2 * S j)) as [E|N].
    + rewrite E. rewrite !plus_INR, mult_INR, !S_INR. cbn [INR]. ring.
    + rewrite (t_iter_r2_homog d (S j) f Hf a b N). ring.
Qed.

(* ---------------------------------------------------------------- *)
(** ** The scale factors *)

(** s_k of the code for a monomial of order [d] *)
Fixpoint al_s (d k : nat) : R :=
  match k with
  | O => 1 / 4 / IZR (Z.of_nat (1 + d))
  | S k' => al_s d k' * (-1 / 4 / IZR (Z.of_nat ((k + 1) * (d + 1 - k))))
  end.

Lemma al_s_step d k : (S k <= d)%nat ->
  al_s d (S k) * (4 * INR (S (S k)) * INR (d - k)) = - al_s d k.
Proof.
  intros Hk. cbn [al_s]. rewrite <- INR_IZR_INZ, mult_INR.
  replace (S k + 1)%nat with (S (S k)) by lia. replace (d + 1 - S k)%nat with (d - k)%nat by lia.
  assert (INR (S (S k)) <> 0) by (apply not_0_INR; lia).
  assert (INR (d - k) <> 0) by (apply not_0_INR; lia).
  field. split; assumption.
Qed.

Lemma al_s_0 d : al_s d 0 * (4 * INR (S d)) = 1.
Proof.
  cbn [al_s]. rewrite <- INR_IZR_INZ. cbn [Nat.add].
  assert (INR (S d) <> 0) by (apply not_0_INR; lia). field. assumption.
Qed.

(** Each factor is an integer multiple of the last one. *)
Lemma al_s_multiple d n k : (n <= d)%nat -> (k <= n)%nat ->
  exists z, al_s d k = al_s d n * IZR z.
Proof.
  intros Hd Hk. induction Hk as [|n Hk IH].
  - exists 1%Z. ring.
  - destruct IH as [z Hz]; [lia|]. pose proof (al_s_step d n ltac:(lia)) as E.
    exists (- (4 * Z.of_nat (S (S n)) * Z.of_nat (d - n)) * z)%Z.
    rewrite Hz, mult_IZR, opp_IZR, !mult_IZR, <- !INR_IZR_INZ.
    replace (al_s d n) with (- - al_s d n) by ring. rewrite <- E. ring.
Qed.

Lemma al_s_abs d k : (k <= d)%nat ->
  Rabs (al_s d k) * (4 ^ (k + 1) * INR (fact (k + 1)) * INR (fact (d + 1))) = INR (fact (d - k)).
Proof.
  induction k as [|k IH]; intros Hk.
  - rewrite Nat.sub_0_r, Nat.add_0_l. change (INR (fact 1)) with 1. rewrite pow_1.
    rewrite Nat.add_1_r. change (fact (S d)) with ((S d) * fact d)%nat.
    rewrite mult_INR. pose proof (al_s_0 d) as E.
    assert (0 < al_s d 0).
    { cbn [al_s]. rewrite <- INR_IZR_INZ. cbn [Nat.add]. pose proof (lt_0_INR (S d) ltac:(lia)).
      unfold Rdiv. repeat apply Rmult_lt_0_compat; try lra; apply Rinv_0_lt_compat; lra. }
    rewrite Rabs_right by lra.
    replace (al_s d 0 * (4 * 1 * (INR (S d) * INR (fact d))))
      with (al_s d 0 * (4 * INR (S d)) * INR (fact d)) by ring. rewrite E. ring.
  - specialize (IH ltac:(lia)). pose proof (al_s_step d k Hk) as E.
    assert (E' : Rabs (al_s d (S k)) * (4 * INR (S (S k)) * INR (d - k)) = Rabs (al_s d k)).
    { rewrite <- (Rabs_Ropp (al_s d k)), <- E, Rabs_mult. f_equal. symmetry. apply Rabs_right.
      pose proof (pos_INR (S (S k))). pose proof (pos_INR (d - k)). nra. }
    rewrite <- E' in IH.
    replace (d - k)%nat with (S (d - S k)) in IH by lia.
    change (fact (S (d - S k))) with (S (d - S k) * fact (d - S k))%nat in IH.
    rewrite mult_INR in IH.
    assert (Hn : INR (S (d - S k)) <> 0) by (apply not_0_INR; lia).
    apply Rmult_eq_reg_l with (INR (S (d - S k))); [|exact Hn].
    rewrite <- IH. rewrite !Nat.add_1_r. cbn [pow].
    change (fact (S (S k))) with (S (S k) * fact (S k))%nat. rewrite mult_INR. ring.
Qed.

Lemma al_s_unit d : Rabs (al_s d (d / 2)) = al_unit d.
Proof.
  unfold al_unit. rewrite <- (al_s_abs d (d / 2)) by (apply Nat.div_le_upper_bound; lia).
  assert (4 ^ (d / 2 + 1) <> 0) by (apply pow_nonzero; lra).
  pose proof (INR_fact_neq_0 (d / 2 + 1)). pose proof (INR_fact_neq_0 (d + 1)).
  field. auto.
Qed.

Lemma al_unit_pos d : 0 < al_unit d.
Proof.
  unfold al_unit, Rdiv. apply Rmult_lt_0_compat; [apply INR_fact_lt_0|].
  apply Rinv_0_lt_compat. repeat apply Rmult_lt_0_compat; try apply INR_fact_lt_0.
  apply pow_lt; lra.
Qed.

(* ---------------------------------------------------------------- *)
(** ** The formal anti-Laplacian *)

Definition al_term (d : nat) (f : table) (k : nat) : table :=
  fun a b => al_s d k * t_iter t_r2 (S k) (t_iter t_lap k f) a b.
Fixpoint al_sum (d : nat) (f : table) (n : nat) : table :=
  match n with
  | O => al_term d f 0
  | S n' => fun a b => al_sum d f n' a b + al_term d f n a b
  end.

Lemma t_lap_scal c f a b : t_lap (fun a b => c * f a b) a b = c * t_lap f a b.
Proof. unfold t_lap, t_dx, t_dy. ring. Qed.
Lemma t_lap_plus f g a b : t_lap (fun a b => f a b + g a b) a b = t_lap f a b + t_lap g a b.
Proof. unfold t_lap, t_dx, t_dy. ring. Qed.

Lemma t_lap_term d f k : (2 * k <= d)%nat -> homog d f -> teq (t_lap (al_term d f k))
  (fun a b => al_s d k * t_iter t_r2 (S k) (t_iter t_lap (S k) f) a b
     + al_s d k * (4 * INR (S k) * INR (S d - k)) * t_iter t_r2 k (t_iter t_lap k f) a b).
Proof.
  intros Hk Hf a b. unfold al_term. rewrite t_lap_scal.
  rewrite (t_lap_iter_r2 (d - 2 * k) (t_iter t_lap k f) k).
  - cbn [t_iter]. replace (d - 2 * k + S k)%nat with (S d - k)%nat by lia. ring.
  - apply t_iter_lap_homog. replace (d - 2 * k + 2 * k)%nat with d by lia. exact Hf.
Qed.

Lemma t_lap_al_sum d f n : (2 * n <= d)%nat -> homog d f -> teq (t_lap (al_sum d f n))
  (fun a b => f a b + al_s d n * t_iter t_r2 (S n) (t_iter t_lap (S n) f) a b).
Proof.
  intros Hn Hf. induction n as [|n IH]; intros a b.
  - cbn [al_sum]. rewrite (t_lap_term d f 0 Hn Hf). rewrite Nat.sub_0_r.
    replace (al_s d 0 * (4 * INR 1 * INR (S d))) with (al_s d 0 * (4 * INR (S d)))
      by (cbn [INR]; ring).
    rewrite al_s_0. cbn [t_iter]. ring.
  - cbn [al_sum]. rewrite t_lap_plus, IH by lia.
    rewrite (t_lap_term d f (S n) Hn Hf).
    replace (S d - S n)%nat with (d - n)%nat by lia.
    rewrite (al_s_step d n) by lia. ring.
Qed.

Lemma t_iter_lap_high d n f : (d < 2 * n)%nat -> homog d f -> teq (t_iter t_lap n f) (fun _ _ => 0).
Proof.
  revert d f. induction n as [|n IH]; intros d f Hd Hf; [lia|].
  cbn [t_iter]. destruct (Nat.lt_ge_cases d (2 * n)) as [L|L].
  - intros a b. rewrite (t_lap_ext _ _ (IH d f L Hf)). unfold t_lap, t_dx, t_dy. ring.
  - apply (t_lap_homog_low (d - 2 * n)); [lia|]. apply t_iter_lap_homog.
    replace (d - 2 * n + 2 * n)%nat with d by lia. exact Hf.
Qed.

Lemma t_iter_r2_zero n a b : t_iter t_r2 n (fun _ _ => 0) a b = 0.
Proof.
  revert a b. induction n as [|n IH]; intros a b; cbn [t_iter]; [reflexivity|].
  rewrite (t_r2_ext _ (fun _ _ => 0)) by (intros i j; apply IH). apply t_r2_zero.
Qed.

Lemma al_sum_correct d f : homog d f -> teq (t_lap (al_sum d f (d / 2))) f.
Proof.
  intros Hf a b.
  assert (Hd : (2 * (d / 2) <= d < 2 * S (d / 2))%nat).
  { pose proof (Nat.div_mod d 2 ltac:(lia)). pose proof (Nat.mod_upper_bound d 2 ltac:(lia)). lia. }
  rewrite (t_lap_al_sum d f (d / 2) ltac:(lia) Hf).
  rewrite (t_iter_r2_ext (S (d / 2)) _ (fun _ _ => 0)) by (apply (t_iter_lap_high d); [lia|exact Hf]).
  rewrite t_iter_r2_zero. ring.
Qed.

Lemma al_sum_homog d f n : (2 * n <= d)%nat -> homog d f -> homog (d + 2) (al_sum d f n).
Proof.
  intros Hn Hf.
  assert (Ht : forall k, (2 * k <= d)%nat -> homog (d + 2) (al_term d f k)).
  { intros k Hk a b Hab. unfold al_term.
    rewrite (t_iter_r2_homog (d - 2 * k) (S k)); [ring| |lia].
    apply t_iter_lap_homog. replace (d - 2 * k + 2 * k)%nat with d by lia. exact Hf. }
  induction n as [|n IH]; cbn [al_sum]; [apply Ht; lia|].
  intros a b Hab. rewrite (IH ltac:(lia) a b Hab), (Ht (S n) Hn a b Hab). ring.
Qed.

(* ---------------------------------------------------------------- *)
(** ** The code computes the formal anti-Laplacian *)

Definition r2list : rpoly := [rmon 1 2 0; rmon 1 0 2].

Lemma cutoff_1 : cutoff 1 = 1.
Proof. apply cutoff_id. rewrite Rabs_R1. unfold tol. lra. Qed.

Lemma r2list_canonical : canonical r2list.
Proof.
  assert (tol <= Rabs 1) by (rewrite Rabs_R1; unfold tol; lra).
  constructor; [assumption| |constructor; [assumption|constructor|constructor]].
  constructor; [|constructor]. right. cbn. lia.
Qed.

Lemma mi_of_idx_3 : mi_of_idx 3 = MI 2 0. Proof. reflexivity. Qed.
Lemma mi_of_idx_5 : mi_of_idx 5 = MI 0 2. Proof. reflexivity. Qed.

Lemma coef_add_with_idx p c k a b : canonical p ->
  coef (add_monomial_with_idx RS p c k) a b
  = cutoff (coef p a b +
      (if (Nat.eqb (mx (mi_of_idx k)) a && Nat.eqb (my (mi_of_idx k)) b)%bool then cutoff c else 0)).
Proof.
  intros Hp. unfold add_monomial_with_idx. rewrite coef_consolidate, add_monomial_app, coef_app.
  rewrite coef_filter_single. reflexivity.
Qed.

Lemma p_r2_eq : p_r2 RS = r2list.
Proof.
  apply canonical_ext; [apply consolidate_canonical|apply r2list_canonical|].
  intros a b. unfold p_r2. rewrite coef_consolidate.
  rewrite coef_add_with_idx by apply consolidate_canonical.
  rewrite coef_add_with_idx by constructor.
  rewrite mi_of_idx_3, mi_of_idx_5. cbn [mx my sone RS coef r2list rmon malpha mcoef].
  rewrite cutoff_1, Rplus_0_l, Rplus_0_r.
  assert (E1 : forall c : bool, cutoff (if c then 1 else 0) = if c then 1 else 0)
    by (intros []; [apply cutoff_1|apply cutoff_zero]).
  rewrite E1.
  destruct (Nat.eqb_spec 2 a) as [<-|]; cbn [andb Nat.eqb]; rewrite ?Rplus_0_r, ?Rplus_0_l, ?E1; try reflexivity.
Qed.

Lemma r2_on_grid : on_grid 1 r2list.
Proof. intros m [<-|[<-|[]]]; exists 1%Z; cbn [rmon mcoef]; symmetry; apply Rmult_1_l. Qed.

Lemma coef_mulraw_r2 l : teq (coef (mulraw r2list l)) (t_r2 (coef l)).
Proof.
  intros a b. unfold mulraw, r2list. cbn [flat_map]. rewrite app_nil_r, coef_app, !coef_map_mul.
  cbn [rmon malpha mcoef mx my]. unfold t_r2. rewrite !Nat.sub_0_r.
  change (Nat.leb 0 b) with true. change (Nat.leb 0 a) with true.
  rewrite Bool.andb_true_r, Bool.andb_true_l. destruct (Nat.leb 2 a), (Nat.leb 2 b); rring.
Qed.

(** Powers of x^2 + y^2, expanded without consolidation. *)
Fixpoint r2pow (j : nat) : rpoly :=
  match j with O => r2list | S j' => mulraw (r2pow j') r2list end.

Lemma coef_mulraw_ext p p' q q' : teq (coef p) (coef p') -> teq (coef q) (coef q') ->
  teq (coef (mulraw p q)) (coef (mulraw p' q')).
Proof.
  intros H1 H2 a b. rewrite !coef_mulraw. unfold t_mul.
  apply sum_ext; intros i _. apply sum_ext; intros j _. rewrite H1, H2. reflexivity.
Qed.

Lemma t_iter_comm j f : t_iter t_r2 j (t_r2 f) = t_iter t_r2 (S j) f.
Proof. induction j as [|j IH]; [reflexivity|]. cbn [t_iter] in *. rewrite IH. reflexivity. Qed.

Lemma coef_r2pow j l : teq (coef (mulraw (r2pow j) l)) (t_iter t_r2 (S j) (coef l)).
Proof.
  revert l. induction j as [|j IH]; intros l a b; cbn [r2pow].
  - apply coef_mulraw_r2.
  - rewrite mulraw_assoc, IH. rewrite (t_iter_r2_ext (S j) _ _ (coef_mulraw_r2 l)).
    rewrite t_iter_comm. reflexivity.
Qed.

Lemma on_grid_abs c l : on_grid c l -> on_grid (Rabs c) l.
Proof.
  intros H m Hm. destruct (H m Hm) as [z Hz]. unfold Rabs. destruct (Rcase_abs c).
  - exists (- z)%Z. rewrite opp_IZR, Hz. rring.
  - exists z. exact Hz.
Qed.

Section OneMonomial.
Variable m : rmono.
Let d := (mx (malpha m) + my (malpha m))%nat.
Let c : R := mcoef m.
Let f : table := coef [m].
Hypothesis Hc : tol <= Rabs c * al_unit d.

Lemma al_unit_le1 : al_unit d <= 1.
Proof.
  rewrite <- al_s_unit. set (k := (d / 2)%nat). assert (Hk : (k <= d)%nat) by (apply Nat.div_le_upper_bound; lia).
  clearbody k. induction k as [|k IH].
  - pose proof (al_s_0 d) as E. assert (1 <= INR (S d)) by (replace 1 with (INR 1) by reflexivity; apply le_INR; lia).
    assert (0 < al_s d 0) by nra. rewrite Rabs_right by lra. nra.
  - specialize (IH ltac:(lia)). pose proof (al_s_step d k Hk) as E.
    assert (H1 : 1 <= INR (S (S k))) by (replace 1 with (INR 1) by reflexivity; apply le_INR; lia).
    assert (H2 : 1 <= INR (d - k)) by (replace 1 with (INR 1) by reflexivity; apply le_INR; lia).
    assert (E' : Rabs (al_s d (S k)) * (4 * INR (S (S k)) * INR (d - k)) = Rabs (al_s d k)).
    { rewrite <- (Rabs_Ropp (al_s d k)), <- E, Rabs_mult. f_equal. symmetry. apply Rabs_right. nra. }
    pose proof (Rabs_pos (al_s d (S k))). assert (1 <= 4 * INR (S (S k)) * INR (d - k)) by nra. nra.
Qed.

Lemma c_big : tol <= Rabs c.
Proof. pose proof al_unit_le1. pose proof (al_unit_pos d). pose proof (Rabs_pos c). nra. Qed.

Lemma f_homog : homog d f.
Proof.
  intros a b Hab. unfold f. cbn [coef].
  destruct (Nat.eqb_spec (mx (malpha m)) a), (Nat.eqb_spec (my (malpha m)) b); cbn [andb]; try ring.
  exfalso. apply Hab. unfold d. lia.
Qed.

Lemma single_canonical : canonical [m].
Proof. constructor; [exact c_big|constructor|constructor]. Qed.

(** Coefficients of the partial sums are multiples of the last scale factor. *)
Definition fine (t : table) : Prop := forall a b, exists z, t a b = Rabs c * al_unit d * IZR z.

Lemma fine_plus s t : fine s -> fine t -> fine (fun a b => s a b + t a b).
Proof.
  intros Hs Ht a b. destruct (Hs a b) as [z ->], (Ht a b) as [w ->].
  exists (z + w)%Z. rewrite plus_IZR. ring.
Qed.

Lemma fine_cutoff t : fine t -> forall a b, cutoff (t a b) = t a b.
Proof. intros H a b. destruct (H a b) as [z ->]. apply grid_cutoff, Hc. Qed.

(** State of the loop after [k] iterations. *)
Record al_inv (k : nat) (pk lk : rpoly) (scale : R) (acc : rpoly) : Prop := {
  iv_pk_can : canonical pk;
  iv_pk_grid : on_grid 1 pk;
  iv_pk_coef : teq (coef pk) (coef (r2pow k));
  iv_lk_can : canonical lk;
  iv_lk_grid : on_grid (Rabs c) lk;
  iv_lk_coef : teq (coef lk) (t_iter t_lap k f);
  iv_scale : scale = al_s d k;
  iv_acc_can : canonical acc;
  iv_acc_coef : teq (coef acc) (al_sum d f k);
  iv_acc_fine : fine (al_sum d f k)
}.

Lemma scale_multiple k : (k <= d / 2)%nat -> exists z, al_s d k = al_unit d * IZR z.
Proof.
  intros Hk. assert (Hd : (d / 2 <= d)%nat) by (apply Nat.div_le_upper_bound; lia).
  destruct (al_s_multiple d (d / 2) k Hd Hk) as [z Hz].
  rewrite Hz, <- al_s_unit. unfold Rabs. destruct (Rcase_abs _).
  - exists (- z)%Z. rewrite opp_IZR. ring.
  - exists z. ring.
Qed.

Lemma term_ok k pk lk : (k <= d / 2)%nat ->
  canonical pk -> on_grid 1 pk -> teq (coef pk) (coef (r2pow k)) ->
  canonical lk -> on_grid (Rabs c) lk -> teq (coef lk) (t_iter t_lap k f) ->
  canonical (pscale RS (pmul RS pk lk) (al_s d k)) /\
  teq (coef (pscale RS (pmul RS pk lk) (al_s d k))) (al_term d f k) /\
  fine (al_term d f k).
Proof.
  intros Hk Cp Gp Ep Cl Gl El. pose proof c_big as Hcb.
  assert (Gm : on_grid (1 * Rabs c) (pmul RS pk lk)) by (apply on_grid_pmul; assumption).
  assert (Em : teq (coef (pmul RS pk lk)) (t_iter t_r2 (S k) (t_iter t_lap k f))).
  { intros a b. rewrite (coef_pmul_grid 1 (Rabs c)) by (try assumption; lra).
    rewrite (coef_mulraw_ext _ (r2pow k) _ lk Ep (fun a b => eq_refl) a b).
    rewrite coef_r2pow. apply t_iter_r2_ext, El. }
  assert (Hf : fine (al_term d f k)).
  { intros a b. unfold al_term. destruct (scale_multiple k Hk) as [z Hz].
    rewrite <- (Em a b). destruct (on_grid_coef _ _ a b Gm) as [w Hw]. rewrite Hw, Hz.
    exists (z * w)%Z. rewrite mult_IZR. ring. }
  split; [apply pscale_canonical, pmul_canonical|]. split; [|exact Hf].
  intros a b. rewrite coef_pscale by apply pmul_canonical. rewrite (Em a b), Rmult_comm.
  apply (fine_cutoff _ Hf a b).
Qed.

Lemma antilap_loop_ok n k pk lk scale acc : (k + n <= d / 2)%nat -> al_inv k pk lk scale acc ->
  let r := antilap_loop RS n (S k) d pk lk scale acc in
  canonical r /\ teq (coef r) (al_sum d f (k + n)) /\ fine (al_sum d f (k + n)).
Proof.
  revert k pk lk scale acc. induction n as [|n IH]; intros k pk lk scale acc Hk Hi.
  - rewrite Nat.add_0_r. cbn [antilap_loop]. destruct Hi. auto.
  - cbn [antilap_loop]. replace (k + S n)%nat with (S k + n)%nat by lia.
    apply IH; [lia|]. clear IH. destruct Hi as [Cp Gp Ep Cl Gl El Es Ca Ea Fa].
    rewrite p_r2_eq. pose proof c_big as Hcb.
    assert (Cp' : canonical (pmul RS pk r2list)) by apply pmul_canonical.
    assert (Gp' : on_grid 1 (pmul RS pk r2list)).
    { replace 1 with (1 * 1) by ring. apply on_grid_pmul; [exact Gp|apply r2_on_grid]. }
    assert (Ep' : teq (coef (pmul RS pk r2list)) (coef (r2pow (S k)))).
    { intros a b. rewrite (coef_pmul_grid 1 1); try assumption; try apply r2list_canonical;
        try apply r2_on_grid; [|unfold tol; lra].
      cbn [r2pow]. apply coef_mulraw_ext; [exact Ep|intros i j; reflexivity]. }
    assert (Cl' : canonical (plaplacian RS lk)) by apply plap_canonical.
    assert (Gl' : on_grid (Rabs c) (plaplacian RS lk)) by (apply on_grid_plap; assumption).
    assert (El' : teq (coef (plaplacian RS lk)) (t_iter t_lap (S k) f)).
    { intros a b. rewrite (coef_plap_grid (Rabs c)) by assumption.
      cbn [t_iter]. apply t_lap_ext, El. }
    assert (Es' : smul RS scale
        (sdiv RS (sdiv RS (sofZ RS (-1)) (sofZ RS 4)) (sofZ RS (Z.of_nat ((S k + 1) * (d + 1 - S k)))))
        = al_s d (S k)).
    { rewrite Es. reflexivity. }
    rewrite Es'.
    destruct (term_ok (S k) _ _ ltac:(lia) Cp' Gp' Ep' Cl' Gl' El') as (Ct & Et & Ft).
    assert (Fs : fine (al_sum d f (S k))) by (cbn [al_sum]; apply fine_plus; assumption).
    constructor; try assumption; try reflexivity.
    + apply piadd_canonical.
    + intros a b. rewrite coef_piadd by exact Ct. rewrite (Ea a b), (Et a b).
      apply (fine_cutoff _ Fs a b).
Qed.

Lemma antilap_mono_ok :
  canonical (antilap_mono RS m) /\ teq (coef (antilap_mono RS m)) (al_sum d f (d / 2)) /\
  fine (al_sum d f (d / 2)).
Proof.
  unfold antilap_mono. fold d. change (morder (malpha m)) with d.
  assert (Epk : pcopy RS (p_r2 RS) = r2list).
  { rewrite p_r2_eq. unfold pcopy, add_monomials. rewrite fold_add_monomial. cbn [app].
    rewrite filter_nz_canonical by apply r2list_canonical. apply consolidate_id, r2list_canonical. }
  assert (Elk : add_monomial RS [] m = [m]).
  { rewrite add_monomial_app. cbn [app]. apply filter_all_nz. intros n [<-|[]]. exact c_big. }
  rewrite Epk, Elk.
  assert (Es : sdiv RS (sdiv RS (sone RS) (sofZ RS 4)) (sofZ RS (Z.of_nat (1 + d))) = al_s d 0) by reflexivity.
  rewrite Es.
  assert (Gl : on_grid (Rabs c) [m]).
  { apply on_grid_abs. intros n [<-|[]]. exists 1%Z. symmetry. apply Rmult_1_r. }
  destruct (term_ok 0 r2list [m]) as (Ct & Et & Ft).
  - lia.
  - apply r2list_canonical.
  - apply r2_on_grid.
  - intros a b; reflexivity.
  - apply single_canonical.
  - exact Gl.
  - intros a b; reflexivity.
  - apply (antilap_loop_ok (d / 2) 0); [lia|].
    constructor; try assumption; try reflexivity.
    + apply r2list_canonical.
    + apply r2_on_grid.
    + intros a b; reflexivity.
    + apply single_canonical.
    + intros a b; reflexivity.
Qed.
End OneMonomial.

(* ---------------------------------------------------------------- *)
(** ** The whole polynomial *)

Definition order (m : rmono) : nat := (mx (malpha m) + my (malpha m))%nat.

Definition al_table (p : rpoly) : table :=
  fun a b => fold_right (fun (m : rmono) s => al_sum (order m) (coef [m]) (order m / 2) a b + s) 0 p.

Section Whole.
Variable u : nat -> R.

Let U (n : nat) : R := u (n - 2)%nat * al_unit (n - 2).
Definition gfine (t : table) : Prop :=
  forall a b, t a b = 0 \/ (exists z, t a b = U (a + b) * IZR z /\ tol <= U (a + b)).

Lemma gfine_cutoff t a b : gfine t -> cutoff (t a b) = t a b.
Proof.
  intros H. destruct (H a b) as [->|(z & -> & Hz)]; [apply cutoff_zero|apply grid_cutoff, Hz].
Qed.

Lemma gfine_plus s t : gfine s -> gfine t -> gfine (fun a b => s a b + t a b).
Proof.
  intros Hs Ht a b. destruct (Hs a b) as [E|(z & E & Hz)], (Ht a b) as [F|(w & F & Hw)]; rewrite E, F.
  - left; ring.
  - right. exists w. split; [ring|exact Hw].
  - right. exists z. split; [ring|exact Hz].
  - right. exists (z + w)%Z. rewrite plus_IZR. split; [ring|exact Hz].
Qed.

Lemma mono_gfine (m : rmono) : tol <= Rabs (mcoef m : R) ->
  (exists z : Z, (mcoef m : R) = u (order m) * IZR z) -> tol <= u (order m) * al_unit (order m) ->
  canonical (antilap_mono RS m) /\
  teq (coef (antilap_mono RS m)) (al_sum (order m) (coef [m]) (order m / 2)) /\
  gfine (al_sum (order m) (coef [m]) (order m / 2)).
Proof.
  intros Hb [z Hz] Hu. pose proof tol_pos. pose proof (al_unit_pos (order m)) as Hpos.
  assert (Hupos : 0 < u (order m)) by nra.
  assert (Hc : tol <= Rabs (mcoef m : R) * al_unit (order m)).
  { eapply Rle_trans; [exact Hu|]. apply Rmult_le_compat_r; [lra|].
    rewrite Hz. destruct (grid_mul_abs (u (order m)) z) as [E|E]; [lra| |exact E].
    rewrite Hz, E, Rabs_R0 in Hb. lra. }
  destruct (antilap_mono_ok m Hc) as (C & E & F). split; [exact C|]. split; [exact E|].
  intros a b. destruct (Nat.eq_dec (a + b) (order m + 2)) as [Eab|N].
  - right. unfold U. rewrite Eab. replace (order m + 2 - 2)%nat with (order m) by lia.
    destruct (F a b) as [w Hw]. unfold order. rewrite Hw. fold (order m).
    assert (exists s, Rabs (mcoef m : R) = u (order m) * IZR s) as [s Hs].
    { rewrite Hz. unfold Rabs. destruct (Rcase_abs _).
      - exists (- z)%Z. rewrite opp_IZR. ring.
      - exists z. reflexivity. }
    rewrite Hs. exists (s * w)%Z. rewrite mult_IZR. split; [ring|exact Hu].
  - left. apply al_sum_homog; [|apply f_homog|exact N].
    pose proof (Nat.div_mod (order m) 2 ltac:(lia)). lia.
Qed.

Lemma panti_ok p : canonical p -> graded_grid u p ->
  (forall m : rmono, In m p -> tol <= u (order m) * al_unit (order m)) ->
  canonical (panti_laplacian RS p) /\ teq (coef (panti_laplacian RS p)) (al_table p).
Proof.
  intros Hp Hg Hu. unfold panti_laplacian.
  assert (G : forall l acc t, (forall m, In m l -> In m p) -> canonical acc -> teq (coef acc) t -> gfine t ->
    let r := fold_left (fun new m => piadd RS new (antilap_mono RS m)) l acc in
    canonical r /\ teq (coef r) (fun a b => t a b + al_table l a b)).
  { induction l as [|m l IH]; intros acc t Hl Ca Ea Fa; cbn [fold_left].
    - split; [exact Ca|]. intros a b. rewrite Ea. cbn [al_table fold_right]. ring.
    - destruct (mono_gfine m) as (Cm & Em & Fm).
      + eapply canonical_In; [exact Hp|]. apply Hl; left; reflexivity.
      + apply Hg, Hl; left; reflexivity.
      + apply Hu, Hl; left; reflexivity.
      + set (t' := fun a b => t a b + al_sum (order m) (coef [m]) (order m / 2) a b).
        assert (Ft : gfine t') by (apply gfine_plus; assumption).
        destruct (IH (piadd RS acc (antilap_mono RS m)) t') as [C E].
        * intros n Hn. apply Hl; right; exact Hn.
        * apply piadd_canonical.
        * intros a b. rewrite coef_piadd by exact Cm. rewrite (Ea a b), (Em a b).
          apply (gfine_cutoff t' a b Ft).
        * exact Ft.
        * split; [exact C|]. intros a b. rewrite (E a b). unfold t', al_table. cbn [fold_right]. ring. }
  destruct (G p [] (fun _ _ => 0)) as [C E].
  - auto.
  - constructor.
  - intros a b; reflexivity.
  - intros a b; left; reflexivity.
  - split; [exact C|]. intros a b. rewrite (E a b). ring.
Qed.

Lemma t_lap_al_table p : teq (t_lap (al_table p)) (coef p).
Proof.
  induction p as [|m p IH]; intros a b.
  - unfold al_table. cbn [fold_right coef]. unfold t_lap, t_dx, t_dy. ring.
  - rewrite (t_lap_ext (al_table (m :: p))
      (fun a b => al_sum (order m) (coef [m]) (order m / 2) a b + al_table p a b)) by (intros i j; reflexivity).
    rewrite t_lap_plus, IH, (al_sum_correct (order m) (coef [m]) (f_homog m)).
    cbn [coef]. ring.
Qed.

Lemma antilap_roundtrip p : canonical p -> graded_grid u p ->
  (forall m : rmono, In m p -> tol <= u (order m) * al_unit (order m)) ->
  plaplacian RS (panti_laplacian RS p) = p.
Proof.
  intros Hp Hg Hu. destruct (panti_ok p Hp Hg Hu) as [C E].
  apply canonical_ext; [apply plap_canonical|exact Hp|].
  intros a b. rewrite coef_plap by exact C.
  rewrite (t_lap_ext _ _ E a b), t_lap_al_table. apply canonical_cutoff, Hp.
Qed.
End Whole.
