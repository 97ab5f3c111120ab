(** What the cutoff of the coefficients costs: errors of anti_laplacian for arbitrary polynomials. *)
From Coq Require Import List ZArith Reals Lia Lra Bool.
From Verif Require Import PyBase PolyModel PolySpec PolyProofs PolyProofs2 PolyProofs3 PolyProofs4.
Import List ListNotations.
Open Scope R_scope.

Lemma cutoff_near x y e : Rabs (x - y) <= e -> Rabs (cutoff x - y) <= e + tol.
Proof. intros E. pose proof (cutoff_err x). replace (cutoff x - y) with ((cutoff x - x) + (x - y)) by ring. eapply Rle_trans; [apply Rabs_triang|]. lra. Qed.

(** ** One monomial *)
Section OneMonomial.
Variable m : rmono.
Let d := order m.
Let c : R := mcoef m.
Let f : table := coef [m].
Hypothesis Hc : tol <= Rabs c.

Lemma one_homog : homog d f.
Proof. intros a b Hab. unfold f. cbn [coef]. destruct (Nat.eqb_spec (mx (malpha m)) a), (Nat.eqb_spec (my (malpha m)) b); cbn [andb]; try ring. exfalso. apply Hab. unfold d, order. lia. Qed.
Lemma one_canonical : canonical [m].
Proof. constructor; [exact Hc|constructor|constructor]. Qed.

Definition off (k : nat) (acc : rpoly) : Prop := canonical acc /\ homog (d + 2) (coef acc) /\ forall a b, Rabs (coef acc a b - al_sum d f k a b) <= (2 * INR k + 1) * tol.
Record err_inv (k : nat) (pk lk : rpoly) (scale : R) (acc : rpoly) : Prop := {
  ei_pk_can : canonical pk; ei_pk_grid : on_grid 1 pk; ei_pk_coef : teq (coef pk) (coef (r2pow k));
  ei_lk_can : canonical lk; ei_lk_grid : on_grid (Rabs c) lk; ei_lk_coef : teq (coef lk) (t_iter t_lap k f);
  ei_scale : scale = al_s d k; ei_acc : off k acc }.

Lemma err_term k pk lk : (2 * k <= d)%nat ->
  canonical pk -> on_grid 1 pk -> teq (coef pk) (coef (r2pow k)) -> canonical lk -> on_grid (Rabs c) lk -> teq (coef lk) (t_iter t_lap k f) ->
  canonical (pscale RS (pmul RS pk lk) (al_s d k)) /\ homog (d + 2) (coef (pscale RS (pmul RS pk lk) (al_s d k))) /\ forall a b, Rabs (coef (pscale RS (pmul RS pk lk) (al_s d k)) a b - al_term d f k a b) <= tol.
Proof.
  intros Hk Cp Gp Ep Cl Gl El.
  assert (Em : teq (coef (pmul RS pk lk)) (t_iter t_r2 (S k) (t_iter t_lap k f))).
  { intros a b. rewrite (coef_pmul_grid 1 (Rabs c)) by (try assumption; lra). rewrite (coef_mulraw_ext _ (r2pow k) _ lk Ep (fun a b => eq_refl) a b). rewrite coef_r2pow. apply t_iter_r2_ext, El. }
  assert (HH : homog (d + 2) (t_iter t_r2 (S k) (t_iter t_lap k f))).
  { replace (d + 2)%nat with ((d - 2 * k) + 2 * S k)%nat by lia. apply t_iter_r2_homog, t_iter_lap_homog. replace (d - 2 * k + 2 * k)%nat with d by lia. apply one_homog. }
  split; [apply pscale_canonical, pmul_canonical|]. split.
  - intros a b N. rewrite coef_pscale by apply pmul_canonical. rewrite (Em a b), (HH a b N), Rmult_0_l. apply cutoff_zero.
  - intros a b. rewrite coef_pscale by apply pmul_canonical. rewrite (Em a b), Rmult_comm. apply cutoff_err.
Qed.

Lemma err_loop n k pk lk scale acc : (2 * (k + n) <= d)%nat -> err_inv k pk lk scale acc -> off (k + n) (antilap_loop RS n (S k) d pk lk scale acc).
Proof.
  revert k pk lk scale acc. induction n as [|n IH]; intros k pk lk scale acc Hk Hi.
  - rewrite Nat.add_0_r. cbn [antilap_loop]. destruct Hi. assumption.
  - cbn [antilap_loop]. replace (k + S n)%nat with (S k + n)%nat by lia. apply IH; [lia|]. clear IH. destruct Hi as [Cp Gp Ep Cl Gl El Es (Ca & Ha & Ea)]. rewrite p_r2_eq.
    assert (Cp' : canonical (pmul RS pk r2list)) by apply pmul_canonical.
    assert (Gp' : on_grid 1 (pmul RS pk r2list)) by (replace 1 with (1 * 1) by ring; apply on_grid_pmul; [exact Gp|apply r2_on_grid]).
    assert (Ep' : teq (coef (pmul RS pk r2list)) (coef (r2pow (S k)))).
    { intros a b. rewrite (coef_pmul_grid 1 1); try assumption; try apply r2list_canonical; try apply r2_on_grid; [|unfold tol; lra]. cbn [r2pow]. apply coef_mulraw_ext; [exact Ep|intros i j; reflexivity]. }
    assert (Cl' : canonical (plaplacian RS lk)) by apply plap_canonical. assert (Gl' : on_grid (Rabs c) (plaplacian RS lk)) by (apply on_grid_plap; assumption).
    assert (El' : teq (coef (plaplacian RS lk)) (t_iter t_lap (S k) f)) by (intros a b; rewrite (coef_plap_grid (Rabs c)) by assumption; cbn [t_iter]; apply t_lap_ext, El).
    assert (Es' : smul RS scale (sdiv RS (sdiv RS (sofZ RS (-1)) (sofZ RS 4)) (sofZ RS (Z.of_nat ((S k + 1) * (d + 1 - S k))))) = al_s d (S k)) by (rewrite Es; reflexivity).
    rewrite Es'. destruct (err_term (S k) _ _ ltac:(lia) Cp' Gp' Ep' Cl' Gl' El') as (Ct & Ht & Et).
    constructor; try assumption; try reflexivity. split; [apply piadd_canonical|]. split.
    + intros a b N. rewrite coef_piadd by exact Ct. rewrite (Ha a b N), (Ht a b N), Rplus_0_r. apply cutoff_zero.
    + intros a b. rewrite coef_piadd by exact Ct. cbn [al_sum]. rewrite S_INR. replace ((2 * (INR k + 1) + 1) * tol) with (((2 * INR k + 1) * tol + tol) + tol) by ring. apply cutoff_near.
      match goal with |- Rabs (?p + ?q - (?r + ?s)) <= _ => replace (p + q - (r + s)) with ((p - r) + (q - s)) by ring end. eapply Rle_trans; [apply Rabs_triang|]. specialize (Ea a b). specialize (Et a b). lra.
Qed.
Lemma err_mono : off (d / 2) (antilap_mono RS m).
Proof.
  unfold antilap_mono. change (morder (malpha m)) with d.
  assert (Epk : pcopy RS (p_r2 RS) = r2list). { rewrite p_r2_eq. unfold pcopy, add_monomials. rewrite fold_add_monomial. cbn [app]. rewrite filter_nz_canonical by apply r2list_canonical. apply consolidate_id, r2list_canonical. }
  assert (Elk : add_monomial RS [] m = [m]) by (rewrite add_monomial_app; cbn [app]; apply filter_all_nz; intros n [<-|[]]; exact Hc). rewrite Epk, Elk.
  assert (Es : sdiv RS (sdiv RS (sone RS) (sofZ RS 4)) (sofZ RS (Z.of_nat (1 + d))) = al_s d 0) by reflexivity. rewrite Es.
  assert (Gl : on_grid (Rabs c) [m]) by (apply on_grid_abs; intros n [<-|[]]; exists 1%Z; symmetry; apply Rmult_1_r).
  assert (D2 : (2 * (d / 2) <= d)%nat) by (pose proof (Nat.div_mod d 2 ltac:(lia)); lia).
  destruct (err_term 0 r2list [m] ltac:(lia) r2list_canonical r2_on_grid (fun a b => eq_refl) one_canonical Gl (fun a b => eq_refl)) as (Ct & Ht & Et).
  apply (err_loop (d / 2) 0); [exact D2|]. constructor; try assumption; try reflexivity; try apply r2list_canonical; try apply r2_on_grid; try apply one_canonical; try (intros a b; reflexivity).
  split; [exact Ct|]. split; [exact Ht|]. intros a b. specialize (Et a b). cbn [al_sum INR]. lra.
Qed.
End OneMonomial.

(** ** The whole polynomial *)
Definition of_order (n : nat) (p : rpoly) : nat := List.length (filter (fun m => Nat.eqb (order m) n) p).
Lemma of_order_le n p : canonical p -> (of_order n p <= n + 1)%nat.
Proof.
  intros C. unfold of_order. rewrite <- (map_length malpha). assert (L : List.length (map (fun i => MI (n - i) i) (seq 0 (n + 1))) = (n + 1)%nat) by (rewrite map_length, seq_length; reflexivity). rewrite <- L. apply NoDup_incl_length.
  - pose proof (canonical_nodup p C) as N. clear -N. induction p as [|x p IH]; cbn [filter map] in *; [constructor|]. inversion N as [|? ? N1 N2]; subst. destruct (Nat.eqb (order x) n); [|apply IH, N2]. cbn [map]. constructor; [|apply IH, N2]. intros I. apply N1. apply in_map_iff in I. destruct I as (y & <- & I). apply in_map. apply filter_In in I. apply I.
  - intros al I. apply in_map_iff in I. destruct I as (x & <- & I). apply filter_In in I as [_ E]. apply Nat.eqb_eq in E. unfold order in E. apply in_map_iff. exists (my (malpha x)). split; [|apply in_seq; lia]. destruct (malpha x) as [a b]. cbn [mx my] in *. f_equal. lia.
Qed.
Lemma al_sum_far (m : rmono) a b : (a + b <> order m + 2)%nat -> al_sum (order m) (coef [m]) (order m / 2) a b = 0.
Proof. intros N. apply (al_sum_homog (order m)); [pose proof (Nat.div_mod (order m) 2 ltac:(lia)); lia|apply one_homog|exact N]. Qed.
Lemma panti_err p : canonical p -> forall a b, Rabs (coef (panti_laplacian RS p) a b - al_table p a b) <= INR (of_order (a + b - 2) p) * (INR (a + b) * tol) /\ ((a + b < 2)%nat -> coef (panti_laplacian RS p) a b = 0 /\ al_table p a b = 0).
Proof.
  intros C a b. unfold panti_laplacian. set (n := (a + b - 2)%nat). pose proof tol_pos as TP.
  assert (G : forall l acc, (forall m, In m l -> In m p) -> canonical acc ->
    let r := fold_left (fun new m => piadd RS new (antilap_mono RS m)) l acc in
    Rabs (coef r a b - (coef acc a b + al_table l a b)) <= INR (of_order n l) * (INR (a + b) * tol) /\ ((a + b < 2)%nat -> coef r a b = coef acc a b /\ al_table l a b = 0)).
  { induction l as [|m l IH]; intros acc Hl Ca; cbn [fold_left].
    - cbn [al_table fold_right of_order filter List.length]. replace (coef acc a b - (coef acc a b + 0)) with 0 by ring. rewrite Rabs_R0. cbn. split; [nra|auto].
    - assert (Hm : tol <= Rabs (mcoef m : R)) by (eapply canonical_In; [exact C|]; apply Hl; left; reflexivity). destruct (err_mono m Hm) as (Cm & Hh & Em).
      destruct (IH (piadd RS acc (antilap_mono RS m))) as [E Z]; [intros x Hx; apply Hl; right; exact Hx|apply piadd_canonical|]. rewrite coef_piadd in E, Z by exact Cm.
      change (al_table (m :: l) a b) with (al_sum (order m) (coef [m]) (order m / 2) a b + al_table l a b). unfold of_order. cbn [filter]. destruct (Nat.eq_dec (a + b) (order m + 2)) as [Q|Q].
      + assert (On : order m = n) by (unfold n; lia). rewrite On, Nat.eqb_refl. cbn [List.length]. fold (of_order n l). rewrite S_INR. split; [|intros; lia].
        specialize (Em a b). rewrite On in *. set (X := coef (antilap_mono RS m) a b) in *. set (A := al_sum n (coef [m]) (n / 2) a b) in *. set (r := coef (fold_left _ l _) a b) in *. set (T := al_table l a b) in *. set (c0 := coef acc a b) in *.
        pose proof (cutoff_err (c0 + X)) as CE. replace (r - (c0 + (A + T))) with ((r - (cutoff (c0 + X) + T)) + ((cutoff (c0 + X) - (c0 + X)) + (X - A))) by ring.
        assert (NB : 2 * INR (n / 2) + 1 + 1 <= INR (a + b)). { replace (2 * INR (n / 2) + 1 + 1) with (INR (2 * (n / 2) + 2)) by (rewrite plus_INR, mult_INR; cbn [INR]; ring). apply le_INR. pose proof (Nat.div_mod n 2 ltac:(lia)). lia. }
        pose proof (Rabs_triang (r - (cutoff (c0 + X) + T)) ((cutoff (c0 + X) - (c0 + X)) + (X - A))). pose proof (Rabs_triang (cutoff (c0 + X) - (c0 + X)) (X - A)). nra.
      + rewrite (al_sum_far m a b Q). rewrite (Hh a b Q), Rplus_0_r in E, Z. rewrite (canonical_cutoff acc a b Ca) in E, Z. rewrite Rplus_0_l. split; [|exact Z].
        assert (LE : INR (of_order n l) <= INR (List.length (if Nat.eqb (order m) n then m :: filter (fun m0 => Nat.eqb (order m0) n) l else filter (fun m0 => Nat.eqb (order m0) n) l))) by (apply le_INR; unfold of_order; destruct (Nat.eqb _ _); cbn [List.length]; lia).
        pose proof (pos_INR (a + b)). eapply Rle_trans; [exact E|]. apply Rmult_le_compat_r; [nra|exact LE]. }
  destruct (G p [] (fun m I => I) can_nil) as [E Z]. cbn [coef] in E, Z. rewrite Rplus_0_l in E. split; assumption.
Qed.
Lemma panti_err' p : canonical p -> forall a b, (2 <= a + b)%nat -> Rabs (coef (panti_laplacian RS p) a b - al_table p a b) <= INR (a + b - 1) * INR (a + b) * tol.
Proof.
  intros C a b L. destruct (panti_err p C a b) as [E _]. eapply Rle_trans; [exact E|]. rewrite <- Rmult_assoc. pose proof tol_pos. apply Rmult_le_compat_r; [lra|]. apply Rmult_le_compat_r; [apply pos_INR|]. apply le_INR. pose proof (of_order_le (a + b - 2) p C). lia.
Qed.
(** Coefficients of the Laplacian, taken without cutoff *)
Definition lap_err (n : nat) : R := 2 * (INR (n + 1) * INR (n + 2)) ^ 2 * tol.
Lemma lap_err_ok p : canonical p -> forall a b, Rabs (t_lap (coef (panti_laplacian RS p)) a b - coef p a b) <= lap_err (a + b).
Proof.
  intros C a b. rewrite <- (t_lap_al_table p a b). set (q := coef (panti_laplacian RS p)). set (t := al_table p). pose proof tol_pos as TP.
  assert (E1 : Rabs (q (a + 1 + 1)%nat b - t (a + 1 + 1)%nat b) <= INR (a + b + 1) * INR (a + b + 2) * tol) by (pose proof (panti_err' p C (a + 1 + 1) b ltac:(lia)) as E; replace (a + 1 + 1 + b - 1)%nat with (a + b + 1)%nat in E by lia; replace (a + 1 + 1 + b)%nat with (a + b + 2)%nat in E by lia; exact E).
  assert (E2 : Rabs (q a (b + 1 + 1)%nat - t a (b + 1 + 1)%nat) <= INR (a + b + 1) * INR (a + b + 2) * tol) by (pose proof (panti_err' p C a (b + 1 + 1) ltac:(lia)) as E; replace (a + (b + 1 + 1) - 1)%nat with (a + b + 1)%nat in E by lia; replace (a + (b + 1 + 1))%nat with (a + b + 2)%nat in E by lia; exact E).
  unfold t_lap, t_dx, t_dy, lap_err. set (x := q (a + 1 + 1)%nat b) in *. set (x' := t (a + 1 + 1)%nat b) in *. set (y := q a (b + 1 + 1)%nat) in *. set (y' := t a (b + 1 + 1)%nat) in *.
  replace (INR (a + 1) * (INR (a + 1 + 1) * x) + INR (b + 1) * (INR (b + 1 + 1) * y) - (INR (a + 1) * (INR (a + 1 + 1) * x') + INR (b + 1) * (INR (b + 1 + 1) * y'))) with (INR (a + 1) * INR (a + 1 + 1) * (x - x') + INR (b + 1) * INR (b + 1 + 1) * (y - y')) by ring.
  eapply Rle_trans; [apply Rabs_triang|]. rewrite !Rabs_mult, !(Rabs_right (INR _)) by apply Rle_ge, pos_INR.
  assert (M1 : INR (a + 1) * INR (a + 1 + 1) <= INR (a + b + 1) * INR (a + b + 2)) by (apply Rmult_le_compat; try apply pos_INR; apply le_INR; lia).
  assert (M2 : INR (b + 1) * INR (b + 1 + 1) <= INR (a + b + 1) * INR (a + b + 2)) by (apply Rmult_le_compat; try apply pos_INR; apply le_INR; lia).
  assert (P1 : 0 <= INR (a + 1) * INR (a + 1 + 1)) by (apply Rmult_le_pos; apply pos_INR). assert (P2 : 0 <= INR (b + 1) * INR (b + 1 + 1)) by (apply Rmult_le_pos; apply pos_INR).
  set (B := INR (a + b + 1) * INR (a + b + 2)) in *. set (u := INR (a + 1) * INR (a + 1 + 1)) in *. set (v := INR (b + 1) * INR (b + 1 + 1)) in *. pose proof (Rabs_pos (x - x')). pose proof (Rabs_pos (y - y')).
  assert (u * Rabs (x - x') <= B * (B * tol)) by (apply Rmult_le_compat; assumption || lra). assert (v * Rabs (y - y') <= B * (B * tol)) by (apply Rmult_le_compat; assumption || lra). replace (2 * B ^ 2 * tol) with (B * (B * tol) + B * (B * tol)) by ring. lra.
Qed.
Lemma high_lap_0 p : canonical p -> forall D, deg_le D p -> forall a b, (D < a + b)%nat -> t_lap (coef (panti_laplacian RS p)) a b = 0 /\ coef p a b = 0.
Proof.
  intros C D HD a b L. assert (Z : forall i j, (D + 2 < i + j)%nat -> coef (panti_laplacian RS p) i j = 0).
  { intros i j Lij. destruct (panti_err p C i j) as [E _].
    assert (O : of_order (i + j - 2) p = 0%nat). { unfold of_order. rewrite (proj2 (length_zero_iff_nil _)); [reflexivity|]. destruct (filter _ p) as [|m l] eqn:F; [reflexivity|]. assert (I : In m (filter (fun m0 => Nat.eqb (order m0) (i + j - 2)) p)) by (rewrite F; left; reflexivity). apply filter_In in I as [I Q]. apply Nat.eqb_eq in Q. specialize (HD m I). unfold order in Q. lia. }
    rewrite O in E. cbn [INR] in E. rewrite Rmult_0_l in E.
    assert (T : al_table p i j = 0). { clear E O C. induction p as [|m p IH]; [reflexivity|]. change (al_table (m :: p) i j) with (al_sum (order m) (coef [m]) (order m / 2) i j + al_table p i j). rewrite IH by (intros x I; apply HD; right; exact I). rewrite al_sum_far; [ring|]. specialize (HD m (or_introl eq_refl)). unfold order. lia. }
    rewrite T, Rminus_0_r in E. pose proof (Rabs_pos (coef (panti_laplacian RS p) i j)). destruct (Req_dec (coef (panti_laplacian RS p) i j) 0) as [|N]; [assumption|]. apply Rabs_pos_lt in N. lra. }
  split.
  - unfold t_lap, t_dx, t_dy. rewrite !Z by lia. ring.
  - apply coef_notin. intros m I Q. specialize (HD m I). rewrite Q in HD. cbn [mx my] in HD. lia.
Qed.
