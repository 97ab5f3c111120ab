(** Polynomials with double coefficients: consolidation, sums and evaluation. *)
From Coq Require Import List ZArith Reals Lia Lra Permutation Sorted Bool.
From Flocq Require Import Core BinarySingleNaN.
From Verif Require Import PyBase PolyModel PolySpec PolyProofs FloatIdxModel FloatPolyModel FloatErr FloatPolySpec.
Import ListNotations.
Open Scope R_scope.

Definition ixd (m : dmono) : nat := midx (malpha m).

(** ** Sorting *)
Lemma dsink_perm m r : Permutation (m :: r) (sink DS m r).
Proof. induction r as [|n r IH]; cbn [sink]; [apply Permutation_refl|]. destruct (m_gtb DS n m); [|apply Permutation_refl]. eapply perm_trans; [apply perm_swap|]. constructor. exact IH. Qed.
Lemma dfold_sink_perm l : forall r, Permutation (rev l ++ r) (fold_left (fun r m => sink DS m r) l r).
Proof. induction l as [|m l IH]; intros r; cbn [rev fold_left app]; [apply Permutation_refl|]. rewrite <- IH, <- app_assoc. cbn [app]. apply Permutation_app_head, dsink_perm. Qed.
Lemma dpsort_perm p : Permutation p (psort DS p).
Proof. unfold psort. rewrite <- Permutation_rev, <- dfold_sink_perm, app_nil_r. apply Permutation_rev. Qed.
Definition dge (m n : dmono) : Prop := (ixd n <= ixd m)%nat.
Lemma dsink_sorted m r : StronglySorted dge r -> StronglySorted dge (sink DS m r).
Proof.
  induction 1 as [|n r Hr IH Hn]; cbn [sink]; [constructor; constructor|]. unfold m_gtb. destruct (Nat.ltb_spec (midx (malpha m)) (midx (malpha n))) as [Hlt|Hge].
  - constructor; [exact IH|]. apply (Permutation_Forall (dsink_perm m r)). constructor; [unfold dge, ixd; lia|exact Hn].
  - constructor; [constructor; assumption|]. constructor; [unfold dge, ixd; lia|]. eapply Forall_impl; [|exact Hn]. unfold dge, ixd. intros k Hk. lia.
Qed.
Lemma dfold_sink_sorted l : forall r, StronglySorted dge r -> StronglySorted dge (fold_left (fun r m => sink DS m r) l r).
Proof. induction l as [|m l IH]; intros r H; cbn [fold_left]; [exact H|]. apply IH, dsink_sorted, H. Qed.
Lemma dpsort_sorted p : StronglySorted (fun m n => (ixd m <= ixd n)%nat) (psort DS p).
Proof. unfold psort. apply (StronglySorted_rev dge). apply dfold_sink_sorted. constructor. Qed.
Lemma sorted_strict (l : list dmono) : StronglySorted (fun m n => (ixd m <= ixd n)%nat) l -> NoDup (map ixd l) -> ascending l.
Proof.
  induction 1 as [|m l Hl IH Hm]; intros ND; [constructor|]. cbn [map] in ND. inversion ND as [|? ? N1 N2]; subst. constructor; [apply IH; exact N2|]. apply Forall_forall. intros n In_n. rewrite Forall_forall in Hm. specialize (Hm n In_n). assert (ixd m <> ixd n) by (intros E; apply N1; rewrite E; apply in_map; exact In_n). unfold ixd in *. lia.
Qed.

(** ** Consolidation *)
Definition zeroed (k : nat) (n : dmono) : dmono := if Nat.eqb k (ixd n) then m_scale DS n (of_int 0) else n.
Lemma cons_row_spec l : forall m, cons_row DS m l = (@Mono DS (malpha m) (fold_left dadd (of_index (ixd m) l) (coefd m)), map (zeroed (ixd m)) l).
Proof.
  induction l as [|n l IH]; intros m; cbn [cons_row map]; [destruct m; reflexivity|]. unfold of_index. cbn [filter]. fold (ixd n). unfold zeroed at 1. unfold mi_eqb. change (midx (malpha m)) with (ixd m). change (midx (malpha n)) with (ixd n). destruct (Nat.eqb (ixd m) (ixd n)); rewrite IH; cbn [malpha coefd mcoef map fold_left]; reflexivity.
Qed.
Lemma null_scale c : fin c = true -> is_null (dmul c (of_int 0)) = true.
Proof. destruct c as [s|s| |s m e B]; try discriminate; intros _; reflexivity. Qed.
Lemma null_fin c : is_null c = true -> fin c = true.
Proof. destruct c; try discriminate; reflexivity. Qed.
Lemma null_add c d : is_null c = true -> is_null d = true -> is_null (dadd c d) = true.
Proof. destruct c as [s| | |]; try discriminate. destruct d as [s'| | |]; try discriminate. intros _ _. unfold dadd. cbn. destruct (Bool.eqb s s'); reflexivity. Qed.
Lemma null_negligible c : is_null c = true -> negligible c = true.
Proof. destruct c as [s| | |]; try discriminate. intros _. unfold negligible. cbn [Babs]. vm_compute. reflexivity. Qed.
Lemma zero_negligible m : m_is_zero DS m = negligible (coefd m).
Proof. reflexivity. Qed.
Lemma fold_null l : forall c, is_null c = true -> Forall (fun c => is_null c = true) l -> is_null (fold_left dadd l c) = true.
Proof. induction l as [|d l IH]; intros c Nc F; [exact Nc|]. inversion F; subst. cbn [fold_left]. apply IH; [apply null_add; assumption|assumption]. Qed.
Lemma zeroed_ix k n : ixd (zeroed k n) = ixd n.
Proof. unfold zeroed. destruct (Nat.eqb k (ixd n)); reflexivity. Qed.
Lemma zeroed_finite k l : finite_poly l -> finite_poly (map (zeroed k) l).
Proof. induction 1 as [|n l Fn Fl IH]; cbn [map]; constructor; [|exact IH]. unfold zeroed. destruct (Nat.eqb k (ixd n)); [|exact Fn]. cbn [m_scale coefd mcoef]. apply null_fin, null_scale, Fn. Qed.
Lemma zeroed_other k j l : k <> j -> of_index j (map (zeroed k) l) = of_index j l.
Proof.
  intros D. induction l as [|n l IH]; [reflexivity|]. unfold of_index in *. cbn [map filter]. change (midx (malpha (zeroed k n))) with (ixd (zeroed k n)). rewrite zeroed_ix. change (midx (malpha n)) with (ixd n). destruct (Nat.eqb_spec j (ixd n)) as [E|E]; [|exact IH]. cbn [map]. rewrite IH. f_equal. unfold zeroed. rewrite (proj2 (Nat.eqb_neq _ _)) by congruence. reflexivity.
Qed.
Lemma zeroed_same k l : finite_poly l -> Forall (fun c => is_null c = true) (of_index k (map (zeroed k) l)).
Proof.
  induction 1 as [|n l Fn Fl IH]; [constructor|]. unfold of_index in *. cbn [map filter]. change (midx (malpha (zeroed k n))) with (ixd (zeroed k n)). rewrite zeroed_ix. destruct (Nat.eqb_spec k (ixd n)) as [E|E]; [|exact IH]. cbn [map]. constructor; [|exact IH]. unfold zeroed. rewrite (proj2 (Nat.eqb_eq _ _)) by exact E. cbn [m_scale coefd mcoef]. apply null_scale, Fn.
Qed.
Lemma sum1_null l c : Forall (fun c => is_null c = true) l -> sum1 l = Some c -> is_null c = true.
Proof. intros F E. destruct l as [|d l]; [discriminate|]. inversion F; subst. injection E as <-. apply fold_null; assumption. Qed.
Lemma rows_spec : forall k l, List.length l = k -> finite_poly l -> (forall m, negligible (coefd m) = false -> (In m (cons_rows DS k l) <-> sum1 (of_index (ixd m) l) = Some (coefd m))) /\ NoDup (map ixd (remove_zeros DS (cons_rows DS k l))).
Proof.
  induction k as [|k IH]; intros l L F; [destruct l; [|discriminate]; split; [intros m _; cbn; split; [intros []|discriminate]|constructor]|]. destruct l as [|m l]; [discriminate|]. cbn [cons_rows]. rewrite cons_row_spec. inversion F as [|? ? Fm Fl]; subst. injection L as L. destruct (IH (map (zeroed (ixd m)) l) ltac:(rewrite map_length; exact L) (zeroed_finite _ _ Fl)) as [I1 I2]. set (r := cons_rows DS k (map (zeroed (ixd m)) l)) in *. set (m' := @Mono DS (malpha m) (fold_left dadd (of_index (ixd m) l) (coefd m))).
  assert (NR : forall x, In x r -> negligible (coefd x) = false -> ixd x <> ixd m). { intros x Ix Nx E. apply (I1 x Nx) in Ix. rewrite E in Ix. apply sum1_null in Ix; [apply null_negligible in Ix; congruence|apply zeroed_same; exact Fl]. }
  split.
  - intros x Nx. cbn [In]. destruct (Nat.eq_dec (ixd x) (ixd m)) as [E|E].
    + assert (Q : of_index (ixd x) (m :: l) = coefd m :: of_index (ixd m) l) by (unfold of_index; cbn [filter]; rewrite E; change (midx (malpha m)) with (ixd m); rewrite Nat.eqb_refl; reflexivity). rewrite Q. cbn [sum1]. split.
      * intros [<-|Ix]; [reflexivity|]. exfalso. exact (NR x Ix Nx E).
      * intros S. left. injection S as S. unfold m'. rewrite S. destruct x as [a c]. cbn [coefd mcoef]. f_equal. cbn [malpha]. symmetry. unfold ixd in E. cbn [malpha] in E. apply midx_inj. exact E.
    + rewrite (I1 x Nx), zeroed_other by congruence. assert (Q : of_index (ixd x) (m :: l) = of_index (ixd x) l) by (unfold of_index; cbn [filter]; change (midx (malpha m)) with (ixd m); rewrite (proj2 (Nat.eqb_neq _ _) E); reflexivity). rewrite Q. split; [intros [<-|S]; [exfalso; apply E; reflexivity|exact S]|tauto].
  - unfold remove_zeros. cbn [filter]. destruct (m_is_zero DS m'); cbn [negb]; [exact I2|]. cbn [map]. constructor; [|exact I2]. intros Q. apply in_map_iff in Q. destruct Q as (x & E & Ix). apply filter_In in Ix. destruct Ix as [Ix Nx]. rewrite zero_negligible in Nx. apply (NR x Ix); [destruct (negligible (coefd x)); [discriminate|reflexivity]|exact E].
Qed.
Theorem consolidate_spec l : finite_poly l -> neat (consolidate DS l) /\ forall m, In m (consolidate DS l) <-> negligible (coefd m) = false /\ sum1 (of_index (ixd m) l) = Some (coefd m).
Proof.
  intros F. destruct (rows_spec (List.length l) l eq_refl F) as [A N]. unfold consolidate. set (q := remove_zeros DS (cons_rows DS (List.length l) l)) in *. assert (Z : forall m, In m q <-> negligible (coefd m) = false /\ In m (cons_rows DS (List.length l) l)) by (intros m; unfold q, remove_zeros; rewrite filter_In, zero_negligible; destruct (negligible (coefd m)); cbn [negb]; intuition discriminate).
  split; [split|].
  - apply sorted_strict; [apply dpsort_sorted|]. eapply Permutation_NoDup; [apply Permutation_map, dpsort_perm|exact N].
  - apply Forall_forall. intros m Im. apply (Permutation_in _ (Permutation_sym (dpsort_perm q))) in Im. apply Z, Im.
  - intros m. split.
    + intros Im. apply (Permutation_in _ (Permutation_sym (dpsort_perm q))) in Im. apply Z in Im. destruct Im as [Nm Im]. split; [exact Nm|]. apply A; assumption.
    + intros [Nm S]. apply (Permutation_in _ (dpsort_perm q)). apply Z. split; [exact Nm|]. apply A; assumption.
Qed.
(** Canonical lists are determined by their elements. *)
Lemma ascending_ext : forall p q : list dmono, ascending p -> ascending q -> (forall m, In m p <-> In m q) -> p = q.
Proof.
  induction p as [|m p IH]; intros [|n q] Ap Aq E; [reflexivity|exfalso; destruct (E n) as [_ X]; destruct (X (or_introl eq_refl))|exfalso; destruct (E m) as [X _]; destruct (X (or_introl eq_refl))|].
  inversion Ap as [|? ? Ap' Fp]; subst. inversion Aq as [|? ? Aq' Fq]; subst. rewrite Forall_forall in Fp, Fq. assert (Emn : m = n).
  { destruct (proj1 (E m) (or_introl eq_refl)) as [X|X]; [congruence|]. destruct (proj2 (E n) (or_introl eq_refl)) as [Y|Y]; [congruence|]. specialize (Fp n Y). specialize (Fq m X). cbv beta in *. lia. }
  subst n. f_equal. apply IH; [assumption|assumption|]. intros x. split; intros Ix.
  - destruct (proj1 (E x) (or_intror Ix)) as [X|X]; [|exact X]. subst x. specialize (Fp m Ix). cbv beta in Fp. lia.
  - destruct (proj2 (E x) (or_intror Ix)) as [X|X]; [|exact X]. subst x. specialize (Fq m Ix). cbv beta in Fq. lia.
Qed.

(** ** Evaluation *)
Lemma fold_near k (F : dmono -> double) : forall (p : list dmono) (g : dmono -> R * R * R) v X B e, near k X B e v -> (forall m, In m p -> fin (F m) = true -> near k (fst (fst (g m))) (snd (fst (g m))) (snd (g m)) (F m)) -> fin (fold_left (fun v m => dadd v (F m)) p v) = true ->
  near (List.length p + k) (X + rsum (map (fun m => fst (fst (g m))) p)) (B + rsum (map (fun m => snd (fst (g m))) p)) (e + rsum (map (fun m => snd (g m)) p)) (fold_left (fun v m => dadd v (F m)) p v).
Proof.
  assert (Last : forall (p : list dmono) v, fin (fold_left (fun v m => dadd v (F m)) p v) = true -> fin v = true /\ Forall (fun m => fin (F m) = true) p).
  { induction p as [|m p IH]; intros v H; [split; [exact H|constructor]|]. cbn [fold_left] in H. destruct (IH _ H) as [A B]. destruct (dadd_fin _ _ A) as (C & D & _). split; [exact C|]. constructor; assumption. }
  induction p as [|m p IH] using rev_ind; intros g v X B e N A H.
  - cbn [map rsum List.length Nat.add fold_left]. rewrite !Rplus_0_r. exact N.
  - rewrite fold_left_app in *. cbn [fold_left] in *. destruct (dadd_fin _ _ H) as (H1 & H2 & _). specialize (IH g v X B e N ltac:(intros n In_n Fn; apply A; [apply in_or_app; left; exact In_n|exact Fn]) H1). specialize (A m ltac:(apply in_or_app; right; left; reflexivity) H2).
    rewrite app_length. cbn [List.length]. replace (List.length p + 1 + k)%nat with (Datatypes.S (List.length p + k)) by lia. rewrite !map_app, !rsum_app. cbn [map rsum]. rewrite !Rplus_0_r, <- !Rplus_assoc. apply near_add; [exact IH| |exact H]. eapply near_weaken; [| |exact A]; [lia|apply Rle_refl].
Qed.
Lemma mono_near pow j f m x y : accurate pow j f -> fin (dm_eval pow m x y) = true ->
  near (j (mx (malpha m)) + j (my (malpha m)) + 2) (val (coefd m) * val x ^ mx (malpha m) * val y ^ my (malpha m)) (Rabs (val (coefd m)) * Rabs (val x) ^ mx (malpha m) * Rabs (val y) ^ my (malpha m)) (slack f m x y) (dm_eval pow m x y).
Proof.
  intros A. unfold dm_eval, slack, slack1. cbv zeta. set (a := mx (malpha m)). set (b := my (malpha m)). set (c := coefd m). change (mcoef m) with c.
  assert (PW : forall z n, (0 < n)%nat -> fin (pow z n) = true -> near (j n) (val z ^ n) (Rabs (val z) ^ n) (f z n) (pow z n)). { intros z n Hn Fz. destruct (A z n Hn Fz) as (F1 & F2 & F3). split; [exact Fz|]. split; [rewrite <- RPow_abs; apply Rle_refl|]. split; assumption. }
  assert (M0 : forall v, v = dmul c (of_int 1) -> fin v = true -> near 0 (val c) (Rabs (val c)) 0 v). { intros v -> Fv. apply near_one; [|exact Fv]. apply near_exact. destruct (dmul_fin _ _ Fv) as (X & _). exact X. }
  assert (M1 : forall v, v = (if Nat.ltb 0 a then dmul (dmul c (of_int 1)) (pow x a) else dmul c (of_int 1)) -> fin v = true -> near (j a + 1) (val c * val x ^ a) (Rabs (val c) * Rabs (val x) ^ a) (if Nat.ltb 0 a then Rabs (val c) * f x a + tiny else 0) v).
  { intros v -> Fv. destruct (Nat.ltb_spec 0 a) as [Ha|Ha].
    - destruct (dmul_fin _ _ Fv) as (F1 & F2 & _). pose proof (near_mul _ _ _ _ _ _ _ _ _ _ (M0 _ eq_refl F1) (PW x a Ha F2) Fv) as N. cbn [Nat.add] in N. eapply near_weaken; [| |exact N]; [lia|lra].
    - replace a with O by lia. cbn [Rpow_def.pow]. rewrite !Rmult_1_r. eapply near_weaken; [| |exact (M0 _ eq_refl Fv)]; [lia|lra]. }
  intros F. set (v := if Nat.ltb 0 a then _ else _) in *. destruct (Nat.ltb_spec 0 b) as [Hb|Hb].
  - destruct (dmul_fin _ _ F) as (F1 & F2 & _). pose proof (near_mul _ _ _ _ _ _ _ _ _ _ (M1 v eq_refl F1) (PW y b Hb F2) F) as N. eapply near_weaken; [| |exact N]; [lia|]. apply Rle_refl.
  - assert (b = O) by lia. replace b with O in * by lia. cbn [Rpow_def.pow]. rewrite !Rmult_1_r. eapply near_weaken; [| |exact (M1 v eq_refl F)]; [lia|apply Rle_refl].
Qed.
Lemma value_sum p x y : value (real p) x y = rsum (map (fun m => val (coefd m) * x ^ mx (malpha m) * y ^ my (malpha m)) p).
Proof. induction p as [|m p IH]; [reflexivity|]. cbn [real map value rsum malpha mcoef]. fold (real p). rewrite IH. reflexivity. Qed.
Lemma size_sum p x y : size_at p x y = rsum (map (fun m => Rabs (val (coefd m)) * Rabs x ^ mx (malpha m) * Rabs y ^ my (malpha m)) p).
Proof. induction p as [|m p IH]; [reflexivity|]. cbn [size_at map rsum]. rewrite IH. reflexivity. Qed.
Lemma slack_sum f p x y : slack_at f p x y = rsum (map (fun m => slack f m x y) p).
Proof. induction p as [|m p IH]; [reflexivity|]. cbn [slack_at map rsum]. rewrite IH. reflexivity. Qed.
Theorem eval_near pow j f (J : nat) p x y : accurate pow j f -> Forall (fun m => (j (mx (malpha m)) + j (my (malpha m)) <= J)%nat) p -> fin (dp_eval pow p x y) = true ->
  near (List.length p + (J + 2)) (value (real p) (val x) (val y)) (size_at p (val x) (val y)) (slack_at f p x y) (dp_eval pow p x y).
Proof.
  intros A HJ F. unfold dp_eval in *. rewrite value_sum, size_sum, slack_sum. rewrite <- (Rplus_0_l (rsum (map (fun m => val (coefd m) * _ * _) p))), <- (Rplus_0_l (rsum (map (fun m => Rabs (val (coefd m)) * _ * _) p))), <- (Rplus_0_l (rsum (map (fun m => slack f m x y) p))).
  refine (fold_near (J + 2) (fun m => dm_eval pow m x y) p (fun m => (val (coefd m) * val x ^ mx (malpha m) * val y ^ my (malpha m), Rabs (val (coefd m)) * Rabs (val x) ^ mx (malpha m) * Rabs (val y) ^ my (malpha m), slack f m x y)) (of_int 0) 0 0 0 _ _ F).
  - apply null_near. reflexivity.
  - intros m Im Fm. cbn [fst snd]. eapply near_weaken; [| |apply (mono_near pow j f m x y A Fm)]; [rewrite Forall_forall in HJ; specialize (HJ m Im); cbv beta in HJ; lia|apply Rle_refl].
Qed.
(** Powers by repeated multiplication *)
Lemma geo_pos x n : 0 <= geo x n.
Proof. induction n as [|n IH]; cbn [geo]; [lra|]. pose proof (Rabs_pos x). pose proof tiny_pos. nra. Qed.
Lemma spow_near x n : (0 < n)%nat -> fin (spow DS x n) = true -> fin x = true /\ near n (val x ^ n) (Rabs (val x) ^ n) (geo (val x) n) (spow DS x n).
Proof.
  assert (G : forall n, fin x = true -> fin (spow DS x n) = true -> near n (val x ^ n) (Rabs (val x) ^ n) (geo (val x) n) (spow DS x n)).
  { clear n. induction n as [|n IH]; intros Fx F.
    - cbn [spow pow geo DS sone]. pose proof (near_int 1 ltac:(lia)) as N. rewrite Rabs_R1 in N. exact N.
    - cbn [spow DS smul] in *. destruct (dmul_fin _ _ F) as (_ & F2 & _). pose proof (near_mul _ _ _ _ _ _ _ _ _ _ (near_exact x Fx) (IH Fx F2) F) as N. cbn [pow geo]. eapply near_weaken; [| |exact N]; [lia|]. lra. }
  intros P F. destruct n as [|n]; [lia|]. assert (Fx : fin x = true) by (cbn [spow DS smul] in F; destruct (dmul_fin _ _ F) as (X & _); exact X). split; [exact Fx|apply G; assumption].
Qed.
Lemma spow_accurate : accurate (spow DS) (fun n => n) (fun x n => geo (val x) n).
Proof. intros x n P F. destruct (spow_near x n P F) as (Fx & _ & _ & _ & E). split; [exact Fx|]. split; [apply geo_pos|exact E]. Qed.
Lemma peval_dp p x y : peval DS p x y = dp_eval (spow DS) p x y.
Proof. reflexivity. Qed.
Lemma growth k : INR k * uro <= 1 / 2 -> (1 + uro) ^ k - 1 <= 2 * INR k * uro.
Proof.
  induction k as [|k IH]; intros H; [cbn; lra|]. pose proof uro_pos as U. rewrite S_INR in *. assert (H1 : INR k * uro <= 1 / 2) by nra. specialize (IH H1). cbn [pow]. pose proof (pos_INR k). assert (E1 : (1 + uro) * (1 + uro) ^ k <= (1 + uro) * (1 + 2 * INR k * uro)) by (apply Rmult_le_compat_l; lra). assert (E2 : INR k * uro * uro <= 1 / 2 * uro) by (apply Rmult_le_compat_r; lra). lra.
Qed.

(** ** Integers *)
Lemma max_pow z n : (Z.abs (z ^ Z.of_nat n) <= Z.max 1 (Z.abs z) ^ Z.of_nat n)%Z /\ (1 <= Z.max 1 (Z.abs z) ^ Z.of_nat n)%Z.
Proof. split; [rewrite Z.abs_pow; apply Z.pow_le_mono_l; lia|]. rewrite <- (Z.pow_1_l (Z.of_nat n)) at 1 by lia. apply Z.pow_le_mono_l. lia. Qed.
Lemma room_arith (c k s u t v M : Z) : (Z.abs c <= k -> 1 <= k -> Z.abs s <= u -> 1 <= u -> Z.abs t <= v -> 1 <= v -> k * u * v <= M ->
  Z.abs c <= M /\ u <= M /\ v <= M /\ Z.abs (c * s) <= M /\ Z.abs (c * s * t) <= M)%Z.
Proof.
  intros Hc Hk Hs Hu Ht Hv H. assert (KU : (1 <= k * u)%Z) by nia. assert (H1 : (k * u <= M)%Z) by nia. assert (Hcs : (Z.abs (c * s) <= k * u)%Z) by (rewrite Z.abs_mul; apply Z.mul_le_mono_nonneg; lia). assert (Hcst : (Z.abs (c * s * t) <= k * u * v)%Z) by (rewrite Z.abs_mul; apply Z.mul_le_mono_nonneg; lia). repeat split; nia.
Qed.
Lemma mono_int pow m c x y X Y : exact_pow pow -> isint (coefd m) c -> isint x X -> isint y Y -> (zroom c m X Y <= 2 ^ 53)%Z -> isint (dm_eval pow m x y) (zterm c m X Y).
Proof.
  intros EP Ic Ix Iy H. unfold dm_eval, zterm, zroom in *. cbv zeta. destruct (max_pow X (mx (malpha m))) as [A1 A2]. destruct (max_pow Y (my (malpha m))) as [B1 B2].
  destruct (room_arith c (Z.max 1 (Z.abs c)) _ _ _ _ _ (Z.le_max_r _ _) (Z.le_max_l _ _) A1 A2 B1 B2 H) as (Hc & Hu & Hv & Hcs & Hcst). clear A1 A2 B1 B2 H.
  assert (I1 : isint (of_int 1) 1) by (split; apply of_int_val; discriminate). pose proof (isint_mul _ _ _ _ Ic I1 ltac:(rewrite Z.mul_1_r; exact Hc)) as V0. rewrite Z.mul_1_r in V0. change (mcoef m) with (coefd m).
  assert (V1 : isint (if Nat.ltb 0 (mx (malpha m)) then dmul (dmul (coefd m) (of_int 1)) (pow x (mx (malpha m))) else dmul (coefd m) (of_int 1)) (c * X ^ Z.of_nat (mx (malpha m)))).
  { destruct (Nat.ltb_spec 0 (mx (malpha m))) as [Ha|Ha]; [apply isint_mul; [exact V0|apply EP; assumption|exact Hcs]|]. replace (mx (malpha m)) with O by lia. cbn [Z.of_nat]. rewrite Z.pow_0_r, Z.mul_1_r. exact V0. }
  destruct (Nat.ltb_spec 0 (my (malpha m))) as [Hb|Hb]; [apply isint_mul; [exact V1|apply EP; assumption|exact Hcst]|]. replace (my (malpha m)) with O by lia. cbn [Z.of_nat]. rewrite Z.pow_0_r, Z.mul_1_r. exact V1.
Qed.
Lemma zroom_bound c m x y : (Z.abs (zterm c m x y) <= zroom c m x y)%Z /\ (0 <= zroom c m x y)%Z.
Proof.
  unfold zterm, zroom. destruct (max_pow x (mx (malpha m))) as [A1 A2]. destruct (max_pow y (my (malpha m))) as [B1 B2]. destruct (room_arith c (Z.max 1 (Z.abs c)) _ _ _ _ _ (Z.le_max_r _ _) (Z.le_max_l _ _) A1 A2 B1 B2 (Z.le_refl _)) as (H0 & _ & _ & _ & H). split; [exact H|]. eapply Z.le_trans; [apply Z.abs_nonneg|exact H].
Qed.
Lemma eval_int pow p x y X Y : exact_pow pow -> Forall (fun cm => isint (coefd (snd cm)) (fst cm)) p -> isint x X -> isint y Y -> (zsize p X Y <= 2 ^ 53)%Z -> isint (dp_eval pow (map snd p) x y) (zvalue p X Y).
Proof.
  intros EP F Ix Iy. unfold dp_eval. assert (G : forall v V, isint v V -> (Z.abs V + zsize p X Y <= 2 ^ 53)%Z -> isint (fold_left (fun v m => dadd v (dm_eval pow m x y)) (map snd p) v) (V + zvalue p X Y)).
  { induction F as [|[c m] p Fc Fp IH]; intros v V Iv H; cbn [map snd fold_left zvalue zsize] in *; [rewrite Z.add_0_r; exact Iv|]. destruct (zroom_bound c m X Y) as [R1 R2]. assert (Z0 : (0 <= zsize p X Y)%Z) by (clear; induction p as [|[c m] p IH]; cbn [zsize]; [lia|]; destruct (zroom_bound c m X Y); lia). rewrite Z.add_assoc. apply IH; [|lia]. apply isint_add; [exact Iv|apply mono_int; [exact EP|exact Fc|exact Ix|exact Iy|lia]|lia]. }
  intros H. apply (G (of_int 0) 0%Z); [split; apply of_int_val; lia|]. cbn [Z.abs Z.add]. exact H.
Qed.
Lemma spow_exact : exact_pow (spow DS).
Proof.
  intros x z n Ix H _. induction n as [|n IH]; [split; apply of_int_val; lia|]. cbn [spow DS smul]. destruct (max_pow z n) as [A1 A2]. destruct (max_pow z (Datatypes.S n)) as [B1 _]. rewrite Nat2Z.inj_succ in *. rewrite !Z.pow_succ_r in * by lia. apply isint_mul; [exact Ix|apply IH|exact (Z.le_trans _ _ _ B1 H)]. eapply Z.le_trans; [|exact H]. clear -A2. nia.
Qed.

(** ** Sums of two canonical polynomials *)
Lemma add_all (q : list dmono) : forall p, Forall (fun m => negligible (coefd m) = false) q -> fold_left (add_monomial DS) q p = p ++ q.
Proof. induction q as [|m q IH]; intros p F; [cbn; rewrite app_nil_r; reflexivity|]. inversion F; subst. cbn [fold_left]. unfold add_monomial at 2. rewrite zero_negligible. match goal with H : negligible (coefd m) = false |- _ => rewrite H end. rewrite IH by assumption. rewrite <- app_assoc. reflexivity. Qed.
Lemma padd_consolidate p q : neat p -> neat q -> padd DS p q = consolidate DS (p ++ q).
Proof. intros [_ Np] [_ Nq]. unfold padd. rewrite (add_all p) by exact Np. cbn [app]. rewrite (add_all q) by exact Nq. reflexivity. Qed.
Lemma of_index_app k p q : of_index k (p ++ q) = of_index k p ++ of_index k q.
Proof. unfold of_index. rewrite filter_app, map_app. reflexivity. Qed.
Lemma of_index_one p k : ascending p -> of_index k p = match entry p k with None => [] | Some c => [c] end.
Proof.
  intros A. unfold entry. induction A as [|m p Ap IH Fm]; [reflexivity|]. unfold of_index in *. cbn [filter]. destruct (Nat.eqb_spec k (midx (malpha m))) as [E|E]; [|exact IH]. cbn [map]. f_equal. replace (filter (fun n => Nat.eqb k (midx (malpha n))) p) with (@nil dmono); [reflexivity|]. symmetry. clear IH Ap. induction Fm as [|n p Hn Fp IH]; [reflexivity|]. cbn [filter]. rewrite (proj2 (Nat.eqb_neq _ _)) by (cbv beta in Hn; lia). exact IH.
Qed.
Lemma padd_spec p q : neat p -> neat q -> finite_poly p -> finite_poly q -> neat (padd DS p q) /\ forall m, In m (padd DS p q) <-> negligible (coefd m) = false /\ join (entry p (ixd m)) (entry q (ixd m)) = Some (coefd m).
Proof.
  intros Np Nq Fp Fq. rewrite padd_consolidate by assumption. destruct (consolidate_spec (p ++ q) ltac:(apply Forall_app; split; assumption)) as [A B]. split; [exact A|]. intros m. rewrite B, of_index_app, (of_index_one p), (of_index_one q) by (apply Np || apply Nq). destruct (entry p (ixd m)), (entry q (ixd m)); reflexivity.
Qed.
Lemma dadd_comm x y : dadd x y = dadd y x.
Proof.
  unfold dadd. destruct x as [s|s| |s m e B], y as [s'|s'| |s' m' e' B']; try reflexivity; try (destruct s, s'; reflexivity). cbv beta iota zeta delta [Bplus Fplus_naive]. rewrite (Z.min_comm e e'), Z.add_comm. reflexivity.
Qed.
Lemma join_comm a b : join a b = join b a.
Proof. destruct a, b; cbn; try reflexivity. rewrite dadd_comm. reflexivity. Qed.
