(** The highest terms of products, powers and compositions, and triangular families. *)
From Coq Require Import List ZArith Reals Lia Lra Bool Arith.
From Verif Require Import PyBase PolyModel PolySpec PolyProofs PolyProofs2 PolyProofs3 PolyProofs4 LegendreModel LegendreProofs LegendreProofs2 BBoxModel BaryModel BarySpec BaryProofs EdgeSpaceModel EdgeSpaceSpec EdgeSpaceProofs PolyErr PolyErr2 SpanSpec.
Import ListNotations.
Open Scope R_scope.

(** ** Spans *)
Section Span.
Variable fs : list (R -> R -> R).
Lemma combo_zero x y : combo (repeat 0 (length fs)) fs x y = 0.
Proof. unfold combo. induction fs as [|f l IH]; [reflexivity|]. cbn [length repeat combine map fold_right fst snd]. rewrite IH. ring. Qed.
Lemma combo_lin2 a b x y : forall (l : list (R -> R -> R)) c d, length c = length l -> length d = length l ->
  combo (map (fun p : R * R => a * fst p + b * snd p) (combine c d)) l x y = a * combo c l x y + b * combo d l x y.
Proof.
  unfold combo. induction l as [|f l IH]; intros [|u c] [|v d] Hc Hd; try discriminate; [cbn; ring|]. cbn [combine map fold_right fst snd]. rewrite IH by (cbn in *; congruence). ring.
Qed.
Lemma span_zero : in_span fs (fun _ _ => 0).
Proof. exists (repeat 0 (length fs)). split; [apply repeat_length|]. intros x y. symmetry. apply combo_zero. Qed.
Lemma span_ext g h : (forall x y, g x y = h x y) -> in_span fs g -> in_span fs h.
Proof. intros E (cs & L & H). exists cs. split; [exact L|]. intros x y. rewrite <- E. apply H. Qed.
Lemma span_lin a b g h : in_span fs g -> in_span fs h -> in_span fs (fun x y => a * g x y + b * h x y).
Proof.
  intros (c & Lc & Hc) (d & Ld & Hd). exists (map (fun p : R * R => a * fst p + b * snd p) (combine c d)). split; [rewrite map_length, combine_length; lia|]. intros x y. rewrite combo_lin2, Hc, Hd by assumption. reflexivity.
Qed.
End Span.
Lemma span_in fs g : In g fs -> in_span fs g.
Proof.
  intros I. induction fs as [|f l IH]; [destruct I|]. destruct I as [->|I].
  - exists (1 :: repeat 0 (length l)). split; [cbn; rewrite repeat_length; reflexivity|]. intros x y. unfold combo. cbn [combine map fold_right fst snd]. fold (combo (repeat 0 (length l)) l x y). rewrite combo_zero. ring.
  - destruct (IH I) as (cs & L & H). exists (0 :: cs). split; [cbn; congruence|]. intros x y. rewrite H. unfold combo. cbn [combine map fold_right fst snd]. ring.
Qed.
Lemma span_value fs (l : rpoly) : (forall m : rmono, In m l -> in_span fs (fun x y => x ^ mx (malpha m) * y ^ my (malpha m))) -> in_span fs (value l).
Proof.
  induction l as [|m l IH]; intros H; [apply span_zero|]. apply (span_ext _ (fun x y => (mcoef m : R) * (x ^ mx (malpha m) * y ^ my (malpha m)) + 1 * value l x y)).
  - intros x y. cbn [value]. ring.
  - apply (span_lin fs (mcoef m : R) 1 (fun x y => x ^ mx (malpha m) * y ^ my (malpha m)) (value l)); [apply H; left; reflexivity|apply IH; intros k K; apply H; right; exact K].
Qed.

(** ** The highest term *)
Definition top (D m n : nat) (c : R) (p : rpoly) : Prop :=
  (m + n = D)%nat /\ canonical p /\ deg_le D p /\ forall i j, (i + j = D)%nat -> coef p i j = if (Nat.eqb i m && Nat.eqb j n)%bool then c else 0.
Lemma deg_coef N p i j : deg_le N p -> (N < i + j)%nat -> coef p i j = 0.
Proof. intros D L. apply coef_notin. intros m I Q. specialize (D m I). rewrite Q in D. cbn [mx my] in D. lia. Qed.
Lemma coef_deg_le N p : canonical p -> (forall i j, (N < i + j)%nat -> coef p i j = 0) -> deg_le N p.
Proof.
  intros C H m I. destruct (Nat.le_gt_cases (mx (malpha m) + my (malpha m)) N) as [|L]; [assumption|]. exfalso. pose proof (canonical_coef_In m p C I) as E. rewrite H in E by exact L. pose proof (canonical_In m p C I) as B. pose proof tol_pos. rewrite <- E, Rabs_R0 in B. lra.
Qed.
Lemma top_self D m n c p : top D m n c p -> coef p m n = c.
Proof. intros (E & _ & _ & T). rewrite T, !Nat.eqb_refl by exact E. reflexivity. Qed.
Lemma top_pmul D E m n k l c d p q : top D m n c p -> top E k l d q -> tol <= Rabs (c * d) -> top (D + E) (m + k) (n + l) (c * d) (pmul RS p q).
Proof.
  intros (Ep & Cp & Dp & Tp) (Eq & Cq & Dq & Tq) B. split; [lia|]. split; [apply pmul_canonical|]. split; [apply deg_pmul; assumption|]. intros i j Hij. rewrite coef_pmul by assumption.
  assert (Z : forall u v, (u <= i)%nat -> (v <= j)%nat -> (u, v) <> (m, n) \/ (i - u, j - v)%nat <> (k, l) -> cutoff (coef p u v * coef q (i - u) (j - v)) = 0).
  { intros u v Hu Hv N. destruct (Nat.lt_trichotomy (u + v) D) as [L|[L|L]].
    - rewrite (deg_coef E q (i - u) (j - v)) by (assumption || lia). rewrite Rmult_0_r. apply cutoff_zero.
    - rewrite Tp by exact L. rewrite Tq by lia. destruct (Nat.eqb_spec u m), (Nat.eqb_spec v n); cbn [andb]; try (rewrite Rmult_0_l; apply cutoff_zero). destruct (Nat.eqb_spec (i - u) k), (Nat.eqb_spec (j - v) l); cbn [andb]; try (rewrite Rmult_0_r; apply cutoff_zero). exfalso. destruct N as [N|N]; apply N; congruence.
    - rewrite (deg_coef D p u v) by assumption. rewrite Rmult_0_l. apply cutoff_zero. }
  destruct (Nat.eqb_spec i (m + k)) as [Ei|Ni]; cbn [andb].
  - assert (Ej : j = (n + l)%nat) by lia. subst i j. rewrite Nat.eqb_refl.
    rewrite (sum2_single (fun u v => cutoff (coef p u v * coef q (m + k - u) (n + l - v))) (m + k) (n + l) m n); [|lia|lia|intros u v Hu Hv N; apply Z; [lia|lia|left; exact N]].
    replace (m + k - m)%nat with k by lia. replace (n + l - n)%nat with l by lia. rewrite Tp, Tq, !Nat.eqb_refl by lia. cbn [andb]. rewrite !(cutoff_id (c * d)) by exact B. reflexivity.
  - rewrite (sum2_ext _ (fun _ _ => 0)); [|intros u v Hu Hv; apply Z; [lia|lia|]]. 
    + rewrite sum_eq0; [apply cutoff_zero|]. intros u _. apply sum_eq0. reflexivity.
    + destruct (Nat.eq_dec u m) as [->|]; [|left; congruence]. right. intros Q. injection Q as Q1 Q2. lia.
Qed.
Lemma top_one : top 0 0 0 1 (pone RS).
Proof.
  rewrite pone_eq. split; [reflexivity|]. split; [constructor; [cbn; rewrite Rabs_R1; unfold tol; lra|constructor|constructor]|]. split; [intros m [<-|[]]; cbn; lia|]. intros i j Hij. assert (i = 0 /\ j = 0)%nat as [-> ->] by lia. cbn. ring.
Qed.
Lemma top_ppow D m n c q k : top D m n c q -> (forall i, (i <= k)%nat -> tol <= Rabs (c ^ i)) -> top (k * D) (k * m) (k * n) (c ^ k) (ppow_nat RS q k).
Proof.
  intros T. induction k as [|k IH]; intros H; [apply top_one|]. cbn [ppow_nat]. replace (S k * D)%nat with (k * D + D)%nat by lia. replace (S k * m)%nat with (k * m + m)%nat by lia. replace (S k * n)%nat with (k * n + n)%nat by lia. replace (c ^ S k) with (c ^ k * c) by (cbn; ring).
  apply top_pmul; [apply IH; intros i Hi; apply H; lia|exact T|]. specialize (H (S k) (le_n _)). cbn [pow] in H. rewrite Rmult_comm. exact H.
Qed.
Lemma top_pscale D m n c q k : top D m n c q -> tol <= Rabs (c * k) -> top D m n (c * k) (pscale RS q k).
Proof.
  intros (E & C & Dg & T) B. split; [exact E|]. split; [apply pscale_canonical, C|]. split; [apply deg_pscale, Dg|]. intros i j Hij. rewrite coef_pscale, T by assumption. destruct (andb _ _); [apply cutoff_id, B|]. rewrite Rmult_0_l. apply cutoff_zero.
Qed.
Lemma deg_cterm q1 q2 c n m : deg_le 1 q1 -> deg_le 1 q2 -> deg_le (n + m) (cterm q1 q2 c n m).
Proof. intros H1 H2. unfold cterm. apply deg_pscale. pose proof (deg_ppow 1 q1 n H1) as A. pose proof (deg_ppow 1 q2 m H2) as B. rewrite Nat.mul_1_r in A, B. apply deg_pmul; assumption. Qed.
Lemma cterm_canonical q1 q2 c n m : canonical (cterm q1 q2 c n m).
Proof. apply pscale_canonical, pmul_canonical. Qed.
Definition compose_from (q1 q2 : rpoly) (l acc : rpoly) : rpoly := fold_left (fun new (m : rmono) => piadd RS new (cterm q1 q2 (mcoef m) (mx (malpha m)) (my (malpha m)))) l acc.
Lemma compose_eq p q1 q2 : pcompose RS p q1 q2 = compose_from q1 q2 p [].
Proof. reflexivity. Qed.
Lemma deg_piadd D p q : canonical q -> deg_le D p -> deg_le D q -> deg_le D (piadd RS p q).
Proof. intros C Hp Hq. rewrite piadd_consolidate by exact C. apply deg_consolidate, deg_le_app; assumption. Qed.
Lemma low_terms q1 q2 D l : deg_le 1 q1 -> deg_le 1 q2 -> (forall m : rmono, In m l -> (mx (malpha m) + my (malpha m) < D)%nat) -> forall acc, canonical acc -> deg_le D acc ->
  canonical (compose_from q1 q2 l acc) /\ deg_le D (compose_from q1 q2 l acc) /\ forall i j, (i + j = D)%nat -> coef (compose_from q1 q2 l acc) i j = coef acc i j.
Proof.
  intros H1 H2. unfold compose_from. induction l as [|m l IH]; intros L acc Ca Da; [auto|]. cbn [fold_left]. set (t := cterm q1 q2 (mcoef m) (mx (malpha m)) (my (malpha m))). pose proof (L m (or_introl eq_refl)) as Lm. pose proof (deg_cterm q1 q2 (mcoef m) (mx (malpha m)) (my (malpha m)) H1 H2) as Dt. fold t in Dt. assert (Ct : canonical t) by apply cterm_canonical.
  destruct (IH ltac:(intros k K; apply L; right; exact K) (piadd RS acc t) (piadd_canonical _ _)) as (A & B & C); [apply deg_piadd; [exact Ct|exact Da|eapply deg_le_mono; [|exact Dt]; lia]|]. split; [exact A|]. split; [exact B|]. intros i j Hij. rewrite C by exact Hij. rewrite coef_piadd by exact Ct. rewrite (deg_coef _ t i j Dt) by lia. rewrite Rplus_0_r. apply canonical_cutoff, Ca.
Qed.
Lemma top_split D m n c p : c <> 0 -> top D m n c p -> exists l1 t l2, p = l1 ++ t :: l2 /\ malpha t = MI m n /\ (mcoef t : R) = c /\ forall k : rmono, In k (l1 ++ l2) -> (mx (malpha k) + my (malpha k) < D)%nat.
Proof.
  intros N T. pose proof (top_self _ _ _ _ _ T) as Ec. destruct T as (E & C & Dg & Tp). destruct (canonical_coef_supp p m n C) as (t & I & Et); [congruence|]. destruct (in_split _ _ I) as (l1 & l2 & ->). exists l1, t, l2. split; [reflexivity|]. split; [exact Et|].
  pose proof (canonical_coef_In t _ C I) as Q. rewrite Et in Q. cbn [mx my] in Q. split; [congruence|]. intros k K. assert (Ik : In k (l1 ++ t :: l2)) by (apply in_app_iff in K; apply in_app_iff; destruct K; [left|right; right]; assumption).
  assert (Nk : malpha k <> MI m n). { pose proof (canonical_nodup _ C) as ND. rewrite map_app in ND. cbn [map] in ND. apply NoDup_remove_2 in ND. rewrite Et in ND. intros X. apply ND. rewrite <- X, <- map_app. apply in_map, K. }
  pose proof (Dg k Ik) as Lk. destruct (Nat.eq_dec (mx (malpha k) + my (malpha k)) D) as [Dk|]; [|lia]. exfalso. pose proof (canonical_coef_In k _ C Ik) as Qk. rewrite (Tp _ _ Dk) in Qk. pose proof (canonical_In k _ C Ik) as Bk. pose proof tol_pos.
  destruct (Nat.eqb_spec (mx (malpha k)) m), (Nat.eqb_spec (my (malpha k)) n); cbn [andb] in Qk; try (rewrite <- Qk, Rabs_R0 in Bk; lra). apply Nk. destruct (malpha k). cbn in *. congruence.
Qed.
Lemma top_compose D m n c al ga f q1 q2 : top D m n c f -> top 1 1 0 al q1 -> top 1 0 1 ga q2 ->
  (forall i, (i <= m)%nat -> tol <= Rabs (al ^ i)) -> (forall i, (i <= n)%nat -> tol <= Rabs (ga ^ i)) -> tol <= Rabs (al ^ m * ga ^ n) -> tol <= Rabs (al ^ m * ga ^ n * c) -> top D m n (al ^ m * ga ^ n * c) (pcompose RS f q1 q2).
Proof.
  intros T T1 T2 H1 H2 H3 H4. assert (N : c <> 0) by (intros ->; rewrite Rmult_0_r, Rabs_R0 in H4; pose proof tol_pos; lra). destruct (top_split _ _ _ _ _ N T) as (l1 & t & l2 & -> & Et & Ec & L). pose proof T as (E & _). pose proof T1 as (_ & _ & D1 & _). pose proof T2 as (_ & _ & D2 & _).
  rewrite compose_eq. unfold compose_from. rewrite fold_left_app. cbn [fold_left]. rewrite Et, Ec. cbn [mx my]. fold (compose_from q1 q2 l1 []).
  destruct (low_terms q1 q2 D l1 D1 D2 ltac:(intros k K; apply L, in_app_iff; left; exact K) [] can_nil ltac:(intros k [])) as (C0 & G0 & Z0). set (a0 := compose_from q1 q2 l1 []) in *.
  assert (Tt : top D m n (al ^ m * ga ^ n * c) (cterm q1 q2 c m n)).
  { unfold cterm. apply top_pscale; [|exact H4]. pose proof (top_pmul _ _ _ _ _ _ _ _ _ _ (top_ppow _ _ _ _ _ m T1 H1) (top_ppow _ _ _ _ _ n T2 H2) H3) as X. rewrite !Nat.mul_1_r, !Nat.mul_0_r, Nat.add_0_r, Nat.add_0_l, E in X. exact X. }
  set (tt := cterm q1 q2 c m n) in *. destruct Tt as (_ & Ct & Dt & Zt). fold (compose_from q1 q2 l2 (piadd RS a0 tt)).
  destruct (low_terms q1 q2 D l2 D1 D2 ltac:(intros k K; apply L, in_app_iff; right; exact K) (piadd RS a0 tt) (piadd_canonical _ _) ltac:(apply deg_piadd; assumption)) as (C1 & G1 & Z1). split; [exact E|]. split; [exact C1|]. split; [exact G1|]. intros i j Hij. rewrite Z1 by exact Hij. rewrite coef_piadd by exact Ct. rewrite Z0 by exact Hij. cbn [coef]. rewrite Rplus_0_l, canonical_cutoff by exact Ct. apply Zt, Hij.
Qed.

(** ** Triangular families *)
Lemma tri_span fs p : in_span fs (fun _ _ => 1) -> in_span fs (fun x _ => x) -> in_span fs (fun _ y => y) ->
  (forall m n, (2 <= m + n <= p)%nat -> exists c q, c <> 0 /\ top (m + n) m n c q /\ in_span fs (value q)) -> spans_degree fs p.
Proof.
  intros S1 Sx Sy H. assert (G : forall D m n, (m + n = D)%nat -> (D <= p)%nat -> in_span fs (fun x y => x ^ m * y ^ n)).
  { induction D as [D IH] using lt_wf_ind. intros m n E Hp. destruct (Nat.lt_ge_cases D 2) as [L|L].
    - destruct m as [|[|m]], n as [|[|n]]; try lia; [apply (span_ext _ (fun _ _ => 1)); [intros; cbn; ring|exact S1]|apply (span_ext _ (fun _ y => y)); [intros; cbn; ring|exact Sy]|apply (span_ext _ (fun x _ => x)); [intros; cbn; ring|exact Sx]].
    - destruct (H m n ltac:(lia)) as (c & q & N & T & Sq). destruct (top_split _ _ _ _ _ N T) as (l1 & t & l2 & -> & Et & Ec & Lo). rewrite E in Lo.
      assert (Sl : in_span fs (value (l1 ++ l2))) by (apply span_value; intros k K; specialize (Lo k K); apply (IH _ Lo); [reflexivity|lia]).
      apply (span_ext _ (fun x y => / c * value (l1 ++ t :: l2) x y + - / c * value (l1 ++ l2) x y)); [|apply span_lin; assumption].
      intros x y. rewrite !value_app. cbn [value]. rewrite Et, Ec. cbn [mx my]. field. exact N. }
  intros i j L. exact (G _ i j eq_refl L).
Qed.
