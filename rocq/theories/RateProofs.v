(** Lemmas for the order of convergence (C81): the error of the trapezoid rule for smooth functions that close up *)
From Coq Require Import List ZArith Reals Lia Lra Psatz.
From Coquelicot Require Import Coquelicot.
From Verif Require Import BaryModel EdgeSpec CellSpec ContourProofs ConvProofs RateSpec.
Import List ListNotations.
Open Scope R_scope.

(** ** Bernoulli polynomials, divided by factorials *)
Fixpoint bern (k : nat) (x : R) : R := match k with O => 1 | S k => RInt (bern k) 0 x - RInt (fun y => RInt (bern k) 0 y) 0 1 end.
Lemma bern_both k : (forall x, continuous (bern k) x) /\ forall x, is_derive (bern (S k)) x (bern k x).
Proof.
  assert (D : forall k, (forall x, continuous (bern k) x) -> forall x, is_derive (bern (S k)) x (bern k x)).
  { clear k. intros k C x. cbn [bern]. rewrite <- (Rminus_0_r (bern k x)). apply (@is_derive_minus R_AbsRing R_NormedModule (fun x => RInt (bern k) 0 x) (fun _ => RInt (fun y => RInt (bern k) 0 y) 0 1)); [|apply (@is_derive_const R_AbsRing R_NormedModule)].
    apply (is_derive_RInt (V:=R_NormedModule) (bern k) (fun x => RInt (bern k) 0 x) 0 x); [|apply C]. exists (mkposreal 1 Rlt_0_1). intros y _. apply (RInt_correct (V:=R_CompleteNormedModule)), (@ex_RInt_continuous R_CompleteNormedModule). intros z _. apply C. }
  induction k as [|k (IHc & IHd)]; [split; [intros x; apply continuous_const|apply D; intros x; apply continuous_const]|]. assert (C : forall x, continuous (bern (S k)) x) by (intros x; apply (ex_derive_continuous (bern (S k))); exists (bern k x); apply IHd). split; [exact C|apply D, C].
Qed.
Lemma bern_cont k x : continuous (bern k) x.
Proof. apply bern_both. Qed.
Lemma bern_derive k x : is_derive (bern (S k)) x (bern k x).
Proof. apply bern_both. Qed.
Lemma bern_int k a b : ex_RInt (bern k) a b.
Proof. apply (@ex_RInt_continuous R_CompleteNormedModule). intros z _. apply bern_cont. Qed.
Lemma bern_mean k : RInt (bern (S k)) 0 1 = 0.
Proof.
  set (c := RInt (fun y => RInt (bern k) 0 y) 0 1). assert (E : RInt (bern (S k)) 0 1 = c - c); [|lra].
  transitivity (minus (RInt (fun y => RInt (bern k) 0 y) 0 1) (RInt (fun _ : R => c) 0 1)).
  - rewrite <- (RInt_minus (V:=R_CompleteNormedModule)); [reflexivity| |apply ex_RInt_const]. apply (@ex_RInt_continuous R_CompleteNormedModule). intros z _. apply (continuous_ext (fun y => bern (S k) y + c)); [intros y; cbn [bern]; fold c; change (RInt (bern k) 0 y - c + c = RInt (bern k) 0 y); ring|].
    apply (@continuous_plus _ R_AbsRing R_NormedModule); [apply bern_cont|apply continuous_const].
  - rewrite (RInt_const (V:=R_CompleteNormedModule)). unfold minus, plus, opp, scal, mult; cbn. unfold mult; cbn. fold c. ring.
Qed.
Lemma bern_ends k : bern (S (S k)) 1 = bern (S (S k)) 0.
Proof. cbn [bern]. change (fun x => RInt (bern k) 0 x - RInt (fun y => RInt (bern k) 0 y) 0 1) with (bern (S k)). fold (bern (S k)). rewrite bern_mean. f_equal. symmetry. apply (RInt_point (V:=R_CompleteNormedModule)). Qed.
Lemma bern_bound k x : 0 <= x <= 1 -> Rabs (bern k x) <= 1.
Proof.
  revert x. induction k as [|k IH]; intros x Hx; [cbn; rewrite Rabs_R1; lra|].
  assert (N : Rabs ((1 - 0) * bern (S k) x - RInt (bern (S k)) 0 1) <= (1 - 0) * 1).
  { apply near_const; [lra|intros t _; apply bern_cont|]. intros t Ht. destruct (Rle_dec t x) as [L|L].
    - pose proof (dominated (bern (S k)) (bern k) (fun s => s) (fun _ => 1) t x L) as Q. rewrite Rabs_minus_sym. eapply Rle_trans; [apply Q|lra]; [intros s _; apply bern_derive|intros s _; apply (@is_derive_id R_AbsRing)|intros s Hs; apply IH; lra].
    - pose proof (dominated (bern (S k)) (bern k) (fun s => s) (fun _ => 1) x t ltac:(lra)) as Q. eapply Rle_trans; [apply Q|lra]; [intros s _; apply bern_derive|intros s _; apply (@is_derive_id R_AbsRing)|intros s Hs; apply IH; lra]. }
  rewrite bern_mean in N. replace ((1 - 0) * bern (S k) x - 0) with (bern (S k) x) in N by ring. lra.
Qed.
Lemma bern_1 : bern 1 1 = 1 / 2 /\ bern 1 0 = - (1 / 2).
Proof.
  assert (E : forall x, RInt (bern 0) 0 x = x). { intros x. cbn [bern]. change (RInt (fun _ : R => 1) 0 x = x). rewrite (RInt_const (V:=R_CompleteNormedModule)). unfold scal; cbn. unfold mult; cbn. ring. }
  assert (I : RInt (fun y : R => y) 0 1 = 1 / 2). { apply (is_RInt_unique (V:=R_CompleteNormedModule)). replace (1 / 2) with (minus (1 ^ 2 / 2) (0 ^ 2 / 2) : R) by (unfold minus, plus, opp; cbn; field). apply (is_RInt_derive (V:=R_CompleteNormedModule) (fun y => y ^ 2 / 2) (fun y => y)); [intros x _; auto_derive; [trivial|field]|intros x _; apply continuous_id]. }
  assert (J : RInt (fun y => RInt (bern 0) 0 y) 0 1 = 1 / 2). { rewrite <- I. apply RInt_ext. intros x _. apply E. }
  change (bern 1) with (fun x => RInt (bern 0) 0 x - RInt (fun y => RInt (bern 0) 0 y) 0 1). cbv beta. rewrite J, !E. split; lra.
Qed.

(** ** Integration by parts on each step *)
Definition piece (h : R) (k : nat) (f : R -> R) (i : nat) : R := RInt (fun t => bern k (t / h - INR i) * f t) (INR i * h) (INR (S i) * h).
Fixpoint pieces (h : R) (k : nat) (f : R -> R) (N : nat) : R := match N with O => 0 | S N => pieces h k f N + piece h k f N end.
Lemma bern_arg k h i t : 0 < h -> continuous (fun t => bern k (t / h - INR i)) t.
Proof. intros Hh. apply (continuous_comp (fun t => t / h - INR i) (bern k)); [|apply bern_cont]. apply (ex_derive_continuous (fun t => t / h - INR i)). auto_derive. lra. Qed.
Lemma piece_ex h k f i : 0 < h -> (forall t, INR i * h <= t <= INR (S i) * h -> continuous f t) -> ex_RInt (fun t => bern k (t / h - INR i) * f t) (INR i * h) (INR (S i) * h).
Proof.
  intros Hh C. assert (INR i * h <= INR (S i) * h) by (rewrite S_INR; nra). apply (@ex_RInt_continuous R_CompleteNormedModule). intros z Hz. rewrite Rmin_left, Rmax_right in Hz by lra. apply (continuous_mult (fun t => bern k (t / h - INR i)) f); [apply bern_arg, Hh|apply C, Hz].
Qed.
Lemma piece_parts h k f f' i : 0 < h -> (forall t, INR i * h <= t <= INR (S i) * h -> is_derive f t (f' t) /\ continuous f' t) ->
  piece h k f i = h * (bern (S k) 1 * f (INR (S i) * h) - bern (S k) 0 * f (INR i * h)) - h * piece h (S k) f' i.
Proof.
  intros Hh D. set (a := INR i * h). set (b := INR (S i) * h). assert (Lab : a <= b) by (unfold a, b; rewrite S_INR; nra). assert (Cf : forall t, a <= t <= b -> continuous f t) by (intros t Ht; apply (ex_derive_continuous f); exists (f' t); apply D, Ht).
  set (F := fun t => h * (bern (S k) (t / h - INR i) * f t)). set (F' := fun t => bern k (t / h - INR i) * f t + h * (bern (S k) (t / h - INR i) * f' t)).
  assert (DF : forall t, a <= t <= b -> is_derive F t (F' t)).
  { intros t Ht. unfold F, F'. replace (bern k (t / h - INR i) * f t + h * (bern (S k) (t / h - INR i) * f' t)) with (h * ((/ h * bern k (t / h - INR i)) * f t + bern (S k) (t / h - INR i) * f' t)) by (field; lra).
    apply (is_derive_scal (fun t => bern (S k) (t / h - INR i) * f t) t h). apply (is_derive_mult (fun t => bern (S k) (t / h - INR i)) f t (/ h * bern k (t / h - INR i)) (f' t)); [|apply D, Ht|intros; apply Rmult_comm].
    apply (is_derive_comp (bern (S k)) (fun t => t / h - INR i) t (bern k (t / h - INR i)) (/ h)); [apply bern_derive|]. auto_derive; [lra|field; lra]. }
  assert (CF : forall t, a <= t <= b -> continuous F' t).
  { intros t Ht. apply (@continuous_plus _ R_AbsRing R_NormedModule (fun t => bern k (t / h - INR i) * f t) (fun t => h * (bern (S k) (t / h - INR i) * f' t))).
    - apply (continuous_mult (fun t => bern k (t / h - INR i)) f); [apply bern_arg, Hh|apply Cf, Ht].
    - apply (continuous_mult (fun _ => h) (fun t => bern (S k) (t / h - INR i) * f' t)); [apply continuous_const|]. apply (continuous_mult (fun t => bern (S k) (t / h - INR i)) f'); [apply bern_arg, Hh|apply D, Ht]. }
  assert (E1 : RInt F' a b = F b - F a). { apply (is_RInt_unique (V:=R_CompleteNormedModule)). apply (is_RInt_derive (V:=R_CompleteNormedModule) F F'); intros t Ht; rewrite Rmin_left, Rmax_right in Ht by lra; [apply DF, Ht|apply CF, Ht]. }
  assert (E2 : RInt F' a b = piece h k f i + h * piece h (S k) f' i).
  { unfold F', piece. fold a b. transitivity (plus (RInt (fun t => bern k (t / h - INR i) * f t) a b) (RInt (fun t => h * (bern (S k) (t / h - INR i) * f' t)) a b)).
    - apply (RInt_plus (V:=R_CompleteNormedModule)); [apply piece_ex; [exact Hh|apply Cf]|]. apply (ex_RInt_scal (V:=R_NormedModule) (fun t => bern (S k) (t / h - INR i) * f' t) a b h). apply piece_ex; [exact Hh|intros t Ht; apply D, Ht].
    - change (RInt (fun t => bern k (t / h - INR i) * f t) a b + RInt (fun t => scal h (bern (S k) (t / h - INR i) * f' t)) a b = RInt (fun t => bern k (t / h - INR i) * f t) a b + h * RInt (fun t => bern (S k) (t / h - INR i) * f' t) a b). f_equal.
      apply (RInt_scal (V:=R_CompleteNormedModule) (fun t => bern (S k) (t / h - INR i) * f' t) a b h). apply piece_ex; [exact Hh|intros t Ht; apply D, Ht]. }
  assert (Fb : F b = h * (bern (S k) 1 * f b)). { unfold F. do 3 f_equal. unfold b. rewrite S_INR. field. lra. } assert (Fa : F a = h * (bern (S k) 0 * f a)). { unfold F. do 3 f_equal. unfold a. field. lra. }
  fold a b. rewrite E1, Fa, Fb in E2. lra.
Qed.
Lemma step_in h i N t : 0 < h -> (i < N)%nat -> INR i * h <= t <= INR (S i) * h -> 0 <= t <= INR N * h.
Proof. intros Hh Hi Ht. pose proof (pos_INR i). assert (INR (S i) <= INR N) by (apply le_INR; lia). split; [nra|]. apply Rle_trans with (INR (S i) * h); [lra|]. apply Rmult_le_compat_r; lra. Qed.
Lemma pieces_parts h k f f' N : 0 < h -> (forall t, 0 <= t <= INR N * h -> is_derive f t (f' t) /\ continuous f' t) -> (1 <= k)%nat -> pieces h k f N = h * bern (S k) 0 * (f (INR N * h) - f 0) - h * pieces h (S k) f' N.
Proof.
  intros Hh D Hk. destruct k as [|k]; [lia|]. induction N as [|N IH]; [cbn [pieces INR]; rewrite Rmult_0_l; ring|]. cbn [pieces]. rewrite IH.
  - rewrite (piece_parts h (S k) f f' N Hh), bern_ends; [ring|]. intros t Ht. apply D, (step_in h N (S N) t Hh); [lia|exact Ht].
  - intros t Ht. apply D. split; [lra|]. rewrite S_INR. nra.
Qed.
Lemma pieces_zero h f N : 0 < h -> (forall t, 0 <= t <= INR N * h -> continuous f t) -> pieces h 0 f N = RInt f 0 (INR N * h).
Proof.
  intros Hh C. induction N as [|N IH]; [cbn [pieces INR]; rewrite Rmult_0_l; symmetry; apply (RInt_point (V:=R_CompleteNormedModule))|]. cbn [pieces].
  assert (LN : 0 <= INR N * h) by (apply Rmult_le_pos; [apply pos_INR|lra]). assert (LS : INR N * h <= INR (S N) * h) by (rewrite S_INR; nra). rewrite IH by (intros t Ht; apply C; lra).
  rewrite <- (RInt_Chasles (V:=R_CompleteNormedModule) f 0 (INR N * h) (INR (S N) * h)).
  - change (RInt f 0 (INR N * h) + piece h 0 f N = RInt f 0 (INR N * h) + RInt f (INR N * h) (INR (S N) * h)). f_equal. unfold piece. apply RInt_ext. intros t _. cbn [bern]. apply Rmult_1_l.
  - apply (@ex_RInt_continuous R_CompleteNormedModule). intros z Hz. rewrite Rmin_left, Rmax_right in Hz by lra. apply C. lra.
  - apply (@ex_RInt_continuous R_CompleteNormedModule). intros z Hz. rewrite Rmin_left, Rmax_right in Hz by lra. apply C. lra.
Qed.
Definition trap_sum (h : R) (f : R -> R) (N : nat) : R := h * sum_list (map (fun i => (f (INR i * h) + f (INR (S i) * h)) / 2) (seq 0 N)).
Lemma trap_pieces h f f' N : 0 < h -> (forall t, 0 <= t <= INR N * h -> is_derive f t (f' t) /\ continuous f' t) -> trap_sum h f N - RInt f 0 (INR N * h) = h * pieces h 1 f' N.
Proof.
  intros Hh D. rewrite <- pieces_zero by (try exact Hh; intros t Ht; apply (ex_derive_continuous f); exists (f' t); apply D, Ht). unfold trap_sum. induction N as [|N IH]; [cbn; ring|].
  assert (M : forall t, 0 <= t <= INR N * h -> 0 <= t <= INR (S N) * h) by (intros t Ht; rewrite S_INR; nra). assert (IH' := IH (fun t Ht => D t (M t Ht))). cbn [pieces]. rewrite (piece_parts h 0 f f' N Hh) by (intros t Ht; apply D, (step_in h N (S N) t Hh); [lia|exact Ht]).
  destruct bern_1 as (-> & ->). rewrite seq_S, map_app, ContourProofs.sum_app. cbn [Nat.add map]. change (sum_list [?x]) with (x + 0). set (s := sum_list _) in *. set (q := h * s) in *. replace (h * (s + ((f (INR N * h) + f (INR (S N) * h)) / 2 + 0))) with (q + h * ((f (INR N * h) + f (INR (S N) * h)) / 2)) by (unfold q; ring). lra.
Qed.

(** ** The error *)
Lemma cont_bound f a b : a <= b -> (forall t, a <= t <= b -> continuous f t) -> exists M, 0 <= M /\ forall t, a <= t <= b -> Rabs (f t) <= M.
Proof.
  intros L C. assert (C' : forall c, a <= c <= b -> continuity_pt (fun t => Rabs (f t)) c). { intros c Hc. apply continuity_pt_filterlim. apply (continuous_comp f Rabs); [apply C, Hc|apply continuous_Rabs]. }
  destruct (continuity_ab_maj _ a b L C') as (x & Hx & _). exists (Rabs (f x)). split; [apply Rabs_pos|exact Hx].
Qed.
Lemma piece_bound h k f i M : 0 < h -> (forall t, INR i * h <= t <= INR (S i) * h -> continuous f t) -> (forall t, INR i * h <= t <= INR (S i) * h -> Rabs (f t) <= M) -> Rabs (piece h k f i) <= h * M.
Proof.
  intros Hh C B. assert (L : INR i * h <= INR (S i) * h) by (rewrite S_INR; nra). unfold piece.
  pose proof (near_const (fun t => bern k (t / h - INR i) * f t) (INR i * h) (INR (S i) * h) M 0 L) as Q. rewrite Rmult_0_r, Rminus_0_l, Rabs_Ropp in Q. replace (INR (S i) * h - INR i * h) with h in Q by (rewrite S_INR; ring). apply Q.
  - intros t Ht. apply (continuous_mult (fun t => bern k (t / h - INR i)) f); [apply bern_arg, Hh|apply C, Ht].
  - intros t Ht. rewrite Rminus_0_r, Rabs_mult. pose proof (B t Ht) as Bt. assert (X : 0 <= t / h - INR i <= 1). { rewrite S_INR in Ht. assert (E : t = (t / h) * h) by (field; lra). split; apply (Rmult_le_reg_r h); try lra; rewrite Rmult_minus_distr_r, <- E; nra. }
    pose proof (bern_bound k _ X) as Bb. pose proof (Rabs_pos (f t)). pose proof (Rabs_pos (bern k (t / h - INR i))). nra.
Qed.
Lemma pieces_bound h k f N M : 0 < h -> (forall t, 0 <= t <= INR N * h -> continuous f t) -> (forall t, 0 <= t <= INR N * h -> Rabs (f t) <= M) -> Rabs (pieces h k f N) <= INR N * h * M.
Proof.
  intros Hh. induction N as [|N IH]; intros C B; [cbn [pieces INR]; rewrite Rabs_R0; lra|]. cbn [pieces]. eapply Rle_trans; [apply Rabs_triang|].
  assert (L : forall t, 0 <= t <= INR N * h -> 0 <= t <= INR (S N) * h) by (intros t Ht; rewrite S_INR; nra).
  assert (P : Rabs (piece h k f N) <= h * M) by (apply piece_bound; [exact Hh|intros t Ht; apply C, (step_in h N (S N) t Hh); [lia|exact Ht]..|intros t Ht; apply B, (step_in h N (S N) t Hh); [lia|exact Ht]]).
  pose proof (IH (fun t Ht => C t (L t Ht)) (fun t Ht => B t (L t Ht))). rewrite S_INR. lra.
Qed.
Lemma closes_cont k a b f : closes k a b f -> forall t, a <= t <= b -> continuous f t.
Proof. destruct k as [|k]; [auto|]. intros (_ & f' & D & _) t Ht. apply (ex_derive_continuous f). exists (f' t). apply D, Ht. Qed.
Lemma pieces_small k f L : 0 < L -> closes k 0 L f -> exists C, 0 <= C /\ forall N h j, (1 <= N)%nat -> h = L / INR N -> (1 <= j)%nat -> Rabs (pieces h j f N) <= C * h ^ k.
Proof.
  intros HL. revert f. assert (St : forall N h, (1 <= N)%nat -> h = L / INR N -> 0 < h /\ INR N * h = L). { intros N h HN ->. assert (0 < INR N) by (apply lt_0_INR; lia). split; [apply Rdiv_lt_0_compat; lra|field; lra]. }
  induction k as [|k IH]; intros f Cl.
  - destruct (cont_bound f 0 L (Rlt_le _ _ HL) Cl) as (M & M0 & B). exists (L * M). split; [nra|]. intros N h j HN Eh _. destruct (St N h HN Eh) as (Hh & E). rewrite pow_O, Rmult_1_r. rewrite <- E. apply pieces_bound; rewrite ?E; assumption.
  - destruct Cl as (Ends & f' & D & Cl). destruct (IH f' Cl) as (C & C0 & B). exists C. split; [exact C0|]. intros N h j HN Eh Hj. destruct (St N h HN Eh) as (Hh & E). rewrite (pieces_parts h j f f' N Hh); [|rewrite E; intros t Ht; split; [apply D, Ht|apply (closes_cont _ _ _ _ Cl), Ht]|exact Hj].
    rewrite E, Ends. replace (h * bern (S j) 0 * (f L - f L) - h * pieces h (S j) f' N) with (- (h * pieces h (S j) f' N)) by ring. rewrite Rabs_Ropp, Rabs_mult, (Rabs_pos_eq h) by lra. pose proof (B N h (S j) HN Eh ltac:(lia)). cbn [pow]. nra.
Qed.
(** The trapezoid rule has order k for functions with k derivatives that close up. *)
Lemma trapezoid_order k f L : 0 < L -> closes (S k) 0 L f -> exists C, 0 <= C /\ forall N, (1 <= N)%nat -> Rabs (trap_sum (L / INR N) f N - RInt f 0 L) <= C / INR N ^ S k.
Proof.
  intros HL (_ & f' & D & Cl). destruct (pieces_small k f' L HL Cl) as (C & C0 & B). exists (C * L ^ S k). split; [apply Rmult_le_pos; [exact C0|apply pow_le; lra]|]. intros N HN. assert (PN : 0 < INR N) by (apply lt_0_INR; lia). set (h := L / INR N).
  assert (Hh : 0 < h) by (apply Rdiv_lt_0_compat; lra). assert (E : INR N * h = L) by (unfold h; field; lra). rewrite <- E at 1. rewrite (trap_pieces h f f' N Hh) by (rewrite E; intros t Ht; split; [apply D, Ht|apply (closes_cont _ _ _ _ Cl), Ht]).
  rewrite Rabs_mult, (Rabs_pos_eq h) by lra. pose proof (B N h 1%nat HN eq_refl (le_n 1)) as Q. apply Rle_trans with (h * (C * h ^ k)); [apply Rmult_le_compat_l; lra|]. right. unfold h.  unfold Rdiv. cbn [pow]. rewrite Rpow_mult_distr, <- Rinv_pow by lra. field. split; [apply pow_nonzero|]; lra.
Qed.
(** Left and right sums are the trapezoid sum if the ends agree. *)
Lemma left_sum h f N : f 0 = f (INR N * h) -> h * sum_list (map (fun i => f (INR i * h)) (seq 0 N)) = trap_sum h f N.
Proof.
  intros E. unfold trap_sum. f_equal. assert (G : forall M, sum_list (map (fun i => f (INR i * h)) (seq 0 M)) = sum_list (map (fun i => (f (INR i * h) + f (INR (S i) * h)) / 2) (seq 0 M)) + (f 0 - f (INR M * h)) / 2).
  { induction M as [|M IH]; [cbn; rewrite Rmult_0_l; field|]. rewrite seq_S, !map_app, !ContourProofs.sum_app, IH. cbn [Nat.add map]. change (sum_list [?x]) with (x + 0). field. }
  rewrite G, E. field.
Qed.
Lemma right_sum h f N : f 0 = f (INR N * h) -> h * sum_list (map (fun i => f (INR (S i) * h)) (seq 0 N)) = trap_sum h f N.
Proof.
  intros E. unfold trap_sum. f_equal. assert (G : forall M, sum_list (map (fun i => f (INR (S i) * h)) (seq 0 M)) = sum_list (map (fun i => (f (INR i * h) + f (INR (S i) * h)) / 2) (seq 0 M)) + (f (INR M * h) - f 0) / 2).
  { induction M as [|M IH]; [cbn; rewrite Rmult_0_l; field|]. rewrite seq_S, !map_app, !ContourProofs.sum_app, IH. cbn [Nat.add map]. change (sum_list [?x]) with (x + 0). field. }
  rewrite G, E. field.
Qed.
