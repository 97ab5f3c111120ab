(** C87: what transformations of edges do to the samples in double precision. *)
From Coq Require Import List ZArith Reals Lia Lra Psatz Bool.
From Flocq Require Import Core BinarySingleNaN.
From Verif Require Import PyBase FloatIdxModel FloatPolyModel FloatErr FloatInnerModel FloatInnerProofs FloatEdgeModel FloatEdgeProofs.
Import List ListNotations.
Open Scope R_scope.

(** If the computed number [x] is finite, it differs from [X] by at most [e]. *)
Definition off (x : double) (X e : R) : Prop := fin x = true -> Rabs (val x - X) <= e.
(** Two doubles that are finite and stand for the same number; they may be zeros of different signs. *)
Definition same (x y : double) : Prop := fin x = true /\ fin y = true /\ val x = val y.
Definition finite_sample (s : fsample) : Prop := Forall (fun x => fin x = true) [fx s; fy s; ftx s; fty s; fnx s; fny s; fw s; fk s].

Lemma Forall2_map_self {A B} (P : A -> B -> Prop) (f : A -> B) l : (forall x, P x (f x)) -> Forall2 P l (map f l).
Proof. intros H. induction l; constructor; auto. Qed.
Lemma add_off x a : off (dadd x a) (val x + val a) (uro * Rabs (val x + val a)).
Proof.
  intros F. destruct (dadd_fin _ _ F) as (_ & _ & V). destruct (round_sum (val x) (val a) (generic_format_B2R _ _ x) (generic_format_B2R _ _ a)) as (eps & He & Rd). rewrite V, Rd. replace ((val x + val a) * (1 + eps) - (val x + val a)) with (eps * (val x + val a)) by ring. rewrite Rabs_mult. apply Rmult_le_compat_r; [apply Rabs_pos|exact He].
Qed.
Lemma mul_off x a : off (dmul x a) (val x * val a) (uro * Rabs (val x * val a) + tiny).
Proof.
  intros F. destruct (dmul_fin _ _ F) as (_ & _ & V). destruct (round_prod (val x * val a)) as (eps & eta & He & Ht & Rd). rewrite V, Rd. replace (val x * val a * (1 + eps) + eta - val x * val a) with (eps * (val x * val a) + eta) by ring. eapply Rle_trans; [apply Rabs_triang|]. rewrite Rabs_mult. apply Rplus_le_compat; [apply Rmult_le_compat_r; [apply Rabs_pos|exact He]|exact Ht].
Qed.

Lemma sf_pos (x : double) m e : B2SF x = SpecFloat.S754_finite false m e -> 0 < val x.
Proof. intros E. destruct x as [s|s| |s n g B]; try discriminate E. cbn in E. injection E as -> _ _. unfold val. cbn [B2R]. apply F2R_gt_0. reflexivity. Qed.

(** ** Translation *)
(** One rounding for each coordinate, without underflow; nothing else changes. *)
Theorem C87_translate ax ay l : Forall2 (fun s t => off (fx t) (val (fx s) + val ax) (uro * Rabs (val (fx s) + val ax)) /\ off (fy t) (val (fy s) + val ay) (uro * Rabs (val (fy s) + val ay)) /\
  ftx t = ftx s /\ fty t = fty s /\ fnx t = fnx s /\ fny t = fny s /\ fw t = fw s /\ fk t = fk s) l (d_translate ax ay l).
Proof. apply Forall2_map_self. intros s. cbn. split; [apply add_off|]. split; [apply add_off|]. repeat split. Qed.
Print Assumptions C87_translate.
Lemma back_off x a : off (dadd (dadd x a) (Bopp a)) (val x) (uro * ((2 + uro) * Rabs (val x) + (1 + uro) * Rabs (val a))).
Proof.
  intros F. pose proof (add_off _ _ F) as E2. destruct (dadd_fin _ _ F) as (F1 & _ & _). pose proof (add_off _ _ F1) as E1. unfold val at 3 in E2. unfold val at 4 in E2. rewrite B2R_Bopp in E2. fold (val a) in E2. set (y := val (dadd x a)) in *. pose proof uro_pos as U.
  pose proof (Rabs_triang (val x) (val a)) as T1. assert (T2 : Rabs (y + - val a) <= Rabs (val x) + uro * Rabs (val x + val a)). { replace (y + - val a) with (val x + (y - (val x + val a))) by ring. eapply Rle_trans; [apply Rabs_triang|]. lra. }
  replace (val (dadd (dadd x a) (Bopp a)) - val x) with ((val (dadd (dadd x a) (Bopp a)) - (y + - val a)) + (y - (val x + val a))) by ring. eapply Rle_trans; [apply Rabs_triang|].
  assert (uro * Rabs (y + - val a) <= uro * (Rabs (val x) + uro * (Rabs (val x) + Rabs (val a)))) by (apply Rmult_le_compat_l; [lra|]; eapply Rle_trans; [exact T2|]; apply Rplus_le_compat_l, Rmult_le_compat_l; lra). assert (uro * Rabs (val x + val a) <= uro * (Rabs (val x) + Rabs (val a))) by (apply Rmult_le_compat_l; lra). lra.
Qed.
(** There and back: the error has the size of the place in between, not of the point. *)
Theorem C87_back ax ay l : Forall2 (fun s t => off (fx t) (val (fx s)) (uro * ((2 + uro) * Rabs (val (fx s)) + (1 + uro) * Rabs (val ax))) /\ off (fy t) (val (fy s)) (uro * ((2 + uro) * Rabs (val (fy s)) + (1 + uro) * Rabs (val ay))))
  l (d_translate (Bopp ax) (Bopp ay) (d_translate ax ay l)).
Proof. unfold d_translate. rewrite map_map. apply Forall2_map_self. intros s. cbn. split; apply back_off. Qed.
Print Assumptions C87_back.
(** Translation does not keep different points apart, and the way back does not restore them. The points (1/2^60, 0) and (0, 0) by (1, 0): *)
Definition point (x y : double) : fsample := FSmp x y (of_int 1) (of_int 0) (of_int 0) (of_int (-1)) (of_int 1) (of_int 0).
Theorem C87_apart_refuted : exists ax ay s t, finite_sample s /\ finite_sample t /\ val (fx s) <> val (fx t) /\ d_translate ax ay [s] = d_translate ax ay [t] /\
  d_translate (Bopp ax) (Bopp ay) (d_translate ax ay [s]) = [t].
Proof.
  exists (of_int 1), (of_int 0), (point (ddiv (of_int 1) (of_int (2 ^ 60))) (of_int 0)), (point (of_int 0) (of_int 0)). split; [repeat constructor|]. split; [repeat constructor|].
  split. { cbn [fx point]. rewrite (proj2 (of_int_val 0 ltac:(lia))). apply Rgt_not_eq. eapply sf_pos. vm_compute. reflexivity. }
  assert (E1 : dadd (ddiv (of_int 1) (of_int (2 ^ 60))) (of_int 1) = of_int 1) by (apply B2SF_inj; vm_compute; reflexivity). assert (E2 : dadd (of_int 0) (of_int 1) = of_int 1) by (apply B2SF_inj; vm_compute; reflexivity). assert (E3 : dadd (of_int 0) (of_int 0) = of_int 0) by (apply B2SF_inj; vm_compute; reflexivity).
  assert (E4 : dadd (of_int 1) (Bopp (of_int 1)) = of_int 0) by (apply B2SF_inj; vm_compute; reflexivity). assert (E5 : dadd (of_int 0) (Bopp (of_int 0)) = of_int 0) by (apply B2SF_inj; vm_compute; reflexivity).
  unfold d_translate, point. cbn [map fx fy ftx fty fnx fny fw fk]. rewrite E1, E2, E3, E4, E5. split; reflexivity.
Qed.
Print Assumptions C87_apart_refuted.

(** ** Dilation *)
Lemma dtol_fin : fin dtol = true.
Proof. vm_compute. reflexivity. Qed.
Lemma dtol_pos : 0 < val dtol.
Proof. eapply sf_pos. vm_compute. reflexivity. Qed.
(** A factor is refused exactly if it is a number below 1e-12 in absolute value. Infinities and NaN are accepted. *)
Theorem C87_dilate_refused al l x : d_dilate al l = Err x <-> x = EdgeTransformationError /\ fin al = true /\ Rabs (val al) < val dtol.
Proof.
  unfold d_dilate. destruct (fin al) eqn:F.
  - rewrite (Bltb_correct 53 1024 (Babs al) dtol) by (rewrite ?is_finite_Babs; first [exact F|exact dtol_fin]). rewrite B2R_Babs. fold (val al) (val dtol). destruct (Rlt_bool_spec (Rabs (val al)) (val dtol)); split; try (intros X; injection X as <-; auto); try (intros (-> & _); reflexivity); [discriminate|intros (_ & _ & Y); lra].
  - assert (B : Bltb (Babs al) dtol = false) by (destruct al as [s|s| |s n g C]; try discriminate F; vm_compute; reflexivity). rewrite B. split; [discriminate|intros (_ & Y & _); discriminate].
Qed.
Print Assumptions C87_dilate_refused.
Lemma recip_off k al : fin al = true -> val al <> 0 -> off (dmul k (ddiv (of_int 1) al)) (val k / val al) (((1 + uro) ^ 2 - 1) * Rabs (val k / val al) + (1 + uro) * tiny * Rabs (val k) + tiny).
Proof.
  intros Fa Na F. destruct (dmul_fin _ _ F) as (_ & Fd & V). pose proof (Bdiv_correct 53 1024 _ _ mode_NE (of_int 1) al Na) as C. destruct (of_int_val 1 ltac:(lia)) as [_ V1]. unfold val in V1. rewrite V1 in C. assert (Vd : val (ddiv (of_int 1) al) = rnd (1 / val al)). { unfold fin, val, ddiv in *. destruct (Rlt_bool _ _) in C; [exact (proj1 C)|]. rewrite <- finite_SF in Fd. rewrite C, nonfinite_overflow in Fd. discriminate. }
  destruct (round_prod (1 / val al)) as (e1 & t1 & He1 & Ht1 & R1). rewrite R1 in Vd. destruct (round_prod (val k * val (ddiv (of_int 1) al))) as (e2 & t2 & He2 & Ht2 & R2). rewrite V, R2, Vd. set (q := val k / val al). pose proof uro_pos as U. pose proof tiny_pos as T.
  replace (val k * (1 / val al * (1 + e1) + t1) * (1 + e2) + t2 - q) with (q * ((1 + e1) * (1 + e2) - 1) + val k * t1 * (1 + e2) + t2) by (unfold q; field; exact Na).
  eapply Rle_trans; [apply Rabs_triang|]. eapply Rle_trans; [apply Rplus_le_compat_r, Rabs_triang|]. rewrite !Rabs_mult. assert (E2 : Rabs (1 + e2) <= 1 + uro) by (eapply Rle_trans; [apply Rabs_triang|]; rewrite Rabs_R1; lra). pose proof (Rabs_pos (1 + e2)). pose proof (Rabs_pos q). pose proof (Rabs_pos (val k)). pose proof (Rabs_pos t1). pose proof (Rabs_pos e1). pose proof (Rabs_pos e2).
  assert (P : Rabs ((1 + e1) * (1 + e2) - 1) <= (1 + uro) ^ 2 - 1). { replace ((1 + e1) * (1 + e2) - 1) with (e1 + (e2 + e1 * e2)) by ring. eapply Rle_trans; [apply Rabs_triang|]. eapply Rle_trans; [apply Rplus_le_compat_l, Rabs_triang|]. rewrite Rabs_mult. assert (Rabs e1 * Rabs e2 <= uro * uro) by (apply Rmult_le_compat; assumption). cbn [pow]. lra. }
  assert (Rabs q * Rabs ((1 + e1) * (1 + e2) - 1) <= Rabs q * ((1 + uro) ^ 2 - 1)) by (apply Rmult_le_compat_l; assumption). assert (Rabs (val k) * Rabs t1 * Rabs (1 + e2) <= Rabs (val k) * tiny * (1 + uro)) by (apply Rmult_le_compat; [apply Rmult_le_pos; assumption|assumption|apply Rmult_le_compat_l; assumption|assumption]). lra.
Qed.
(** Points and weights: one rounding. Curvature: two, for 1 / alpha and the product. *)
Theorem C87_dilate al l l' : fin al = true -> d_dilate al l = Ok l' ->
  val dtol <= Rabs (val al) /\ Forall2 (fun s t => off (fx t) (val (fx s) * val al) (uro * Rabs (val (fx s) * val al) + tiny) /\ off (fy t) (val (fy s) * val al) (uro * Rabs (val (fy s) * val al) + tiny) /\
  ftx t = ftx s /\ fty t = fty s /\ fnx t = fnx s /\ fny t = fny s /\ off (fw t) (val (fw s) * Rabs (val al)) (uro * Rabs (val (fw s) * Rabs (val al)) + tiny) /\
  off (fk t) (val (fk s) / val al) (((1 + uro) ^ 2 - 1) * Rabs (val (fk s) / val al) + (1 + uro) * tiny * Rabs (val (fk s)) + tiny)) l l'.
Proof.
  intros F E. destruct (Rlt_or_le (Rabs (val al)) (val dtol)) as [L|L]; [exfalso; assert (X : d_dilate al l = Err EdgeTransformationError) by (apply C87_dilate_refused; auto); congruence|]. split; [exact L|].
  assert (Na : val al <> 0) by (intros Z0; rewrite Z0, Rabs_R0 in L; pose proof dtol_pos; lra). unfold d_dilate in E. destruct (Bltb _ _); [discriminate|]. apply Ok_inj in E. subst l'. apply Forall2_map_self. intros s. cbn [fx fy ftx fty fnx fny fw fk]. split; [apply mul_off|]. split; [apply mul_off|]. do 4 (split; [reflexivity|]). split; [|apply recip_off; assumption].
  intros Fw. pose proof (mul_off _ _ Fw) as M. assert (Va : val (Babs al) = Rabs (val al)) by (unfold val; apply B2R_Babs). rewrite Va in M. exact M.
Qed.
Print Assumptions C87_dilate.
(** Not refused: NaN. All points and curvatures are lost. *)
Theorem C87_nan_refuted : exists al l l', Forall finite_sample l /\ d_dilate al l = Ok l' /\ Forall (fun t => fx t = B754_nan /\ fy t = B754_nan /\ fw t = B754_nan /\ fk t = B754_nan) l' /\ l' <> [].
Proof. exists B754_nan, [point (of_int 1) (of_int 2)]. eexists. split; [repeat constructor|]. split; [reflexivity|]. split; [repeat constructor|discriminate]. Qed.
Print Assumptions C87_nan_refuted.

(** ** Reversal is exact. *)
Theorem C87_reverse l : Forall finite_sample l -> d_reverse (d_reverse l) = l /\
  Forall2 (fun s t => fx t = fx s /\ fy t = fy s /\ fw t = fw s /\ val (ftx t) = - val (ftx s) /\ val (fty t) = - val (fty s) /\ val (fnx t) = - val (fnx s) /\ val (fny t) = - val (fny s) /\ val (fk t) = - val (fk s)) (rev l) (d_reverse l).
Proof.
  intros Fl. split.
  - unfold d_reverse. rewrite map_rev, rev_involutive, map_map. cbn [fx fy ftx fty fnx fny fw fk]. rewrite <- (map_id l) at 2. apply map_ext_in. intros s I. destruct s as [x1 x2 x3 x4 x5 x6 x7 x8]. cbn [fx fy ftx fty fnx fny fw fk]. rewrite !Bopp_involutive. reflexivity.
  - unfold d_reverse. rewrite <- map_rev. apply Forall2_map_self. intros s. cbn [fx fy ftx fty fnx fny fw fk]. unfold val. rewrite !B2R_Bopp. repeat split.
Qed.
Print Assumptions C87_reverse.

(** ** Orthogonal maps *)
Section Ortho.
Variable dot : double -> double -> double -> double -> double.
Variable defect : double -> double -> double -> double -> double.
Hypothesis Dot : dot_ok dot.
(** The error of one entry of [A @ x] *)
Definition dot_err (a x b y : double) : R := ((1 + uro) ^ 2 - 1) * (Rabs (val a) * Rabs (val x) + Rabs (val b) * Rabs (val y)) + (tiny + tiny) * (1 + uro) ^ 2.
Lemma dot_off a x b y : off (dot a x b y) (val a * val x + val b * val y) (dot_err a x b y).
Proof. intros F. destruct (dot_near dot a x b y Dot F) as (_ & _ & _ & E). exact E. Qed.
Lemma times_m1 x : fin x = true -> same (dmul x (of_int (-1))) (Bopp x).
Proof.
  intros F. destruct (of_int_val (-1) ltac:(lia)) as [F1 V1]. assert (Fo : fin (Bopp x) = true) by (unfold fin; rewrite is_finite_Bopp; exact F). destruct (mul_exact x (of_int (-1)) (Bopp x) F F1 Fo) as [Fm Vm]; [|split; [exact Fm|split; [exact Fo|exact Vm]]]. rewrite V1. unfold val. rewrite B2R_Bopp. ring.
Qed.
(** Points and tangents: two roundings. The normal is the turned tangent without any error, weights stay, the curvature stays or is negated without error. *)
Theorem C87_ortho a b c d l l' : d_ortho dot defect a b c d l = Ok l' -> Forall2 (fun s t => off (fx t) (val a * val (fx s) + val b * val (fy s)) (dot_err a (fx s) b (fy s)) /\ off (fy t) (val c * val (fx s) + val d * val (fy s)) (dot_err c (fx s) d (fy s)) /\
  off (ftx t) (val a * val (ftx s) + val b * val (fty s)) (dot_err a (ftx s) b (fty s)) /\ off (fty t) (val c * val (ftx s) + val d * val (fty s)) (dot_err c (ftx s) d (fty s)) /\
  fnx t = fty t /\ val (fny t) = - val (ftx t) /\ fw t = fw s /\ (fin (fk s) = true -> val (fk t) = val (fk s) \/ val (fk t) = - val (fk s))) l l'.
Proof.
  unfold d_ortho. destruct (Bltb _ _); [discriminate|]. intros E. apply Ok_inj in E. subst l'. apply Forall2_map_self. intros s. unfold d_ortho_sample. cbn [fx fy ftx fty fnx fny fw fk]. do 4 (split; [apply dot_off|]). split; [reflexivity|]. split; [unfold val; apply B2R_Bopp|]. split; [reflexivity|]. intros F. destruct (d_flips a b c d); [right|left; reflexivity]. destruct (times_m1 _ F) as (_ & _ & V). rewrite V. unfold val. apply B2R_Bopp.
Qed.
(** Rotation with a cosine and a sine that are off by at most [del] *)
Theorem C87_rotate c s th del l l' : Rabs (val c - cos th) <= del -> Rabs (val s - sin th) <= del -> d_rotate dot defect c s l = Ok l' ->
  let e x y := (del + ((1 + uro) ^ 2 - 1) * (1 + del)) * (Rabs (val x) + Rabs (val y)) + (tiny + tiny) * (1 + uro) ^ 2 in
  Forall2 (fun u t => off (fx t) (cos th * val (fx u) - sin th * val (fy u)) (e (fx u) (fy u)) /\ off (fy t) (sin th * val (fx u) + cos th * val (fy u)) (e (fx u) (fy u)) /\
  off (ftx t) (cos th * val (ftx u) - sin th * val (fty u)) (e (ftx u) (fty u)) /\ off (fty t) (sin th * val (ftx u) + cos th * val (fty u)) (e (ftx u) (fty u))) l l'.
Proof.
  intros Hc Hs E e. apply C87_ortho in E. assert (Vo : val (Bopp s) = - val s) by (unfold val; apply B2R_Bopp).
  assert (Ac : Rabs (val c) <= 1 + del) by (replace (val c) with (cos th + (val c - cos th)) by ring; eapply Rle_trans; [apply Rabs_triang|]; assert (Rabs (cos th) <= 1) by (apply Rabs_le, COS_bound); lra). assert (As : Rabs (val s) <= 1 + del) by (replace (val s) with (sin th + (val s - sin th)) by ring; eapply Rle_trans; [apply Rabs_triang|]; assert (Rabs (sin th) <= 1) by (apply Rabs_le, SIN_bound); lra).
  pose proof uro_pos as U. assert (G : 0 <= (1 + uro) ^ 2 - 1) by (cbn [pow]; nra).
  assert (K : forall r a b a0 b0 x y, off r (val a * val x + val b * val y) (dot_err a x b y) -> Rabs (val a) <= 1 + del -> Rabs (val b) <= 1 + del -> Rabs (val a - a0) <= del -> Rabs (val b - b0) <= del -> off r (a0 * val x + b0 * val y) (e x y)).
  { intros r a b a0 b0 x y O A B A0 B0 F. specialize (O F). unfold dot_err in O. unfold e. replace (val r - (a0 * val x + b0 * val y)) with ((val r - (val a * val x + val b * val y)) + ((val a - a0) * val x + (val b - b0) * val y)) by ring. eapply Rle_trans; [apply Rabs_triang|]. pose proof (Rabs_pos (val x)) as Px. pose proof (Rabs_pos (val y)) as Py.
    assert (Q : Rabs ((val a - a0) * val x + (val b - b0) * val y) <= del * (Rabs (val x) + Rabs (val y))) by (eapply Rle_trans; [apply Rabs_triang|]; rewrite !Rabs_mult; assert (Rabs (val a - a0) * Rabs (val x) <= del * Rabs (val x)) by (apply Rmult_le_compat_r; assumption); assert (Rabs (val b - b0) * Rabs (val y) <= del * Rabs (val y)) by (apply Rmult_le_compat_r; assumption); lra).
    assert (W : Rabs (val a) * Rabs (val x) + Rabs (val b) * Rabs (val y) <= (1 + del) * (Rabs (val x) + Rabs (val y))) by (assert (Rabs (val a) * Rabs (val x) <= (1 + del) * Rabs (val x)) by (apply Rmult_le_compat_r; assumption); assert (Rabs (val b) * Rabs (val y) <= (1 + del) * Rabs (val y)) by (apply Rmult_le_compat_r; assumption); lra). apply (Rmult_le_compat_l _ _ _ G) in W. lra. }
  assert (Ns : Rabs (val (Bopp s)) <= 1 + del /\ Rabs (val (Bopp s) - - sin th) <= del) by (rewrite Vo, Rabs_Ropp; split; [exact As|]; replace (- val s - - sin th) with (- (val s - sin th)) by ring; rewrite Rabs_Ropp; exact Hs). destruct Ns as [As' Hs'].
  induction E as [|u t l l' H T IH]; constructor; [clear IH T|exact IH]. destruct H as (O1 & O2 & O3 & O4 & _). unfold Rminus. rewrite !Ropp_mult_distr_l. split; [eapply K; eassumption|]. split; [eapply K; eassumption|]. split; eapply K; eassumption.
Qed.
Lemma below z : Bltb (Babs z) dtol = true -> fin z = true /\ Rabs (val z) < 1.
Proof.
  intros B. assert (F : fin z = true) by (destruct z as [s|s| |s n g C]; try reflexivity; vm_compute in B; discriminate B). split; [exact F|]. rewrite (Bltb_correct 53 1024 (Babs z) dtol) in B by (rewrite ?is_finite_Babs; first [exact F|exact dtol_fin]). rewrite B2R_Babs in B.
  assert (T : Bltb dtol (of_int 1) = true) by (vm_compute; reflexivity). rewrite (Bltb_correct 53 1024 dtol (of_int 1) dtol_fin (proj1 (of_int_val 1 ltac:(lia)))) in T. destruct (Rlt_bool_spec (Rabs (B2R z)) (B2R dtol)) as [L|]; [|discriminate]. destruct (Rlt_bool_spec (B2R dtol) (B2R (of_int 1))) as [L1|]; [|discriminate]. destruct (of_int_val 1 ltac:(lia)) as [_ V1]. unfold val in V1. rewrite V1 in L1. exact (Rlt_trans _ _ _ L L1).
Qed.
Lemma big_rnd x : 1 <= Rabs x -> 1 <= Rabs (rnd x).
Proof. intros H. apply abs_round_ge_generic; [apply fexp_correct; reflexivity|apply valid_rnd_N|apply (format_int 1); lia|exact H]. Qed.
(** A rotation leaves the curvature as it is, for every computed cosine and sine with squares that add up to 1/2 or more. *)
Theorem C87_rotate_curvature c s l l' : 1 / 2 <= val c ^ 2 + val s ^ 2 -> d_rotate dot defect c s l = Ok l' -> Forall2 (fun u t => fk t = fk u /\ fw t = fw u) l l'.
Proof.
  intros H E. assert (Fl : d_flips c (Bopp s) s c = false).
  { unfold d_flips. destruct (Bltb (Babs (dsub (Bopp s) s)) dtol) eqn:B1; [|reflexivity]. destruct (Bltb (Babs (dadd c c)) dtol) eqn:B2; [|reflexivity]. exfalso. destruct (below _ B1) as [F1 L1]. destruct (below _ B2) as [F2 L2]. destruct (dsub_fin _ _ F1) as (_ & _ & V1). destruct (dadd_fin _ _ F2) as (_ & _ & V2). assert (Vo : val (Bopp s) = - val s) by (unfold val; apply B2R_Bopp). rewrite V1, Vo in L1. rewrite V2 in L2.
    assert (D : forall x, Rabs x < 1 / 2 -> x ^ 2 < 1 / 4) by (intros x Hx; apply Rabs_def2 in Hx; nra). destruct (Rlt_or_le (Rabs (val c)) (1 / 2)) as [C|C]; [destruct (Rlt_or_le (Rabs (val s)) (1 / 2)) as [S|S]; [apply D in C; apply D in S; lra|]|].
    - assert (1 <= Rabs (- val s - val s)) by (replace (- val s - val s) with (- 2 * val s) by ring; rewrite Rabs_mult, (Rabs_left (-2)) by lra; lra). apply big_rnd in H0. lra.
    - assert (1 <= Rabs (val c + val c)) by (replace (val c + val c) with (2 * val c) by ring; rewrite Rabs_mult, (Rabs_pos_eq 2) by lra; lra). apply big_rnd in H0. lra. }
  unfold d_rotate, d_ortho in E. destruct (Bltb _ _); [discriminate|]. apply Ok_inj in E. subst l'. apply Forall2_map_self. intros u. unfold d_ortho_sample. rewrite Fl. split; reflexivity.
Qed.
(** Reflections are exact, and the curvature is negated. *)
Definition turned (sx sy : R) (s t : fsample) : Prop := val (fx t) = sx * val (fx s) /\ val (fy t) = sy * val (fy s) /\ val (ftx t) = sx * val (ftx s) /\ val (fty t) = sy * val (fty s) /\ val (fnx t) = sy * val (fty s) /\ val (fny t) = - (sx * val (ftx s)) /\ fw t = fw s /\ val (fk t) = - val (fk s) /\ finite_sample t.
Lemma reflect_sample p q (s : fsample) : (p = 1 /\ q = -1 \/ p = -1 /\ q = 1)%Z -> finite_sample s -> turned (IZR p) (IZR q) s (d_ortho_sample dot (of_int p) (of_int 0) (of_int 0) (of_int q) s).
Proof.
  intros PQ Fs. unfold finite_sample in Fs. repeat match goal with H : Forall _ (_ :: _) |- _ => inversion_clear H end.
  assert (U : forall n x, (n = 1 \/ n = -1)%Z -> fin x = true -> exists y, fin y = true /\ IZR n * val x = val y). { intros n x [->| ->] F; [exists x|exists (Bopp x)]; split; try assumption; [ring|unfold fin; rewrite is_finite_Bopp; exact F|unfold val; rewrite B2R_Bopp; ring]. }
  assert (K : forall n x y, (n = 1 \/ n = -1)%Z -> fin x = true -> fin y = true -> (fin (dot (of_int n) x (of_int 0) y) = true /\ val (dot (of_int n) x (of_int 0) y) = IZR n * val x) /\ (fin (dot (of_int 0) y (of_int n) x) = true /\ val (dot (of_int 0) y (of_int n) x) = IZR n * val x)).
  { intros n x y N Fx Fy. destruct (U n x N Fx) as (z & Fz & Ez). assert (Bn : (Z.abs n <= 2 ^ 53)%Z) by (destruct N as [->| ->]; lia). destruct (of_int_val n Bn) as [Fn Vn]. destruct (of_int_val 0 ltac:(lia)) as [F0 V0].
    split; [destruct (dot_exact dot (of_int n) x (of_int 0) y z (of_int 0) Dot Fn Fx F0 Fy Fz F0) as [A B]|destruct (dot_exact dot (of_int 0) y (of_int n) x (of_int 0) z Dot F0 Fy Fn Fx F0 Fz) as [A B]]; rewrite ?Vn, ?V0; try ring; try exact Ez; auto; split; [exact A|rewrite B, V0, Ez; ring|exact A|rewrite B, V0, Ez; ring]. }
  assert (Fl : d_flips (of_int p) (of_int 0) (of_int 0) (of_int q) = true) by (destruct PQ as [[-> ->]|[-> ->]]; vm_compute; reflexivity).
  assert (Np : (p = 1 \/ p = -1)%Z) by lia. assert (Nq : (q = 1 \/ q = -1)%Z) by lia. unfold turned, d_ortho_sample. rewrite Fl. cbn [fx fy ftx fty fnx fny fw fk].
  destruct (K p (fx s) (fy s) Np) as [[A1 B1] _]; [assumption..|]. destruct (K q (fy s) (fx s) Nq) as [_ [A2 B2]]; [assumption..|]. destruct (K p (ftx s) (fty s) Np) as [[A3 B3] _]; [assumption..|]. destruct (K q (fty s) (ftx s) Nq) as [_ [A4 B4]]; [assumption..|]. destruct (times_m1 (fk s)) as (A5 & _ & B5); [assumption|].
  do 5 (split; [assumption|]). split; [unfold val; rewrite B2R_Bopp; fold (val (dot (of_int p) (ftx s) (of_int 0) (fty s))); rewrite B3; reflexivity|]. split; [reflexivity|]. split; [rewrite B5; unfold val; apply B2R_Bopp|]. unfold finite_sample. cbn [fx fy ftx fty fnx fny fw fk]. repeat constructor; try assumption. unfold fin. rewrite is_finite_Bopp. exact A3.
Qed.
Theorem C87_reflect l l' : Forall finite_sample l -> (d_reflect_x dot defect l = Ok l' -> Forall2 (turned 1 (-1)) l l') /\ (d_reflect_y dot defect l = Ok l' -> Forall2 (turned (-1) 1) l l').
Proof.
  intros Fl. assert (M : forall p q, (p = 1 /\ q = -1 \/ p = -1 /\ q = 1)%Z -> d_ortho dot defect (of_int p) (of_int 0) (of_int 0) (of_int q) l = Ok l' -> Forall2 (turned (IZR p) (IZR q)) l l').
  { intros p q PQ E. unfold d_ortho in E. destruct (Bltb _ _); [discriminate|]. apply Ok_inj in E. subst l'. induction Fl as [|s l F Fl IH]; constructor; [apply reflect_sample; assumption|exact IH]. }
  split; intros E; [apply (M 1 (-1))%Z|apply (M (-1) 1)%Z]; auto.
Qed.
(** Two reflections give back every number. *)
Theorem C87_reflect_twice l l' l'' : Forall finite_sample l -> Forall (fun s => val (fnx s) = val (fty s) /\ val (fny s) = - val (ftx s)) l -> d_reflect_x dot defect l = Ok l' -> d_reflect_x dot defect l' = Ok l'' ->
  Forall2 (fun s t => same (fx s) (fx t) /\ same (fy s) (fy t) /\ same (ftx s) (ftx t) /\ same (fty s) (fty t) /\ same (fnx s) (fnx t) /\ same (fny s) (fny t) /\ fw t = fw s /\ same (fk s) (fk t)) l l''.
Proof.
  intros Fl No E1 E2. assert (T1 := proj1 (C87_reflect l l' Fl) E1). assert (Fl' : Forall finite_sample l') by (clear - T1; induction T1 as [|s t l l' H T IH]; constructor; [apply H|exact IH]). assert (T2 := proj1 (C87_reflect l' l'' Fl') E2). clear E1 E2 Fl'.
  revert l'' T2. induction T1 as [|s t l l' H T IH]; intros l'' T2; inversion T2 as [|? u ? m H2 T3]; subst; constructor; [|inversion Fl; inversion No; subst; auto].
  inversion Fl as [|? ? Fs _]. inversion No as [|? ? [N1 N2] _]. subst. destruct H as (A1 & A2 & A3 & A4 & A5 & A6 & A7 & A8 & _). destruct H2 as (B1 & B2 & B3 & B4 & B5 & B6 & B7 & B8 & Fu). unfold finite_sample in Fs, Fu. repeat match goal with H : Forall _ (_ :: _) |- _ => inversion_clear H end. unfold same. repeat split; try assumption; try congruence; lra.
Qed.
End Ortho.
Print Assumptions C87_ortho.
Print Assumptions C87_rotate.
Print Assumptions C87_rotate_curvature.
Print Assumptions C87_reflect.
Print Assumptions C87_reflect_twice.

(** ** Examples *)
(** Two products and a sum, and a fused operation, are allowed. *)
Example C87_dot_example : dot_ok (fun a x b y => dadd (dmul a x) (dmul b y)) /\ dot_ok (fun a x b y => Bfma mode_NE a x (dmul b y)).
Proof. split; intros a x b y; auto. Qed.
(** The point (3, 4) with curvature 0: reflected, dilated by 1/2, reversed, translated by (1, 1) *)
Example C87_example : let dot a x b y := Bfma mode_NE a x (dmul b y) in let half := ddiv (of_int 1) (of_int 2) in
  match d_reflect_x dot (fun _ _ _ _ => of_int 0) [point (of_int 3) (of_int 4)] with
  | Ok l => match d_dilate half l with Ok l => map (fun s => (B2SF (fx s), B2SF (fy s))) (d_translate (of_int 1) (of_int 1) (d_reverse l)) | Err _ => [] end
  | Err _ => []
  end = [(B2SF (ddiv (of_int 5) (of_int 2)), B2SF (of_int (-1)))].
Proof. vm_compute. reflexivity. Qed.
(** The hypotheses of C87_reflect_twice *)
Example C87_hypotheses : Forall finite_sample [point (of_int 3) (of_int 4)] /\ Forall (fun s => val (fnx s) = val (fty s) /\ val (fny s) = - val (ftx s)) [point (of_int 3) (of_int 4)].
Proof. split; [repeat constructor|]. constructor; [|constructor]. cbn [point fnx fny ftx fty]. split; [reflexivity|]. rewrite (proj2 (of_int_val (-1) ltac:(lia))), (proj2 (of_int_val 1 ltac:(lia))). reflexivity. Qed.
