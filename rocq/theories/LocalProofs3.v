(** Lemmas on local functions: the operations and the constructor. *)
From Coq Require Import List ZArith Reals Lia Lra Bool.
From Verif Require Import PyBase PolyModel PolySpec PolyProofs PolyProofs2 PolyProofs4 BaryModel VertModel EdgeModel EdgeSpec EdgeProps4 ContourModel CellModel CellSpec CellProofs CellProps ContourProofs ContourProofs2 ContourProofs3 ContourProps CellProps3 TraceModel TraceSpec TraceProofs IntPolyModel IntPolyProofs LocalModel LocalSpec LocalProofs LocalProofs2.
Import List ListNotations.
Open Scope R_scope.

(** ** Combinations of combinations *)
Section Compose.
Variables (f : R -> R) (g : R -> R -> R).
Hypothesis G : forall x y, g x y = x + f y.
Lemma entry_comp a b m x : entrywise f b m -> entrywise2 Rplus a m x -> entrywise2 g a b x.
Proof using G.
  intros (L1 & E1) (L2 & L3 & E2). split; [congruence|]. split; [exact L3|]. intros i u v A B. rewrite G. apply (E2 i u (f v) A). apply E1, B.
Qed.
Lemma kept_comp a b m x : kept f b m -> kept2 Rplus a m x -> kept2 g a b x.
Proof using G. destruct a as [a|], b as [b|], m as [m|], x as [x|]; cbn; try tauto; try discriminate. apply entry_comp. Qed.
Lemma comb_comp a b m x : combines f b m -> combines2 Rplus a m x -> combines2 g a b x.
Proof using G.
  intros ((b0 & m0 & E1 & E2 & E3) & K1 & K2) ((a0 & m1 & x0 & E4 & E5 & E6 & E7) & K3 & K4). rewrite E2 in E5. injection E5 as <-. split; [exists a0, b0, x0; repeat (split; [assumption|]); eapply entry_comp; eassumption|].
  split; eapply kept_comp; eassumption.
Qed.
Lemma logs_comp a b m x : entrywise f b m -> (forall j z, nth_error x j = Some z <-> exists u v, nth_error a j = Some u /\ nth_error m j = Some v /\ z = u + v) ->
  forall j z, nth_error x j = Some z <-> exists u v, nth_error a j = Some u /\ nth_error b j = Some v /\ z = g u v.
Proof using G.
  intros (L & E) S j z. rewrite S. split; intros (u & v & A & B & ->).
  - destruct (nth_error b j) as [y|] eqn:Y.
    + pose proof (E j y Y) as E'. rewrite B in E'. injection E' as ->. exists u, y. rewrite G. auto.
    + apply nth_error_None in Y. assert (j < List.length m)%nat by (apply nth_error_Some; congruence). lia.
  - exists u, (f v). rewrite G. auto.
Qed.
Lemma harm_comp a b m x : harm1 f b m -> harm2 Rplus a m x -> harm2 g a b x.
Proof using G.
  intros (A1 & A2 & A3 & A4 & A5) (B1 & B2 & B3 & B4 & B5). repeat (split; [eapply comb_comp; eassumption|]). eapply logs_comp; eassumption.
Qed.
Lemma inner_comp a b m x : inner1 f b m -> inner2 Rplus a m x -> inner2 g a b x.
Proof using G. intros (A1 & A2 & A3) (B1 & B2 & B3). repeat split; eapply kept_comp; eassumption. Qed.
End Compose.

Lemma coefs_comp p q m r : canonical q -> coefs1 (fun x => x * -1) q m -> coefs2 Rplus p m r -> coefs2 Rminus p q r.
Proof.
  intros C A B i j. rewrite B, A. replace (cutoff (coef q i j * -1)) with (coef q i j * -1); [f_equal; lra|]. symmetry. destruct (canonical_coef_big q i j C) as [->|E]; [rewrite Rmult_0_l; apply cutoff_zero|]. apply cutoff_id. rewrite Rabs_mult, (Rabs_left (-1)); lra.
Qed.
Section Ext.
Variables (f g : R -> R).
Hypothesis E : forall y, f y = g y.
Lemma entry_ext a b : entrywise f a b -> entrywise g a b.
Proof using E. intros (L & K). split; [exact L|]. intros i y A. rewrite <- E. auto. Qed.
Lemma kept_ext a b : kept f a b -> kept g a b.
Proof using E. destruct a, b; cbn; auto. apply entry_ext. Qed.
Lemma comb_ext t x : combines f t x -> combines g t x.
Proof using E. intros ((a & b & E1 & E2 & E3) & K1 & K2). split; [exists a, b; auto using entry_ext|]. split; apply kept_ext; assumption. Qed.
Lemma harm_ext t x : harm1 f t x -> harm1 g t x.
Proof using E. intros (A1 & A2 & A3 & A4 & A5). repeat (split; [apply comb_ext; assumption|]). apply entry_ext, A5. Qed.
Lemma inner_ext t x : inner1 f t x -> inner1 g t x.
Proof using E. intros (A1 & A2 & A3). repeat split; apply kept_ext; assumption. Qed.
Lemma poly_ext t x : poly1 f t x -> poly1 g t x.
Proof using E. intros (A1 & A2 & A3 & A4 & A5 & A6). repeat (split; [apply comb_ext; assumption|]). repeat split; intros i j; rewrite <- E; auto. Qed.
End Ext.

Section Cell.
Context {H : heap} {c : cell} {ess : list (list edge)}.
Hypothesis F : cell_fresh H c ess.
Local Notation es := (concat ess).
Local Notation carries := (@carries ess).

Lemma u_sub_good a b : @u_good c ess a -> @u_good c ess b -> exists r, u_sub a b = Ok r /\ @u_good c ess r /\ poly2 Rminus (u_poly a) (u_poly b) (u_poly r) /\ harm2 Rminus (u_harm a) (u_harm b) (u_harm r) /\ inner2 Rminus a b r.
Proof using F.
  intros A B. unfold u_sub. destruct (u_mul_good F b (-1) B) as (m & -> & Gm & Sp & Sh & Si). cbn [bind]. destruct (u_add_good F a m A Gm) as (r & E & Gr & Tp & Th & Ti). exists r. split; [exact E|]. split; [exact Gr|].
  assert (X : forall x y, x - y = x + y * -1) by (intros; ring). split; [|split; [exact (harm_comp _ _ X _ _ _ _ Sh Th)|exact (inner_comp _ _ X _ _ _ _ Si Ti)]].
  destruct B as ((v & n & w & q & k & _ & _ & C1 & C2 & C3 & C4) & _). destruct Sp as (P1 & P2 & P3 & P4 & P5 & P6). destruct Tp as (Q1 & Q2 & Q3 & Q4 & Q5 & Q6). split; [exact (comb_comp _ _ X _ _ _ _ P1 Q1)|]. split; [exact (comb_comp _ _ X _ _ _ _ P2 Q2)|]. repeat split; eapply coefs_comp; eassumption.
Qed.
Lemma u_div_good a k : k <> 0 -> @u_good c ess a -> let f := fun x => x / k in exists r, u_div a (SNum k) = Ok r /\ @u_good c ess r /\ poly1 f (u_poly a) (u_poly r) /\ harm1 f (u_harm a) (u_harm r) /\ inner1 f a r.
Proof using F.
  intros K A f. unfold u_div. destruct (Req_EM_T k 0); [contradiction|]. destruct (u_mul_good F a (1 / k) A) as (m & -> & Gm & Sp & Sh & Si). exists m. split; [reflexivity|]. split; [exact Gm|].
  assert (X : forall x, x * (1 / k) = f x) by (intros; unfold f; field; exact K). split; [exact (poly_ext _ _ X _ _ Sp)|]. split; [exact (harm_ext _ _ X _ _ Sh)|exact (inner_ext _ _ X _ _ Si)].
Qed.
Lemma interior_len p h b vals g1 g2 : interior_values p h H c b = Ok (vals, g1, g2) -> @int_good c (Some vals) /\ @int_good c (Some g1) /\ @int_good c (Some g2).
Proof using.
  intros E. unfold interior_values in E. inv_as E ys E1. inv_as E lg E2. inv_as E l E3. apply Ok_inj in E. injection E as -> -> ->. destruct (c_int c) as [z|] eqn:Ez; [|discriminate]. apply Ok_inj in E1. subst z.
  repeat split; cbn; exists ys; (split; [exact Ez|]); try destruct b; apply map_length.
Qed.
(** The trace argument of the constructor *)
Lemma targ_ok g : (exists v, boundary_data es g v) -> exists t, match g with TTrace t => Ok t | TVal v => cell_trace H c v end = Ok t /\ exists a, tr_vals t = Some a /\ forall v, boundary_data es g v -> a = v \/ exists k, a = [k] /\ Forall (eq k) v.
Proof using F.
  intros (v0 & L0 & D0). destruct g as [t|[k|l|]].
  - exists t. split; [reflexivity|]. destruct D0 as [E|(k & E & Fk)]; rewrite E; eexists; (split; [reflexivity|]); intros v (L & [D|(j & D & Fj)]); rewrite E in D; injection D as D; subst; eauto.
  - destruct (trace_scal F k) as (v & -> & L & Fv). eexists. split; [reflexivity|]. exists v. split; [reflexivity|]. intros v' (L' & D'). left. apply nth_ext with (d := k) (d' := k); [unfold fitting in *; lia|]. intros i I. rewrite Forall_forall in Fv, D'. rewrite <- (Fv (nth i v k)), <- (D' (nth i v' k)); [reflexivity|apply nth_In; unfold fitting in *; lia|apply nth_In; exact I].
  - subst l. rewrite (trace_arr F) by exact L0. eexists. split; [reflexivity|]. exists v0. split; [reflexivity|]. intros v (_ & D). auto.
  - destruct D0.
Qed.
Lemma mk_lpois_inv S f g i d u : mk_lpois S H c f g i d = Ok u ->
  exists P t v h, mk_lpoly (panti_laplacian RS f) H c = Ok P /\ mk_lharm S H c (made es v None None) = Ok h /\ fitting es v /\ u_harm u = h /\ u_poly u = P /\
  match g with TTrace t => Ok t | TVal v => cell_trace H c v end = Ok t /\ (do a <- attr (tr_vals t); do b <- attr (tr_vals (lp_trace P)); np_sub a b) = Ok v /\
  if orb i d then exists vals g1 g2, interior_values P h H c d = Ok (vals, g1, g2) /\ u_vals u = Some vals /\ u_g1 u = Some g1 /\ u_g2 u = Some g2 else u_vals u = None /\ u_g1 u = None /\ u_g2 u = None.
Proof using F.
  intros E. unfold mk_lpois in E. inv_as E P E1. inv_as E t E2. inv_as E a E3. inv_as E b E4. inv_as E v E5. inv_as E t' E6. apply (trace_arr_inv F) in E6. destruct E6 as [L ->]. inv_as E h E7. exists P, t, v, h. rewrite E3. cbn [bind]. rewrite E4. cbn [bind].
  destruct (orb i d).
  - inv_as E r E8. destruct r as [[vals g1] g2]. apply Ok_inj in E. subst u. repeat (split; [assumption || reflexivity|]). exists vals, g1, g2. auto.
  - apply Ok_inj in E. subst u. repeat (split; [assumption || reflexivity|]). auto.
Qed.
Lemma mk_lpois_good S f g i d u : mk_lpois S H c f g i d = Ok u -> @u_good c ess u.
Proof using F.
  intros E. destruct (mk_lpois_inv _ _ _ _ _ _ E) as (P & t & v & h & E1 & E2 & L & <- & <- & _ & _ & K). destruct (mk_lpoly_ok F (panti_laplacian RS f) (panti_canonical _)) as (P' & E1' & _ & _ & _ & _ & G). rewrite E1 in E1'. apply Ok_inj in E1'. subst P'.
  destruct (mk_lharm_good F S _ v None None _ (made_carries _ None None L Logic.I Logic.I) E2) as (n' & w' & p & q & b & d' & G').
  split; [repeat eexists; apply G|]. split; [repeat eexists; apply G'|]. destruct (orb i d).
  - destruct K as (vals & g1 & g2 & K & -> & -> & ->). apply (interior_len _ _ _ _ _ _ K).
  - destruct K as (-> & -> & ->). repeat split.
Qed.

(** The values of the trace are the data. *)
Lemma zip_back a : forall b, List.length a = List.length b -> zip Rplus (zip_with Rminus a b) b = a.
Proof using. clear. unfold zip, zip_with. induction a as [|x a IH]; intros [|y b] L; try discriminate; [reflexivity|]. cbn. f_equal; [ring|]. apply IH. cbn in L. lia. Qed.
Lemma sub_data g t b v : match g with TTrace t => Ok t | TVal v => cell_trace H c v end = Ok t -> fitting es b -> fitting es v -> (do a <- attr (tr_vals t); np_sub a b) = Ok v -> boundary_data es g (zip Rplus v b).
Proof using F.
  intros Et Lb Lv E. inv_as E a Ea. destruct (tr_vals t) as [a'|] eqn:Ev; [|discriminate]. apply Ok_inj in Ea. subst a'.
  assert (X : (List.length a = List.length b /\ zip Rplus v b = a) \/ exists k, a = [k] /\ zip Rplus v b = repeat k (List.length b)).
  { destruct (Nat.eq_dec (List.length a) (List.length b)) as [L|L]; [left; rewrite np_sub_zip in E by exact L; apply Ok_inj in E; subst v; auto using zip_back|right].
    unfold np_sub, np_add in E. rewrite map_length in E. apply Nat.eqb_neq in L. rewrite L in E. apply Nat.eqb_neq in L.
    assert (G : forall k, map (fun x => k + x) (map Ropp b) = v -> zip Rplus v b = repeat k (List.length b)) by (intros k <-; clear; unfold zip; induction b as [|y b IH]; [reflexivity|]; cbn; f_equal; [ring|exact IH]).
    destruct a as [|k [|k' a]].
    - destruct b as [|y [|y' b]]; try discriminate. apply Ok_inj in E. subst v. cbn in *. unfold fitting in *. cbn in *. lia.
    - exists k. split; [reflexivity|]. apply G. apply Ok_inj in E. congruence.
    - destruct b as [|y [|y' b]]; try discriminate. apply Ok_inj in E. subst v. unfold fitting in *. cbn in *. rewrite map_length in Lv. lia. }
  split; [apply fit_zip; assumption|]. destruct g as [t'|[k|l|]].
  - apply Ok_inj in Et. subst t'. destruct X as [[_ ->]|(k & -> & ->)]; [left; exact Ev|right]. exists k. split; [exact Ev|]. apply Forall_forall. intros x I. symmetry. eapply repeat_spec, I.
  - destruct (trace_scal F k) as (l & E' & Ll & Fl). rewrite E' in Et. apply Ok_inj in Et. subst t. cbn in Ev. injection Ev as <-. destruct X as [[_ ->]|(j & -> & ->)]; [exact Fl|]. inversion_clear Fl as [|? ? Ej _]. subst j. apply Forall_forall. intros x I. symmetry. eapply repeat_spec, I.
  - apply (trace_arr_inv F) in Et. destruct Et as [Ll ->]. cbn in Ev. injection Ev as <-. destruct X as [[_ ->]|(j & -> & ->)]; [reflexivity|]. unfold fitting in *. replace (List.length b) with 1%nat by (cbn in Ll; lia). reflexivity.
  - rewrite (trace_other F) in Et. discriminate.
Qed.
Lemma mk_lpois_trace S f g i d u : mk_lpois S H c f g i d = Ok u -> exists v, get_trace_values u = Ok v /\ boundary_data es g v.
Proof using F.
  intros E. destruct (mk_lpois_inv _ _ _ _ _ _ E) as (P & t & v & h & E1 & E2 & L & <- & <- & Et & Ed & _). destruct (mk_lpoly_ok F (panti_laplacian RS f) (panti_canonical _)) as (P' & E1' & _ & _ & _ & _ & G). rewrite E1 in E1'. apply Ok_inj in E1'. subst P'. destruct G as (G & _).
  destruct (mk_lharm_good F S _ v None None _ (made_carries _ None None L Logic.I Logic.I) E2) as (n' & w' & p & q & b & d' & G' & _). pose proof (carries_len _ _ _ _ G) as (Lp & _).
  destruct G as (_ & G & _). destruct G' as (_ & G' & _). unfold get_trace_values. rewrite G, G' in *. cbn [attr bind] in *. rewrite np_add_zip by (unfold fitting in *; lia). eexists. split; [reflexivity|]. eapply sub_data; eauto.
Qed.
Lemma good_trace u : @u_good c ess u -> exists v, get_trace_values u = Ok v /\ fitting es v /\
  exists x y, tr_vals (lh_trace (u_harm u)) = Some x /\ tr_vals (lp_trace (u_poly u)) = Some y /\ fitting es x /\ fitting es y /\ v = zip Rplus x y.
Proof using F.
  intros ((v & n & w & q & m & G & _) & (v' & n' & w' & p & q' & b & d' & G' & _) & _). pose proof (carries_len _ _ _ _ G) as (Lp & _). pose proof (carries_len _ _ _ _ G') as (Lp' & _).
  destruct G as (_ & G & _). destruct G' as (_ & G' & _). unfold get_trace_values. rewrite G, G' in *. cbn [attr bind] in *. rewrite np_add_zip by (unfold fitting in *; lia). eexists. split; [reflexivity|]. split; [apply fit_zip; assumption|]. exists v', v. auto 6.
Qed.

(** Every function that the code builds is of this kind. *)
Lemma locfun_good S u : locfun S H c u -> @u_good c ess u.
Proof using F.
  induction 1 as [f g i d u E|u v w _ A _ B E|u v w _ A _ B E|u k w _ A E|u k w _ A E].
  - eapply mk_lpois_good, E.
  - destruct (u_add_good F u v A B) as (r & E' & G & _). rewrite E in E'. apply Ok_inj in E'. subst r. exact G.
  - destruct (u_sub_good u v A B) as (r & E' & G & _). rewrite E in E'. apply Ok_inj in E'. subst r. exact G.
  - destruct k as [k|]; [|discriminate]. destruct (u_mul_good F u k A) as (r & E' & G & _). rewrite E in E'. apply Ok_inj in E'. subst r. exact G.
  - destruct k as [k|]; [|discriminate]. unfold u_div in E. destruct (Req_EM_T k 0) as [Z|Z]; [discriminate|]. destruct (u_mul_good F u (1 / k) A) as (r & E' & G & _). rewrite E in E'. apply Ok_inj in E'. subst r. exact G.
Qed.

(** ** The constructor succeeds *)
Lemma lam_fold Ny n f r0 (l : list R) : tame es n Ny -> List.length l = n -> fitting es r0 -> (n <= List.length (ny_lam Ny))%nat ->
  (forall r j t v w a, (j < n)%nat -> nth_error (ny_lam Ny) j = Some t -> tr_vals t = Some v -> tr_wnd t = Some w -> nth_error l j = Some a -> fitting es r -> fitting es v -> fitting es w -> exists r', f r j = Ok r' /\ fitting es r') ->
  exists r, fold_res f (seq 0 n) r0 = Ok r /\ fitting es r.
Proof using.
  intros T Ll L0 _ Hf. destruct T as (_ & _ & _ & T). assert (G : forall m r, (m <= n)%nat -> fitting es r -> exists r', fold_res f (seq (n - m) m) r = Ok r' /\ fitting es r'); [|specialize (G n r0 (le_n _) L0); rewrite Nat.sub_diag in G; exact G].
  induction m as [|m IH]; intros r Lm Lr; [exists r; auto|]. cbn [seq fold_res]. destruct (T (n - S m)%nat ltac:(lia)) as (t & v & w & E1 & E2 & E3 & L1 & L2). destruct (nth_error l (n - S m)) as [a|] eqn:Ea; [|apply nth_error_None in Ea; lia].
  destruct (Hf r (n - S m)%nat t v w a ltac:(lia) E1 E2 E3 Ea Lr L1 L2) as (r' & -> & Lr'). cbn [bind]. replace (S (n - S m)) with (n - m)%nat by lia. apply IH; [lia|exact Lr'].
Qed.
Lemma geti_nth {A} (l : list A) j x : nth_error l j = Some x -> geti l j = Ok x.
Proof using. unfold geti. intros ->. reflexivity. Qed.
Lemma mk_lharm_total S v : tame es (Z.to_nat (c_holes c)) S -> fitting es v -> exists h, mk_lharm S H c (made es v None None) = Ok h /\ List.length (lh_log h) = Z.to_nat (c_holes c).
Proof using F.
  intros T L. pose proof T as (T1 & T2 & T3 & T4). set (n := Z.to_nat (c_holes c)) in *. assert (Ln : (n <= List.length (ny_lam S))%nat).
  { destruct n as [|m]; [lia|]. destruct (T4 m ltac:(lia)) as (t & _ & _ & E & _). assert (m < List.length (ny_lam S))%nat by (apply nth_error_Some; congruence). lia. }
  unfold mk_lharm. cbn [tr_vals made attr bind]. destruct (T2 v L) as (d & -> & Ld). cbn [bind].
  destruct (set_wtd_ok F _ _ _ _ d (made_carries v None None L Logic.I Logic.I) Ld) as (t1 & -> & C1). cbn [bind]. unfold harm_conj. destruct (T1 v L) as (w & lc & -> & Lw & Lc). cbn [bind]. rewrite (trace_arr F) by exact Lw. cbn [bind].
  unfold conjugable. rewrite (npts_cell F). cbn [attr bind].
  assert (Z0 : fitting es (repeat 0 (Z.to_nat (csize es)))) by (unfold fitting; rewrite repeat_length, Z2Nat.id; [reflexivity|apply csize_nonneg, (all_well F)]).
  change (holes c) with (seq 0 n).
  destruct (lam_fold S n (fun l j => do a <- geti lc j; do t <- geti (ny_lam S) j; do u <- attr (tr_vals t); np_iadd l (map (Rmult a) u)) _ lc T Lc Z0 Ln) as (lam & -> & Llam).
  { intros r j t x y a _ E1 E2 E3 E4 Lr L1 L2. rewrite (geti_nth _ _ _ E4), (geti_nth _ _ _ E1). cbn [bind]. rewrite E2. cbn [attr bind]. rewrite np_iadd_zip by (rewrite map_length; unfold fitting in *; lia). eexists. split; [reflexivity|]. apply (fit_zip Rplus); [exact Lr|apply fit_map, L1]. }
  cbn [bind]. rewrite np_sub_zip by (unfold fitting in *; lia). cbn [bind]. assert (Lp : fitting es (zip_with Rminus v lam)) by (apply (fit_zip Rminus); assumption). rewrite (trace_arr F) by exact Lp. cbn [bind tr_vals made attr].
  unfold harm_wnd. destruct (T2 w Lw) as (dw & -> & Ldw). cbn [bind]. change (holes c) with (seq 0 n).
  destruct (lam_fold S n (fun d j => do t <- geti (ny_lam S) j; match tr_wnd t with None => Err ValueError | Some u => do a <- geti lc j; np_iadd d (map (Rmult a) u) end) dw lc T Lc Ldw Ln) as (wn & -> & Lwn).
  { intros r j t x y a _ E1 E2 E3 E4 Lr L1 L2. rewrite (geti_nth _ _ _ E1). cbn [bind]. rewrite E3, (geti_nth _ _ _ E4). cbn [bind]. rewrite np_iadd_zip by (rewrite map_length; unfold fitting in *; lia). eexists. split; [reflexivity|]. apply (fit_zip Rplus); [exact Lr|apply fit_map, L2]. }
  cbn [bind]. destruct (set_wnd_ok F _ _ _ _ wn C1 Lwn) as (t2 & -> & C2). cbn [bind].
  unfold biharm. destruct (T3 _ w lc Lp Lw Lc) as (b & bd & -> & Lb & Lbd). cbn [bind]. rewrite (trace_arr F) by exact Lb. cbn [bind]. destruct (set_wnd_ok F _ _ _ _ bd (made_carries b None None Lb Logic.I Logic.I) Lbd) as (t3 & -> & C3). cbn [bind]. eexists. split; [reflexivity|]. exact Lc.
Qed.
Lemma mk_lpois_total S f g : tame es (Z.to_nat (c_holes c)) S -> (exists v, boundary_data es g v) -> exists u, mk_lpois S H c f g false false = Ok u.
Proof using F.
  intros T D. unfold mk_lpois. destruct (mk_lpoly_ok F (panti_laplacian RS f) (panti_canonical _)) as (P & -> & _ & _ & _ & _ & G). cbn [bind]. destruct (targ_ok g D) as (t & -> & a & Ea & Ha). cbn [bind]. rewrite Ea. cbn [attr bind]. destruct G as (G & _). pose proof (carries_len _ _ _ _ G) as (Lb & _). destruct G as (_ & G & _). rewrite G. cbn [attr bind].
  set (b := samples_of es _) in *. assert (X : exists d, np_sub a b = Ok d /\ fitting es d).
  { destruct D as (v & D). pose proof D as (Lv & _). destruct (Ha v D) as [->|(k & -> & _)]; [rewrite np_sub_zip by (unfold fitting in *; lia); eexists; split; [reflexivity|]; apply (fit_zip Rminus); assumption|].
    destruct (Nat.eq_dec (List.length b) 1) as [E|E]; [rewrite np_sub_zip by (rewrite E; reflexivity); eexists; split; [reflexivity|]; destruct b as [|y [|y' b]]; try discriminate; exact Lb|].
    unfold np_sub, np_add. rewrite map_length. rewrite (proj2 (Nat.eqb_neq _ _)) by (cbn [List.length]; lia). eexists. split; [reflexivity|]. unfold fitting. rewrite !map_length. exact Lb. }
  destruct X as (d & -> & Ld). cbn [bind]. rewrite (trace_arr F) by exact Ld. cbn [bind]. destruct (mk_lharm_total S d T Ld) as (h & -> & _). cbn [bind orb]. eauto.
Qed.
End Cell.
