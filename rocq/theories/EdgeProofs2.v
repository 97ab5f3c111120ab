(** Lemmas on parameterize: frames, first call, repeated calls. *)
From Coq Require Import List ZArith Reals Lia Lra Psatz Bool String.
From Coquelicot Require Import Coquelicot.
From Verif Require Import PyBase PolyModel BaryModel BBoxModel QuadModel QuadSpec QuadProofs QuadProps CurveModel CurveSpec CurveProps VertModel EdgeModel EdgeSpec EdgeProofs.
Import List ListNotations.
Open Scope R_scope.

Definition node_ok (q : quad) : Prop :=
  length (q_t q) = (2 * q_n q + 1)%nat /\ length (q_wgt q) = (2 * q_n q + 1)%nat /\
  nth 0 (q_t q) 0 = 0 /\ nth (2 * q_n q) (q_t q) 0 = 2 * PI /\ Forall (fun t => 0 <= t <= 2 * PI) (q_t q).

Lemma grid_0 n : grid n 0 = 0.
Proof. unfold grid. cbn [INR]. unfold Rdiv. ring. Qed.
Lemma grid_end n : (0 < n)%nat -> grid n (2 * n) = 2 * PI.
Proof. intros H. unfold grid. rewrite mult_INR. cbn [INR]. field. apply not_0_INR. lia. Qed.
Lemma grid_range n i : (0 < n)%nat -> (i <= 2 * n)%nat -> 0 <= grid n i <= 2 * PI.
Proof.
  intros Hn Hi. pose proof PI_RGT_0. assert (0 < INR n) by (apply lt_0_INR; lia). pose proof (pos_INR i).
  assert (INR i <= 2 * INR n) by (replace (2 * INR n) with (INR (2 * n)) by (rewrite mult_INR; cbn [INR]; ring); apply le_INR; lia).
  unfold grid. split.
  - apply Rmult_le_pos; [apply Rmult_le_pos; lra|]. left. apply Rinv_0_lt_compat. lra.
  - apply Rmult_le_reg_r with (INR n); [lra|]. replace (INR i * PI / INR n * INR n) with (INR i * PI) by (field; lra). nra.
Qed.
Lemma linspace_forall n (P : R -> Prop) : (0 < n)%nat -> (forall i, (i <= 2 * n)%nat -> P (grid n i)) -> Forall P (linspace 0 (2 * PI) (2 * n)).
Proof.
  intros Hn H. apply Forall_forall. intros x Hx. destruct (In_nth _ _ 0 Hx) as (i & Hi & <-). rewrite linspace_length in Hi.
  rewrite linspace_grid by lia. apply H. lia.
Qed.

Lemma trap_ok n p q : mk_quad "trap" n p = Ok q -> node_ok q /\ q_type q = "trap"%string /\ (0 < q_n q)%nat.
Proof.
  destruct n as [n|]; [|discriminate]. rewrite quad_trap. destruct (Z.ltb_spec n 4); [discriminate|]. cbv zeta. intros H0. apply Ok_inj in H0. subst q.
  unfold node_ok. cbn [q_n q_t q_wgt q_type]. set (N := Z.to_nat n). assert (HN : (0 < N)%nat) by (unfold N; lia).
  split; [|split; [reflexivity|exact HN]]. rewrite map_length, linspace_length, !linspace_grid by lia. rewrite grid_0, grid_end by exact HN.
  repeat split; try lia. apply linspace_forall; [exact HN|]. intros. apply grid_range; assumption.
Qed.
Lemma kress_ok n p q : mk_quad "kress" n p = Ok q -> node_ok q /\ q_type q = "kress"%string /\ (0 < q_n q)%nat.
Proof.
  destruct n as [n|]; [|discriminate]. rewrite quad_kress. destruct (Z.ltb_spec n 4); [discriminate|]. destruct (Z.ltb_spec p 2); [discriminate|]. cbv zeta. intros H1. apply Ok_inj in H1. subst q.
  unfold node_ok. cbn [q_n q_t q_wgt q_type]. set (N := Z.to_nat n). assert (HN : (0 < N)%nat) by (unfold N; lia). assert (HK : (2 <= Z.to_nat p)%nat) by lia.
  split; [|split; [reflexivity|exact HN]]. rewrite !map_length, linspace_length, !nth_map_linspace by lia. rewrite grid_0, grid_end, kress_0, kress_2PI by assumption.
  repeat split; try lia. apply Forall_map. apply linspace_forall; [exact HN|]. intros i Hi. pose proof (grid_range N i HN Hi) as G. pose proof PI_RGT_0.
  split.
  - destruct (Req_dec (grid N i) 0) as [->|]; [rewrite kress_0 by exact HK; lra|]. rewrite <- (kress_0 _ HK). left. apply kress_incr; try lra; exact HK.
  - destruct (Req_dec (grid N i) (2 * PI)) as [->|]; [rewrite kress_2PI by exact HK; lra|]. apply Rle_trans with (kress_node (Z.to_nat p) (2 * PI)); [left; apply kress_incr; try lra; exact HK|rewrite kress_2PI by exact HK; lra].
Qed.
Lemma dict_ok n p a b : get_quad_dict n p = Ok (a, b) ->
  (node_ok a /\ q_type a = "trap"%string /\ (0 < q_n a)%nat) /\ (node_ok b /\ q_type b = "kress"%string /\ (0 < q_n b)%nat).
Proof.
  unfold get_quad_dict. destruct (mk_quad "trap" n 7) as [qa|] eqn:Ea; [|discriminate]. destruct (mk_quad "kress" n p) as [qb|] eqn:Eb; [|discriminate].
  cbn [bind]. intros H. apply Ok_inj in H. injection H as -> ->. split; [eapply trap_ok; eassumption|eapply kress_ok; eassumption].
Qed.

(** The quadrature an edge selects from the dictionary *)
Definition pick (qd : quad * quad) (e : edge) : res quad :=
  if String.eqb (e_qtype e) "trap" then Ok (fst qd) else if String.eqb (e_qtype e) "kress" then Ok (snd qd) else Err ValueError.
Lemma pick_ok n p qd e q : get_quad_dict n p = Ok qd -> pick qd e = Ok q -> node_ok q /\ q_type q = e_qtype e /\ (0 < q_n q)%nat.
Proof.
  destruct qd as [a b]. intros H. destruct (dict_ok _ _ _ _ H) as [A B]. unfold pick. cbn [fst snd].
  destruct (String.eqb_spec (e_qtype e) "trap") as [->|]; [intros E; apply Ok_inj in E; subst; exact A|].
  destruct (String.eqb_spec (e_qtype e) "kress") as [->|]; [intros E; apply Ok_inj in E; subst; exact B|discriminate].
Qed.

(** ** Raw samples *)
Lemma raw_sample_of x d dd w : 0 < norm2 d -> raw_sample x d dd w = sample_of (Jet x d dd w).
Proof.
  intros H. pose proof (norm_pos _ H) as Hn. pose proof (norm_sq d) as Hs. unfold raw_sample, sample_of. cbn [jx jd jdd jw].
  assert (E : fst d ^ 2 + snd d ^ 2 = norm2 d) by (unfold norm2; ring). rewrite E. change (sqrt (norm2 d)) with (norm d).
  assert (ET : (fst d / norm d, snd d / norm d) = pt_scale (/ norm d) d) by (unfold pt_scale, Rdiv; f_equal; ring). cbv zeta. rewrite ET.
  f_equal. unfold cross, pt_scale. cbn [fst snd]. rewrite <- Hs. field. lra.
Qed.

Definition param_dt (e : edge) : R := (snd (e_tb e) - fst (e_tb e)) / (2 * PI).
Definition param_arg (e : edge) (t : R) : R := fst (e_tb e) + t * param_dt e.

(** parameterize with the raw samples written as jets *)
Lemma parameterize_raw qd e q X DX DDX : pick qd e = Ok q -> cX (e_curve e) (e_opts e) = Ok X -> cDX (e_curve e) (e_opts e) = Ok DX -> cDDX (e_curve e) (e_opts e) = Ok DDX ->
  parameterize qd e = do e' <- run_diary (with_param e true (2 * Z.of_nat (q_n q) + 1)
    (map (fun tw => raw_sample (X (param_arg e (fst tw))) (pt_scale (param_dt e) (DX (param_arg e (fst tw)))) (pt_scale (param_dt e ^ 2) (DDX (param_arg e (fst tw)))) (snd tw)) (combine (q_t q) (q_wgt q))));
    Ok (with_qtype e' (q_type q)).
Proof.
  intros Hq HX HDX HDDX. pose proof PI_RGT_0. unfold parameterize. fold (pick qd e). rewrite Hq. cbn [bind]. destruct (e_tb e) as [a b] eqn:Et. rewrite HX, HDX, HDDX. cbn [bind].
  assert (ED : param_dt e = 1 / 2 * (b - a) / PI) by (unfold param_dt; rewrite Et; cbn [fst snd]; field; lra).
  match goal with |- bind (run_diary (with_param e true _ ?l)) _ = bind (run_diary (with_param e true _ ?l')) _ => assert (EL : l = l') end; [|rewrite EL; reflexivity].
  apply map_ext. intros [t w]. cbn [fst snd]. rewrite ED. unfold param_arg. rewrite ED, Et. cbn [fst snd].
  replace (a + t * (1 / 2 * (b - a) / PI)) with (1 / 2 * (b - a) / PI * t + a) by ring. reflexivity.
Qed.

Lemma nth_error_combine {A B} (l : list A) (m : list B) i : nth_error (combine l m) i =
  match nth_error l i, nth_error m i with Some a, Some b => Some (a, b) | _, _ => None end.
Proof.
  revert m i. induction l as [|a l IH]; intros [|b m] [|i]; cbn; try reflexivity.
  - destruct (nth_error l i); reflexivity.
  - apply IH.
Qed.

Lemma curve_jets_ends c c' c'' q : node_ok q -> ends (curve_jets c c' c'' (q_t q) (q_wgt q)) (2 * Z.of_nat (q_n q) + 1) (c 0) (c (2 * PI)).
Proof.
  intros (L1 & L2 & N0 & N1 & _). unfold ends, curve_jets. rewrite !nth_error_map, !nth_error_combine.
  replace (Z.to_nat (2 * Z.of_nat (q_n q) + 1 - 1)) with (2 * q_n q)%nat by lia.
  rewrite !(nth_error_nth' (q_t q) 0) by lia. rewrite !(nth_error_nth' (q_wgt q) 0) by lia. rewrite N0, N1. split; reflexivity.
Qed.

(** First call: samples of the transformed curve *)
Lemma parameterize_jets n p qd e q X DX DDX : get_quad_dict n p = Ok qd -> pick qd e = Ok q ->
  cX (e_curve e) (e_opts e) = Ok X -> cDX (e_curve e) (e_opts e) = Ok DX -> cDDX (e_curve e) (e_opts e) = Ok DDX ->
  (forall t, 0 <= t <= 2 * PI -> 0 < norm2 (pt_scale (param_dt e) (DX (param_arg e t)))) ->
  diary_fine (X (fst (e_tb e))) (X (snd (e_tb e))) (e_diary e) ->
  let S := diary_sim (X (fst (e_tb e))) (X (snd (e_tb e))) (e_diary e) in
  parameterize qd e = Ok (with_qtype (after_diary (e_diary e) (with_param e true (2 * Z.of_nat (q_n q) + 1) [])
    (map sample_of (curve_jets (fun t => sapp S (X (param_arg e t))) (fun t => lin S (pt_scale (param_dt e) (DX (param_arg e t))))
       (fun t => lin S (pt_scale (param_dt e ^ 2) (DDX (param_arg e t)))) (q_t q) (q_wgt q)))) (q_type q)).
Proof.
  intros HD Hq HX HDX HDDX HR HF S. pose proof PI_RGT_0. destruct (pick_ok _ _ _ _ _ HD Hq) as (NK & _ & _). rewrite (parameterize_raw _ _ _ _ _ _ Hq HX HDX HDDX).
  set (js := curve_jets (fun t => X (param_arg e t)) (fun t => pt_scale (param_dt e) (DX (param_arg e t))) (fun t => pt_scale (param_dt e ^ 2) (DDX (param_arg e t))) (q_t q) (q_wgt q)).
  assert (RG : Forall regular js).
  { unfold js, curve_jets. apply Forall_map, Forall_forall. intros [t w] I. unfold regular. cbn [jd fst snd]. apply HR.
    destruct NK as (_ & _ & _ & _ & F). rewrite Forall_forall in F. apply F. eapply in_combine_l. exact I. }
  assert (EL : map (fun tw => raw_sample (X (param_arg e (fst tw))) (pt_scale (param_dt e) (DX (param_arg e (fst tw)))) (pt_scale (param_dt e ^ 2) (DDX (param_arg e (fst tw)))) (snd tw)) (combine (q_t q) (q_wgt q)) = map sample_of js).
  { unfold js, curve_jets. rewrite map_map. apply map_ext_in. intros [t w] I. cbn [fst snd]. apply raw_sample_of. apply HR.
    destruct NK as (_ & _ & _ & _ & F). rewrite Forall_forall in F. apply F. eapply in_combine_l. exact I. }
  rewrite EL. unfold run_diary. cbn [e_diary with_param].
  assert (EN : ends js (2 * Z.of_nat (q_n q) + 1) (X (fst (e_tb e))) (X (snd (e_tb e)))).
  { pose proof (curve_jets_ends (fun t => X (param_arg e t)) (fun t => pt_scale (param_dt e) (DX (param_arg e t))) (fun t => pt_scale (param_dt e ^ 2) (DDX (param_arg e t))) q NK) as E.
    fold js in E. cbv beta in E. unfold param_arg, param_dt in E. replace (fst (e_tb e) + 0 * _) with (fst (e_tb e)) in E by ring.
    replace (fst (e_tb e) + 2 * PI * _) with (snd (e_tb e)) in E by (field; lra). exact E. }
  rewrite (diary_samples (e_diary e) (with_param e true (2 * Z.of_nat (q_n q) + 1) (map sample_of js)) js _ _ eq_refl eq_refl RG EN HF).
  cbn [bind]. do 2 f_equal. fold S. unfold after_diary. replace (map (jmap S) js) with (curve_jets (fun t => sapp S (X (param_arg e t))) (fun t => lin S (pt_scale (param_dt e) (DX (param_arg e t))))
       (fun t => lin S (pt_scale (param_dt e ^ 2) (DDX (param_arg e t)))) (q_t q) (q_wgt q)) by (unfold js, curve_jets; rewrite map_map; reflexivity).
  destruct (last_join (e_diary e)) as [[a b]|]; reflexivity.
Qed.

(** ** Frames without any assumption on the steps *)
Lemma with_smp_self e : with_smp e (e_smp e) = e.
Proof. destruct e; reflexivity. Qed.
Lemma on_smp_frame f e : on_smp f e = with_smp e (e_smp (on_smp f e)).
Proof. unfold on_smp. destruct (e_param e); [reflexivity|rewrite with_smp_self; reflexivity]. Qed.
Lemma ortho_frame w A e e' : apply_ortho w A e = Ok e' -> e' = with_smp (log w (SOrtho A) e) (e_smp e').
Proof. unfold apply_ortho. destruct A as [M|]; [|discriminate]. destruct (Rltb TOL (ortho_defect M)); [discriminate|]. intros H. apply Ok_inj in H. subst. apply on_smp_frame. Qed.
Lemma dilate_frame w al e e' : dilate w al e = Ok e' -> e' = with_smp (log w (SDilate al) e) (e_smp e').
Proof. unfold dilate. destruct (Rltb (Rabs al) TOL); [discriminate|]. intros H. apply Ok_inj in H. subst. apply on_smp_frame. Qed.
Lemma rotate_frame w th e e' : rotate w th e = Ok e' -> e' = with_smp (log w (SRotate th) e) (e_smp e').
Proof.
  unfold rotate. cbv zeta. destruct (e_param (log w (SRotate th) e)).
  - intros H. apply ortho_frame in H. exact H.
  - intros H. apply Ok_inj in H. subst. rewrite with_smp_self. reflexivity.
Qed.
Lemma step_frame w s e e' : e_param e = true -> apply_step w s e = Ok e' -> e' = after_step w s e (e_smp e').
Proof.
  intros HP. destruct s as [a|a b|th| | |al|A]; cbn [apply_step after_step].
  - intros H. apply Ok_inj in H. subst. apply on_smp_frame.
  - unfold join_points. destruct (Rltb _ TOL); [discriminate|]. cbv zeta. rewrite log_param, HP.
    destruct (nth_error (e_smp (log w (SJoin a b) e)) 0) as [s0|]; [|discriminate]. destruct (nth_error (e_smp (log w (SJoin a b) e)) (Z.to_nat (e_npts (log w (SJoin a b) e) - 1))) as [s1|]; [|discriminate].
    destruct (Rltb _ TOL); [discriminate|]. set (e0 := log w (SJoin a b) e). set (t1 := translate false (mkvert (- fst (sx s0)) (- snd (sx s0))) e0).
    destruct (rotate false _ t1) as [t2|] eqn:E2; [|discriminate]. cbn [bind]. destruct (dilate false _ t2) as [t3|] eqn:E3; [|discriminate]. cbn [bind]. intros H. apply Ok_inj in H. subst e'.
    apply rotate_frame in E2. apply dilate_frame in E3. cbn [log] in E2, E3.
    assert (E4 : t1 = with_smp e0 (e_smp t1)) by (unfold t1, translate; apply on_smp_frame).
    set (t4 := translate false a t3). assert (E5 : t4 = with_smp t3 (e_smp t4)) by (unfold t4, translate; apply on_smp_frame).
    assert (F : forall l, with_smp t3 l = with_smp e0 l) by (intros; rewrite E3, E2, E4; reflexivity).
    change (e_smp (set_verts t4 a b)) with (e_smp t4). transitivity (set_verts (with_smp e0 (e_smp t4)) a b); [rewrite <- F, <- E5; reflexivity|].
    unfold e0. destruct w; reflexivity.
  - intros H. apply rotate_frame in H. exact H.
  - unfold reflect_x. cbv zeta. rewrite log_param, HP. intros H. apply ortho_frame in H. exact H.
  - unfold reflect_y. cbv zeta. rewrite log_param, HP. intros H. apply ortho_frame in H. exact H.
  - intros H. apply dilate_frame in H. exact H.
  - intros H. apply ortho_frame in H. exact H.
Qed.
Lemma diary_frame l : forall e e', e_param e = true -> fold_res (fun e s => apply_step false s e) l e = Ok e' -> e' = after_diary l e (e_smp e').
Proof.
  induction l as [|s l IH]; intros e e' HP; cbn [fold_res].
  - intros H. apply Ok_inj in H. subst. unfold after_diary. cbn [last_join]. rewrite with_smp_self. reflexivity.
  - destruct (apply_step false s e) as [e1|] eqn:E1; [|discriminate]. cbn [bind]. intros H.
    pose proof (step_frame false s e e1 HP E1) as F1. assert (P1 : e_param e1 = true) by (rewrite F1; destruct s; exact HP).
    specialize (IH e1 e' P1 H). rewrite IH at 1. unfold after_diary. cbn [last_join]. rewrite F1. destruct (last_join l) as [[a b]|]; destruct s; reflexivity.
Qed.

Lemma parameterize_frame n p qd e e' : get_quad_dict n p = Ok qd -> parameterize qd e = Ok e' ->
  exists q, pick qd e = Ok q /\ e' = after_diary (e_diary e) (with_param e true (2 * Z.of_nat (q_n q) + 1) []) (e_smp e').
Proof.
  intros HD H. unfold parameterize in H. fold (pick qd e) in H. destruct (pick qd e) as [q|] eqn:Eq; [|discriminate]. cbn [bind] in H. exists q. split; [reflexivity|].
  destruct (pick_ok _ _ _ _ _ HD Eq) as (_ & Ty & _).
  destruct (e_tb e) as [a b]. destruct (cX (e_curve e) (e_opts e)) as [X|]; [|discriminate]. destruct (cDX (e_curve e) (e_opts e)) as [DX|]; [|discriminate]. destruct (cDDX (e_curve e) (e_opts e)) as [DDX|]; [|discriminate].
  cbn [bind] in H. unfold run_diary in H. cbn [e_diary with_param] in H.
  match type of H with bind (fold_res _ _ ?x) _ = _ => set (e0 := x) in H end. destruct (fold_res _ _ e0) as [e1|] eqn:E1; [|discriminate]. cbn [bind] in H. apply Ok_inj in H. subst e'.
  apply (diary_frame _ e0 e1 eq_refl) in E1. cbn [e_smp with_qtype]. rewrite Ty. rewrite E1 at 1. unfold after_diary. destruct (last_join (e_diary e)) as [[x y]|]; reflexivity.
Qed.

(** ** Derivatives of transformed curves *)
Ltac dring := intros; cbv beta; match goal with |- ?a = ?b => change (@eq R a b) end; ring.
Lemma lin_comb_derive (f g : R -> R) t u v k1 k2 k3 : is_derive f t u -> is_derive g t v -> is_derive (fun t => k1 * f t + k2 * g t + k3) t (k1 * u + k2 * v).
Proof.
  intros Hf Hg. auto_derive; [repeat split; eexists; eassumption|]. replace (Derive (fun x : R => f x) t) with u by (symmetry; apply is_derive_unique; exact Hf). replace (Derive (fun x : R => g x) t) with v by (symmetry; apply is_derive_unique; exact Hg). ring.
Qed.
Lemma lin_derive S f t d : pt_derive f t d -> pt_derive (fun t => lin S (f t)) t (lin S d).
Proof.
  intros [H1 H2]. unfold pt_derive, lin, pt_mul, pt_conj. destruct S as [[c1 c2] d0 [|]]; cbn [s_c s_flip fst snd]; split.
  - replace (c1 * fst d - c2 * - snd d) with (c1 * fst d + c2 * snd d) by ring. eapply is_derive_ext; [|apply (lin_comb_derive _ _ _ _ _ c1 c2 0 H1 H2)]. dring.
  - replace (c1 * - snd d + c2 * fst d) with (c2 * fst d + (- c1) * snd d) by ring. eapply is_derive_ext; [|apply (lin_comb_derive _ _ _ _ _ c2 (- c1) 0 H1 H2)]. dring.
  - replace (c1 * fst d - c2 * snd d) with (c1 * fst d + (- c2) * snd d) by ring. eapply is_derive_ext; [|apply (lin_comb_derive _ _ _ _ _ c1 (- c2) 0 H1 H2)]. dring.
  - replace (c1 * snd d + c2 * fst d) with (c2 * fst d + c1 * snd d) by ring. eapply is_derive_ext; [|apply (lin_comb_derive _ _ _ _ _ c2 c1 0 H1 H2)]. dring.
Qed.
Lemma scale_derive k f t d : pt_derive f t d -> pt_derive (fun t => pt_scale k (f t)) t (pt_scale k d).
Proof.
  intros [H1 H2]. unfold pt_derive, pt_scale. cbn [fst snd]. split.
  - replace (k * fst d) with (k * fst d + 0 * snd d) by ring. eapply is_derive_ext; [|apply (lin_comb_derive _ _ _ _ _ k 0 0 H1 H2)]. dring.
  - replace (k * snd d) with (0 * fst d + k * snd d) by ring. eapply is_derive_ext; [|apply (lin_comb_derive _ _ _ _ _ 0 k 0 H1 H2)]. dring.
Qed.
Lemma sapp_derive S f t d : pt_derive f t d -> pt_derive (fun t => sapp S (f t)) t (lin S d).
Proof.
  intros H. destruct (lin_derive S f t d H) as [H1 H2]. unfold pt_derive, sapp, pt_add. cbn [fst snd]. split.
  - replace (fst (lin S d)) with (1 * fst (lin S d) + 0 * snd (lin S d)) by ring. eapply is_derive_ext; [|apply (lin_comb_derive _ _ _ _ _ 1 0 (fst (s_d S)) H1 H2)]. dring.
  - replace (snd (lin S d)) with (0 * fst (lin S d) + 1 * snd (lin S d)) by ring. eapply is_derive_ext; [|apply (lin_comb_derive _ _ _ _ _ 0 1 (snd (s_d S)) H1 H2)]. dring.
Qed.
Lemma arg_derive e f t d : pt_derive f (param_arg e t) d -> pt_derive (fun t => f (param_arg e t)) t (pt_scale (param_dt e) d).
Proof.
  assert (A : is_derive (param_arg e) t (param_dt e)) by (unfold param_arg; auto_derive; [trivial|ring]).
  intros [H1 H2]. split; cbn [pt_scale fst snd].
  - apply (is_derive_comp (fun s => fst (f s)) (param_arg e) t _ _ H1 A).
  - apply (is_derive_comp (fun s => snd (f s)) (param_arg e) t _ _ H2 A).
Qed.

Lemma diary_c_pos l : forall p q, diary_fine p q l -> 0 < norm2 (s_c (diary_sim p q l)).
Proof.
  induction l as [|s l IH]; intros p q HF; cbn [diary_sim].
  - unfold norm2; cbn. lra.
  - destruct HF as [F1 F2]. cbn [sim_comp s_c]. rewrite norm2_lin. apply Rmult_lt_0_compat; [apply IH; exact F2|apply step_c_pos; exact F1].
Qed.
Lemma after_diary_fields l e smp s : e_param (with_qtype (after_diary l e smp) s) = e_param e /\
  e_npts (with_qtype (after_diary l e smp) s) = e_npts e /\ e_smp (with_qtype (after_diary l e smp) s) = smp.
Proof. unfold after_diary. destruct (last_join l) as [[x y]|]; repeat split. Qed.
Lemma norm2_scale k z : norm2 (pt_scale k z) = k * k * norm2 z.
Proof. ptring. Qed.

(** ** Positions only, for arbitrary samples *)
Definition pos (e : edge) : list pt := map sx (e_smp e).
Lemma pos_on_smp f g e : e_param e = true -> (forall s, sx (f s) = g (sx s)) -> pos (on_smp f e) = map g (pos e).
Proof. intros H E. unfold pos, on_smp. rewrite H. cbn [e_smp with_smp]. rewrite !map_map. apply map_ext, E. Qed.
Definition jat (x : pt) : jet := Jet x (0, 0) (0, 0) 0.
Lemma rotate_pos th e : e_param e = true -> exists e', rotate false th e = Ok e' /\ pos e' = map (fun x => jx (jmap (step_sim (0, 0) (0, 0) (SRotate th)) (jat x))) (pos e) /\ e_param e' = true /\ e_npts e' = e_npts e.
Proof.
  intros H. unfold rotate. cbn [log]. rewrite H. cbv zeta. set (c := cos _). set (s := sin _).
  assert (C1 : s * s + c * c = 1) by apply sin2_cos2. pose proof TOL_pos.
  assert (O : orthogonal ((c, - s), (s, c))) by (unfold orthogonal; repeat split; lra).
  unfold apply_ortho. rewrite orth_defect_0 by exact O. replace (Rltb TOL 0) with false by (symmetry; apply Rltb_false; lra). cbn [log].
  eexists. split; [reflexivity|]. split; [|unfold on_smp; rewrite H; split; [exact H|reflexivity]].
  apply pos_on_smp; [exact H|]. intros u. unfold ortho_sample, mv2, jmap, jat, sapp, lin, pt_mul, pt_add. cbn [step_sim sx jx s_c s_d s_flip fst snd]. fold c s. f_equal; ring.
Qed.

(** The angle used by join_points *)
Definition join_theta (x y : pt) (a b : vert) : R :=
  (- atan2 (snd y - snd x) (fst y - fst x) + atan2 (vy b - vy a) (vx b - vx a)) * (180 / PI).

Lemma join_pos w a b e s0 s1 : e_param e = true -> nth_error (e_smp e) 0 = Some s0 -> nth_error (e_smp e) (Z.to_nat (e_npts e - 1)) = Some s1 ->
  TOL <= pdist (coord a) (coord b) -> TOL <= pdist (sx s0) (sx s1) -> TOL <= pdist (coord a) (coord b) / pdist (sx s0) (sx s1) ->
  exists e', join_points w a b e = Ok e' /\ e_anchor e' = a /\ e_endpnt e' = b /\ e_diary e' = [SJoin a b] /\ e_loop e' = false /\ e_param e' = true /\ e_npts e' = e_npts e /\
    pos e' = map (sapp (join_sim (sx s0) (sx s1) (coord a) (coord b))) (pos e).
Proof.
  intros HP E0 E1 F1 F2 F3. pose proof TOL_pos as HT. unfold join_points. rewrite pdist_pow.
  replace (Rltb (pdist (coord a) (coord b)) TOL) with false by (symmetry; apply Rltb_false; exact F1). cbv zeta. rewrite log_param, HP, log_smp, log_npts, E0, E1.
  rewrite pdist_pow'. replace (Rltb (pdist (sx s0) (sx s1)) TOL) with false by (symmetry; apply Rltb_false; exact F2).
  fold (join_theta (sx s0) (sx s1) a b). set (th := join_theta _ _ _ _). set (e0 := log w (SJoin a b) e).
  assert (P0 : e_param e0 = true) by (unfold e0; rewrite log_param; exact HP).
  set (t1 := translate false (mkvert (- fst (sx s0)) (- snd (sx s0))) e0).
  assert (P1 : e_param t1 = true) by (unfold t1, translate, on_smp; cbn [log]; rewrite P0; exact P0).
  destruct (rotate_pos th t1 P1) as (t2 & R2 & Q2 & P2 & N2). rewrite R2. cbn [bind].
  set (al := _ / _) in *. unfold dilate at 1. replace (Rltb (Rabs al) TOL) with false by (symmetry; apply Rltb_false; rewrite Rabs_pos_eq; lra). cbn [bind log].
  set (t3 := on_smp _ t2). assert (P3 : e_param t3 = true) by (unfold t3, on_smp; rewrite P2; exact P2).
  assert (EV : veqb a (VVert b) = false) by (unfold veqb, vnorm, mkvert; cbn [vx vy]; rewrite pdist_pow; apply Rltb_false; exact F1).
  eexists. split; [reflexivity|]. unfold set_verts. rewrite EV. cbn [e_anchor e_endpnt e_diary e_loop e_param e_npts].
  split; [reflexivity|]. split; [reflexivity|]. split; [reflexivity|]. split; [reflexivity|].
  split; [unfold translate, on_smp; cbn [log]; rewrite P3; exact P3|].
  split.
  { unfold translate, on_smp. cbn [log]. rewrite P3. cbn [e_npts with_smp]. unfold t3, on_smp. rewrite P2. cbn [e_npts with_smp]. rewrite N2. unfold t1, translate, on_smp. cbn [log]. rewrite P0. unfold e0. cbn [e_npts with_smp]. apply log_npts. }
  transitivity (pos (translate false a t3)); [reflexivity|]. unfold translate. cbn [log].
  rewrite (pos_on_smp _ (fun x => jx (jmap (Sim (1, 0) (coord a) false) (jat x)))); [|exact P3|intros u; unfold jmap, jat, sapp, lin, pt_mul, pt_add, coord; cbn; f_equal; ring].
  unfold t3. rewrite (pos_on_smp _ (fun x => jx (jmap (Sim (al, 0) (0, 0) false) (jat x)))); [|exact P2|intros u; unfold jmap, jat, sapp, lin, pt_mul, pt_add; cbn; f_equal; ring].
  rewrite Q2. unfold t1, translate. cbn [log]. rewrite (pos_on_smp _ (fun x => jx (jmap (Sim (1, 0) (- fst (sx s0), - snd (sx s0)) false) (jat x)))); [|exact P0|intros u; unfold jmap, jat, sapp, lin, pt_mul, pt_add; cbn; f_equal; ring].
  unfold e0. unfold pos. rewrite log_smp, !map_map. apply map_ext. intros u. pose proof (join_motion (sx s0) (sx s1) a b th ltac:(lra) ltac:(lra) eq_refl (jat (sx u))) as J.
  apply (f_equal jx) in J. exact J.
Qed.

Lemma join_sim_ends p q a b : 0 < pdist p q -> sapp (join_sim p q a b) p = a /\ sapp (join_sim p q a b) q = b.
Proof.
  intros H. assert (N : 0 < norm2 (pt_sub q p)) by (rewrite <- pdist_sq, pdist_sym; nra).
  unfold join_sim, sapp, lin, pt_div. cbn [s_c s_d s_flip]. destruct p as [p1 p2], q as [q1 q2], a as [a1 a2], b as [b1 b2]. unfold norm2, pt_sub in *. cbn [fst snd] in *.
  unfold pt_add, pt_sub, pt_scale, pt_mul, pt_conj. cbn [fst snd]. split; f_equal; field; lra.
Qed.
Lemma join_sim_norm p q a b : 0 < pdist p q -> norm (s_c (join_sim p q a b)) = pdist a b / pdist p q.
Proof.
  intros H. destruct (join_sim_ends p q a b H) as [E1 E2]. pose proof (app_dist (join_sim p q a b) p q) as E. rewrite E1, E2 in E. rewrite E. field. lra.
Qed.

(** A join after a direct similarity is the join of the original curve *)
Lemma join_sim_comp S p q a b : s_flip S = false -> 0 < norm2 (s_c S) -> 0 < pdist p q ->
  sim_comp (join_sim (sapp S p) (sapp S q) a b) S = join_sim p q a b.
Proof.
  intros F HS H. assert (N : 0 < norm2 (pt_sub q p)) by (rewrite <- pdist_sq, pdist_sym; nra).
  destruct S as [[c1 c2] [d1 d2] f]. cbn [s_flip s_c] in *. subst f. destruct p as [p1 p2], q as [q1 q2], a as [a1 a2], b as [b1 b2].
  unfold sim_comp, join_sim, sapp, lin, pt_div, norm2, pt_sub in *. cbn [s_c s_d s_flip fst snd xorb] in *.
  unfold pt_add, pt_sub, pt_scale, pt_mul, pt_conj in *. cbn [fst snd] in *.
  assert (N2 : (c1 * q1 - c2 * q2 + d1 - (c1 * p1 - c2 * p2 + d1)) * (c1 * q1 - c2 * q2 + d1 - (c1 * p1 - c2 * p2 + d1)) +
    (c1 * q2 + c2 * q1 + d2 - (c1 * p2 + c2 * p1 + d2)) * (c1 * q2 + c2 * q1 + d2 - (c1 * p2 + c2 * p1 + d2)) = (c1 * c1 + c2 * c2) * ((q1 - p1) * (q1 - p1) + (q2 - p2) * (q2 - p2))) by ring.
  rewrite N2. f_equal; f_equal; field; lra.
Qed.

(** ** The samples after a step depend only on the samples before *)
Definition same (e1 e2 : edge) : Prop := e_param e1 = e_param e2 /\ e_npts e1 = e_npts e2 /\ e_smp e1 = e_smp e2.
Definition res_same (r1 r2 : res edge) : Prop :=
  match r1, r2 with Ok a, Ok b => same a b | Err x, Err y => x = y | _, _ => False end.
Lemma same_log w s w' s' e1 e2 : same e1 e2 -> same (log w s e1) (log w' s' e2).
Proof. intros (A & B & C). unfold same. rewrite !log_param, !log_npts, !log_smp. auto. Qed.
Lemma same_on_smp f e1 e2 : same e1 e2 -> same (on_smp f e1) (on_smp f e2).
Proof. intros (A & B & C). unfold same, on_smp. rewrite A. destruct (e_param e2) eqn:E; cbn [e_param e_npts e_smp with_smp]; rewrite ?A, ?C, ?E; auto. Qed.
Lemma same_ortho w w' A e1 e2 : same e1 e2 -> res_same (apply_ortho w A e1) (apply_ortho w' A e2).
Proof. intros H. unfold apply_ortho. destruct A as [M|]; [|reflexivity]. destruct (Rltb TOL _); [reflexivity|]. apply same_on_smp, same_log, H. Qed.
Lemma same_dilate w w' al e1 e2 : same e1 e2 -> res_same (dilate w al e1) (dilate w' al e2).
Proof. intros H. unfold dilate. destruct (Rltb _ TOL); [reflexivity|]. apply same_on_smp, same_log, H. Qed.
Lemma same_translate w w' a e1 e2 : same e1 e2 -> same (translate w a e1) (translate w' a e2).
Proof. intros H. apply same_on_smp, same_log, H. Qed.
Lemma same_rotate w w' th e1 e2 : same e1 e2 -> res_same (rotate w th e1) (rotate w' th e2).
Proof.
  intros H. unfold rotate. cbv zeta. pose proof H as (A & _). rewrite !log_param, A.
  destruct (e_param e2); [apply same_ortho, same_log, H|apply same_log, H].
Qed.
Lemma same_set_verts a b e1 e2 : same e1 e2 -> same (set_verts e1 a b) (set_verts e2 a b).
Proof. intros H. exact H. Qed.
Lemma same_step w w' s e1 e2 : same e1 e2 -> res_same (apply_step w s e1) (apply_step w' s e2).
Proof.
  intros H. destruct s as [a|a b|th| | |al|A]; cbn [apply_step].
  - apply same_translate, H.
  - unfold join_points. destruct (Rltb _ TOL); [reflexivity|]. cbv zeta. pose proof (same_log w (SJoin a b) w' (SJoin a b) _ _ H) as H'. pose proof H' as (A & B & C). rewrite A, B, C.
    set (u1 := log w _ e1) in *. set (u2 := log w' _ e2) in *. destruct (e_param u2); [|exact H'].
    destruct (nth_error (e_smp u2) 0) as [s0|]; [|reflexivity]. destruct (nth_error (e_smp u2) (Z.to_nat (e_npts u2 - 1))) as [s1|]; [|reflexivity].
    destruct (Rltb _ TOL); [reflexivity|].
    pose proof (same_rotate false false (((- atan2 (snd (sx s1) - snd (sx s0)) (fst (sx s1) - fst (sx s0)) + atan2 (vy b - vy a) (vx b - vx a)) * (180 / PI))) _ _ (same_translate false false (mkvert (- fst (sx s0)) (- snd (sx s0))) _ _ H')) as HR.
    destruct (rotate false _ (translate false _ u1)) as [x1|], (rotate false _ (translate false _ u2)) as [x2|]; cbn in HR; try contradiction; [|cbn; congruence]. cbn [bind].
    match goal with |- context [dilate false ?r x1] => pose proof (same_dilate false false r _ _ HR) as HDl end.
    destruct (dilate false _ x1) as [y1|], (dilate false _ x2) as [y2|]; cbn in HDl; try contradiction; [|cbn; congruence]. cbn [bind].
    apply same_set_verts, same_translate, HDl.
  - apply same_rotate, H.
  - unfold reflect_x. cbv zeta. pose proof H as (A & _). rewrite !log_param, A. destruct (e_param e2); [apply same_ortho, same_log, H|apply same_log, H].
  - unfold reflect_y. cbv zeta. pose proof H as (A & _). rewrite !log_param, A. destruct (e_param e2); [apply same_ortho, same_log, H|apply same_log, H].
  - apply same_dilate, H.
  - apply same_ortho, H.
Qed.
Lemma same_refl e : same e e. Proof. repeat split. Qed.

Lemma fold_res_app {A B} (f : B -> A -> res B) l1 l2 b : fold_res f (l1 ++ l2) b = do b' <- fold_res f l1 b; fold_res f l2 b'.
Proof. revert b. induction l1 as [|a l1 IH]; intros b; cbn; [reflexivity|]. destruct (f b a); cbn; [apply IH|reflexivity]. Qed.

Lemma res_same_refl r : res_same r r.
Proof. destruct r; [apply same_refl|reflexivity]. Qed.
Lemma same_fold l : forall e1 e2, same e1 e2 -> res_same (fold_res (fun e s => apply_step false s e) l e1) (fold_res (fun e s => apply_step false s e) l e2).
Proof.
  induction l as [|s l IH]; intros e1 e2 H; cbn [fold_res]; [exact H|]. pose proof (same_step false false s _ _ H) as HS.
  destruct (apply_step false s e1) as [a|], (apply_step false s e2) as [b|]; cbn in HS; try contradiction; [apply IH, HS|cbn; congruence].
Qed.

(** Appending a step to the diary and parameterizing is parameterizing and then stepping *)
Lemma parameterize_snoc qd e s :
  res_same (parameterize qd (with_diary e (e_diary e ++ [s]))) (do e1 <- parameterize qd e; apply_step true s e1).
Proof.
  unfold parameterize. cbn [e_qtype e_tb e_curve e_opts with_diary].
  destruct (if String.eqb (e_qtype e) "trap" then _ else _) as [q|]; [|reflexivity]. cbn [bind]. destruct (e_tb e) as [a b].
  destruct (cX (e_curve e) (e_opts e)) as [X|]; [|reflexivity]. destruct (cDX (e_curve e) (e_opts e)) as [DX|]; [|reflexivity]. destruct (cDDX (e_curve e) (e_opts e)) as [DDX|]; [|reflexivity]. cbn [bind].
  match goal with |- context [with_param e true ?n ?m] => set (N := n); set (raw := m) end.
  unfold run_diary. cbn [e_diary with_param with_diary]. rewrite fold_res_app.
  set (s1 := with_param (with_diary e _) true N raw). set (s2 := with_param e true N raw).
  pose proof (same_fold (e_diary e) s1 s2 (conj eq_refl (conj eq_refl eq_refl))) as H.
  destruct (fold_res _ (e_diary e) s1) as [u|], (fold_res _ (e_diary e) s2) as [v|]; cbn in H; try contradiction; [|cbn; congruence]. cbn [bind fold_res].
  pose proof (same_step false true s u (with_qtype v (q_type q)) H) as HS.
  destruct (apply_step false s u) as [x|], (apply_step true s (with_qtype v (q_type q))) as [y|]; cbn in HS; try contradiction; [exact HS|cbn; congruence].
Qed.
