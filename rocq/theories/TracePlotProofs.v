(** Lemmas for plots of traces. *)
From Coq Require Import List ZArith Reals Lia Lra String Permutation.
From Verif Require Import PyBase PolyModel BaryModel QuadModel QuadProofs QuadProps EdgeModel EdgeSpec EdgeProofs2 ContourModel CellModel CellSpec CellProofs CellProps CellProps2 ContourProofs2 ContourProofs4 ContourProps CellProps3 TraceModel LocalModel TracePlotModel TracePlotSpec.
Import List ListNotations.
Open Scope R_scope.

Lemma map_seq_incr (g : nat -> R) m : (forall i j, (i < j < m)%nat -> g i < g j) -> increasing (map g (seq 0 m)).
Proof.
  intros G i j x y L Ei Ej. rewrite nth_error_map in Ei, Ej. destruct (nth_error (seq 0 m) i) as [a|] eqn:Ea; [|discriminate]. destruct (nth_error (seq 0 m) j) as [b|] eqn:Eb; [|discriminate]. cbn in Ei, Ej. injection Ei as <-. injection Ej as <-.
  assert (Li : (i < m)%nat) by (rewrite <- (seq_length m 0); apply nth_error_Some; congruence). assert (Lj : (j < m)%nat) by (rewrite <- (seq_length m 0); apply nth_error_Some; congruence).
  rewrite (nth_error_nth' _ O) in Ea by (rewrite seq_length; assumption). rewrite (nth_error_nth' _ O) in Eb by (rewrite seq_length; assumption). rewrite seq_nth in Ea, Eb by assumption. injection Ea as <-. injection Eb as <-. apply G. cbn. lia.
Qed.
Lemma removelast_map_seq (g : nat -> R) m : removelast (map g (seq 0 (S m))) = map g (seq 0 m).
Proof. rewrite seq_S, map_app. cbn [map]. apply removelast_last. Qed.
(** Nodes of both quadratures *)
Definition node_list (l : list R) : Prop := increasing l /\ Forall (fun x => 0 <= x < 2 * PI) l.
Lemma trap_nodes n p q : mk_quad "trap" n p = Ok q -> node_list (removelast (q_t q)) /\ List.length (removelast (q_t q)) = (2 * q_n q)%nat.
Proof.
  destruct n as [n|]; [|discriminate]. rewrite quad_trap. destruct (Z.ltb_spec n 4); [discriminate|]. cbv zeta. intros E. apply Ok_inj in E. subst q. cbn [q_t q_n]. set (N := Z.to_nat n). assert (HN : (0 < N)%nat) by (unfold N; lia). unfold linspace. rewrite removelast_map_seq, map_length, seq_length. split; [|reflexivity].
  assert (P : 0 < (2 * PI - 0) / INR (2 * N)) by (apply Rdiv_lt_0_compat; [pose proof PI_RGT_0; lra|apply lt_0_INR; lia]). assert (Z0 : INR (2 * N) <> 0) by (apply not_0_INR; lia). split.
  - apply map_seq_incr. intros i j L. apply Rplus_lt_compat_l, Rmult_lt_compat_r; [exact P|]. apply lt_INR. lia.
  - apply Forall_map, Forall_forall. intros i I. apply in_seq in I. rewrite Rplus_0_l. split; [apply Rmult_le_pos; [apply pos_INR|lra]|]. apply Rlt_le_trans with (INR (2 * N) * ((2 * PI - 0) / INR (2 * N))); [apply Rmult_lt_compat_r; [exact P|apply lt_INR; lia]|]. right. field. exact Z0.
Qed.
Lemma kress_nodes n p q : mk_quad "kress" n p = Ok q -> node_list (removelast (q_t q)) /\ List.length (removelast (q_t q)) = (2 * q_n q)%nat.
Proof.
  destruct n as [n|]; [|discriminate]. rewrite quad_kress. destruct (Z.ltb_spec n 4); [discriminate|]. destruct (Z.ltb_spec p 2); [discriminate|]. cbv zeta. intros E. apply Ok_inj in E. subst q. cbn [q_t q_n]. set (N := Z.to_nat n). assert (HN : (0 < N)%nat) by (unfold N; lia). set (k := Z.to_nat p). assert (HK : (2 <= k)%nat) by (unfold k; lia). unfold linspace. rewrite map_map, removelast_map_seq, map_length, seq_length. split; [|reflexivity].
  assert (P : 0 < (2 * PI - 0) / INR (2 * N)) by (apply Rdiv_lt_0_compat; [pose proof PI_RGT_0; lra|apply lt_0_INR; lia]). assert (Z0 : INR (2 * N) <> 0) by (apply not_0_INR; lia).
  assert (X : forall i, (i <= 2 * N)%nat -> 0 <= 0 + INR i * ((2 * PI - 0) / INR (2 * N)) <= 2 * PI). { intros i L. rewrite Rplus_0_l. split; [apply Rmult_le_pos; [apply pos_INR|lra]|]. apply Rle_trans with (INR (2 * N) * ((2 * PI - 0) / INR (2 * N))); [apply Rmult_le_compat_r; [lra|apply le_INR; lia]|]. right. field. exact Z0. }
  assert (Y : forall i j, (i < j)%nat -> 0 + INR i * ((2 * PI - 0) / INR (2 * N)) < 0 + INR j * ((2 * PI - 0) / INR (2 * N))) by (intros i j L; apply Rplus_lt_compat_l, Rmult_lt_compat_r; [exact P|]; apply lt_INR; lia). split.
  - apply map_seq_incr. intros i j L. apply kress_incr; [exact HK|apply X; lia|apply Y; lia|apply X; lia].
  - apply Forall_map, Forall_forall. intros i I. apply in_seq in I. split.
    + destruct (X i ltac:(lia)) as [[L|E] U]; [|rewrite <- E, kress_0 by exact HK; lra]. rewrite <- (kress_0 k HK) at 1. left. apply kress_incr; [exact HK|lra|exact L|exact U].
    + pose proof (Y i (2 * N)%nat ltac:(lia)) as L. replace (0 + INR (2 * N) * ((2 * PI - 0) / INR (2 * N))) with (2 * PI) in L by (field; exact Z0). apply Rlt_le_trans with (kress_node k (2 * PI)); [apply kress_incr; [exact HK|apply X; lia|exact L|lra]|rewrite kress_2PI by exact HK; lra].
Qed.

(** ** Edges sampled with a dictionary *)
Definition sampled_by (qd : quad * quad) (e : edge) : Prop := quad_of qd e <> Err KeyError /\ (quad_of qd e = Ok (fst qd) \/ quad_of qd e = Ok (snd qd)) /\ nodes qd e = match quad_of qd e with Ok q => q_t q | Err _ => [] end /\
  node_list (removelast (nodes qd e)) /\ Z.of_nat (List.length (removelast (nodes qd e))) = (e_npts e - 1)%Z /\ (0 <= e_npts e - 1)%Z.
Lemma dict_nodes n p qd : get_quad_dict n p = Ok qd -> forall e, e_qtype e = "trap"%string \/ e_qtype e = "kress"%string -> exists q, quad_of qd e = Ok q /\ (q = fst qd \/ q = snd qd) /\ nodes qd e = q_t q /\ node_list (removelast (q_t q)) /\ List.length (removelast (q_t q)) = (2 * q_n q)%nat /\ pick qd e = Ok q.
Proof.
  intros HD e T. unfold get_quad_dict in HD. destruct (mk_quad "trap" n 7) as [a|] eqn:Ea; [|discriminate]. cbn [bind] in HD. destruct (mk_quad "kress" n p) as [b|] eqn:Eb; [|discriminate]. cbn [bind] in HD. apply Ok_inj in HD. subst qd. destruct (trap_nodes _ _ _ Ea) as (A1 & A2). destruct (kress_nodes _ _ _ Eb) as (B1 & B2).
  unfold quad_of, nodes, pick. cbn [fst snd]. destruct T as [-> | ->]; cbn [String.eqb Ascii.eqb Bool.eqb]; eexists; (split; [reflexivity|]); auto 8.
Qed.
Lemma resampled_by n p qd o e0 e : get_quad_dict n p = Ok qd -> resampled qd o e0 e -> sampled_by qd e.
Proof.
  intros HD (e1 & P & E). destruct (parameterize_frame _ _ _ _ _ HD P) as (q & Eq & F). assert (QT : e_qtype e0 = "trap"%string \/ e_qtype e0 = "kress"%string) by (unfold pick in Eq; destruct (String.eqb_spec (e_qtype e0) "trap"); [auto|]; destruct (String.eqb_spec (e_qtype e0) "kress"); [auto|discriminate]).
  assert (T1 : e_qtype e1 = e_qtype e0) by (rewrite F; unfold after_diary; destruct (last_join (e_diary e0)) as [[? ?]|]; reflexivity). assert (N1 : e_npts e1 = (2 * Z.of_nat (q_n q) + 1)%Z) by (rewrite F; unfold after_diary; destruct (last_join (e_diary e0)) as [[? ?]|]; reflexivity).
  assert (T : e_qtype e = e_qtype e0) by (rewrite E, <- T1; destruct (Z.eqb o (-1)); [unfold reverse_orientation; destruct (e_param e1)|]; reflexivity). assert (N : e_npts e = (2 * Z.of_nat (q_n q) + 1)%Z) by (rewrite E, <- N1; destruct (Z.eqb o (-1)); [unfold reverse_orientation; destruct (e_param e1)|]; reflexivity).
  rewrite <- T in QT. destruct (dict_nodes _ _ _ HD e QT) as (q' & Q1 & Q2 & Q3 & Q4 & Q5 & Q6). assert (q' = q) by (unfold pick in Q6, Eq; rewrite T in Q6; congruence). subst q'.
  unfold sampled_by. rewrite Q1, Q3, Q5, N. split; [discriminate|]. split; [destruct Q2 as [-> | ->]; auto|]. split; [reflexivity|]. split; [exact Q4|]. split; lia.
Qed.
(** The edges of a cell sampled with [qd] *)
Lemma cell_sampled contains n p qd w H c H' c' ess : get_quad_dict n p = Ok qd -> wf_cell c -> param_cell contains qd w H c = Ok (H', c') -> boundary_edges H' c' ess -> Forall (sampled_by qd) (concat ess).
Proof.
  intros Q W P B. destruct (param_cell_ok contains (fun _ _ => True) (fun _ _ _ _ _ _ => I) qd n p w H c H' c' Q W P) as (ess0 & ess' & Pr). pose proof (Permutation_sym (p_edges _ _ _ _ _ _ _ _ _ Pr)) as PE.
  assert (X : forall k, In k (c_comps c') -> exists k0, In k0 (c_comps c) /\ k_edges k0 = k_edges k /\ k_orients k0 = k_orients k). { intros k I. apply (in_map (fun k => (k_edges k, k_orients k))) in I. eapply Permutation_in in I; [|apply Permutation_sym; exact PE]. apply in_map_iff in I. destruct I as (k0 & E & I). injection E as E1 E2. eauto. }
  clear Pr PE. unfold boundary_edges in B. revert X B. generalize (c_comps c') as ks. intros ks X B. induction B as [|k es ks ess R B IH]; [constructor|]. cbn [concat]. apply Forall_app. split; [|apply IH; intros k' I; apply X; right; exact I].
  destruct (X k (or_introl eq_refl)) as (k0 & Ik & Ee & Eo). rewrite <- Ee in R. apply Forall_forall. intros e Ie. apply In_nth_error in Ie. destruct Ie as (j & Ej). assert (Lj : (j < List.length (k_edges k0))%nat). { unfold refs in R. rewrite (Forall2_len _ _ _ R). apply nth_error_Some. congruence. }
  destruct (nth_error (k_edges k0) j) as [i|] eqn:Ei; [|apply nth_error_None in Ei; lia]. pose proof W as (_ & _ & W0). rewrite Forall_forall in W0. destruct (W0 _ Ik) as (Wl & _). unfold wf_contour in Wl. destruct (nth_error (k_orients k0) j) as [o|] eqn:Eoo; [|apply nth_error_None in Eoo; lia].
  destruct (param_edge contains n p qd w H c H' c' k0 j i o Q W P Ik Ei Eoo) as (e0 & e' & _ & E' & Rs). pose proof (Forall2_nth _ _ _ R _ _ _ Ei Ej) as E''. cbn in E''. assert (e' = e) by congruence. subst e'. exact (resampled_by _ _ _ _ _ _ Q Rs).
Qed.

(** ** The parameter array *)
Lemma put_mid d k v : (List.length v <= k)%nat -> put (d ++ repeat 0 k) (Z.of_nat (List.length d)) (Z.of_nat (List.length d) + Z.of_nat (List.length v)) v = Ok (d ++ v ++ repeat 0 (k - List.length v)).
Proof.
  intros L. unfold put, pyidx. cbv zeta. rewrite app_length, repeat_length. rewrite !(proj2 (Z.ltb_ge _ _)) by lia. rewrite !Z.min_l by lia. rewrite (proj2 (Z.eqb_eq _ _)) by lia. rewrite Nat2Z.id. f_equal. rewrite firstn_app, Nat.sub_diag, firstn_all. cbn [firstn]. rewrite app_nil_r. f_equal. f_equal. rewrite skipn_app, skipn_all2 by lia. cbn [app]. replace (List.length d + List.length v - List.length d)%nat with (List.length v) by lia.
  generalize (List.length v) as m. clear. intros m. revert k. induction m as [|m IH]; intros [|k]; cbn; auto.
Qed.
Lemma laid_fold qd es : Forall (sampled_by qd) es -> forall d t0 k, (Z.of_nat k = csize es)%Z ->
  fold_res (fun (s : list R * R * Z) e => let '(t, t0, i) := s in do q <- quad_of qd e; do t <- put t i (i + e_npts e - 1) (map (Rplus t0) (removelast (q_t q))); Ok (t, t0 + 2 * PI, (i + e_npts e - 1)%Z)) es (d ++ repeat 0 k, t0, Z.of_nat (List.length d)) =
  Ok (d ++ laid_out qd t0 es, t0 + INR (List.length es) * (2 * PI), (Z.of_nat (List.length d) + csize es)%Z).
Proof.
  induction 1 as [|e es S F IH]; intros d t0 k K.
  - cbn [fold_res laid_out List.length INR]. unfold csize in *. cbn in K. assert (k = O) by lia. subst k. cbn [repeat map total fold_right]. rewrite app_nil_r, Rmult_0_l, Rplus_0_r. change (csize []) with 0%Z. rewrite Z.add_0_r. reflexivity.
  - destruct S as (_ & Q & N & _ & L & G). cbn [fold_res]. assert (X : exists q, quad_of qd e = Ok q) by (destruct Q as [-> | ->]; eauto). destruct X as (q & Eq). rewrite Eq in *. cbn [bind]. rewrite N in L. assert (Kc : csize (e :: es) = (e_npts e - 1 + csize es)%Z) by reflexivity. rewrite Kc in *. assert (Gc : (0 <= csize es)%Z). { clear -F. induction F as [|e es S F IH]; [reflexivity|]. destruct S as (_ & _ & _ & _ & _ & G). change (csize (e :: es)) with (e_npts e - 1 + csize es)%Z. lia. }
    set (v := map (Rplus t0) (removelast (q_t q))). assert (Lv : Z.of_nat (List.length v) = (e_npts e - 1)%Z) by (unfold v; rewrite map_length; exact L). replace (Z.of_nat (List.length d) + e_npts e - 1)%Z with (Z.of_nat (List.length d) + Z.of_nat (List.length v))%Z by lia. rewrite put_mid by lia. cbn [bind]. rewrite app_assoc. replace (Z.of_nat (List.length d) + Z.of_nat (List.length v))%Z with (Z.of_nat (List.length (d ++ v))) by (rewrite app_length; lia).
    rewrite IH by lia. cbn [laid_out]. rewrite N. fold v. rewrite <- app_assoc. do 2 f_equal; [f_equal|].
    + change (List.length (e :: es)) with (Datatypes.S (List.length es)). rewrite S_INR. ring.
    + rewrite app_length. lia.
Qed.
Lemma laid_length qd es : Forall (sampled_by qd) es -> forall t0, Z.of_nat (List.length (laid_out qd t0 es)) = csize es.
Proof. induction 1 as [|e es S F IH]; intros t0; [reflexivity|]. cbn [laid_out]. rewrite app_length, map_length, Nat2Z.inj_add, IH. destruct S as (_ & _ & _ & _ & L & _). rewrite L. reflexivity. Qed.
Lemma laid_range qd es : Forall (sampled_by qd) es -> forall t0, Forall (fun x => t0 <= x < t0 + INR (List.length es) * (2 * PI)) (laid_out qd t0 es).
Proof.
  pose proof PI_RGT_0 as P. induction 1 as [|e es S F IH]; intros t0; [constructor|]. cbn [laid_out]. change (List.length (e :: es)) with (Datatypes.S (List.length es)). rewrite S_INR. pose proof (pos_INR (List.length es)) as Pn. assert (0 <= INR (List.length es) * (2 * PI)) by (apply Rmult_le_pos; lra). apply Forall_app. split.
  - apply Forall_map. destruct S as (_ & _ & _ & (_ & Rg) & _). eapply Forall_impl; [|exact Rg]. intros x X. cbn in X. lra.
  - eapply Forall_impl; [|apply IH]. intros x X. cbn in X. lra.
Qed.
Lemma increasing_app l m : increasing l -> increasing m -> (forall x y, In x l -> In y m -> x < y) -> increasing (l ++ m).
Proof.
  intros A B C i j x y L Ei Ej. destruct (Nat.lt_ge_cases j (List.length l)) as [Lj|Lj].
  - rewrite nth_error_app1 in Ei, Ej by lia. exact (A i j x y L Ei Ej).
  - rewrite nth_error_app2 in Ej by lia. destruct (Nat.lt_ge_cases i (List.length l)) as [Li|Li].
    + rewrite nth_error_app1 in Ei by lia. apply C; eapply nth_error_In; eassumption.
    + rewrite nth_error_app2 in Ei by lia. eapply B; [|exact Ei|exact Ej]. lia.
Qed.
Lemma laid_increasing qd es : Forall (sampled_by qd) es -> forall t0, increasing (laid_out qd t0 es).
Proof.
  induction 1 as [|e es S F IH]; intros t0; [intros [|i] j x y; discriminate|]. cbn [laid_out]. destruct S as (_ & _ & _ & (I & Rg) & _). apply increasing_app; [|apply IH|].
  - intros i j x y L Ei Ej. rewrite nth_error_map in Ei, Ej. destruct (nth_error _ i) as [a|] eqn:Ea in Ei; [|discriminate]. destruct (nth_error _ j) as [b|] eqn:Eb in Ej; [|discriminate]. cbn in Ei, Ej. injection Ei as <-. injection Ej as <-. apply Rplus_lt_compat_l. exact (I i j a b L Ea Eb).
  - intros x y Ix Iy. apply in_map_iff in Ix. destruct Ix as (a & <- & Ia). rewrite Forall_forall in Rg. specialize (Rg a Ia). cbn in Rg. pose proof (laid_range qd es F (t0 + 2 * PI)) as X. rewrite Forall_forall in X. specialize (X y Iy). cbn in X. lra.
Qed.
(** An edge sampled with another number of points *)
Lemma put_other n v m k : (Z.of_nat (List.length v) <> m)%Z -> (0 <= m <= Z.of_nat n)%Z -> k = m -> put (repeat 0 n) 0 k v = Err BroadcastError.
Proof. intros D L ->. unfold put, pyidx. cbv zeta. rewrite repeat_length. rewrite !(proj2 (Z.ltb_ge _ _)) by lia. rewrite !Z.min_l by lia. rewrite (proj2 (Z.eqb_neq _ _)) by lia. reflexivity. Qed.

(** ** Ticks *)
Lemma zrange_length a b : List.length (zrange a b) = Z.to_nat (b - a).
Proof. unfold zrange. rewrite map_length, seq_length. reflexivity. Qed.
Lemma zrange_nth a b i : (Z.of_nat i < b - a)%Z -> nth_error (zrange a b) i = Some (a + Z.of_nat i)%Z.
Proof. intros L. unfold zrange. rewrite nth_error_map, (nth_error_nth' _ O) by (rewrite seq_length; lia). rewrite seq_nth by lia. reflexivity. Qed.
Lemma linspace_at a b m i : (i <= m)%nat -> nth_error (linspace a b m) i = Some (a + INR i * ((b - a) / INR m)).
Proof. intros L. unfold linspace. rewrite nth_error_map, (nth_error_nth' _ O) by (rewrite seq_length; lia). rewrite seq_nth by lia. reflexivity. Qed.
