(** C67: plots of traces. *)
From Coq Require Import List ZArith Reals Lia Lra String.
From Verif Require Import PyBase PolyModel BaryModel QuadModel QuadProofs QuadProps EdgeModel EdgeSpec EdgeProps EdgeProps2 EdgeProofs2 ContourModel CellModel CellSpec CellProofs CellProps CellProps2 ContourProofs2 ContourProofs3 ContourProofs3 ContourProofs4 ContourProps CellProps3 TraceModel LocalModel LocalProofs LocalProofs5 LocalProps Annulus DiscCell TracePlotModel TracePlotSpec TracePlotProofs.
Import List ListNotations.
Open Scope R_scope.

(** ** The parameter *)
(** The cell sampled with the same quadratures: each sample has its parameter. The parameters increase
    along the boundary, and edge [j] takes the interval from [2 pi j] to [2 pi (j + 1)]. *)
Theorem C67_parameter contains H0 z ids mesh rtol atol c n p qd w H H' c' ess : mk_cell H0 z ids mesh rtol atol = Ok c -> get_quad_dict n p = Ok qd -> param_cell contains qd w H c = Ok (H', c') -> boundary_edges H' c' ess ->
  exists t, find_t H' c' qd = Ok t /\ List.length t = List.length (contour_smp (concat ess)) /\ increasing t /\
  forall es1 e es2 i x, concat ess = es1 ++ e :: es2 -> nth_error (removelast (nodes qd e)) i = Some x ->
    (i < List.length (open_smp e))%nat /\ nth_error t (List.length (contour_smp es1) + i) = Some (2 * PI * INR (List.length es1) + x) /\ 0 <= x < 2 * PI.
Proof.
  intros B Q P BE. assert (Rd : ContourProps.ready contains H' c') by (exists H0, z, ids, mesh, rtol, atol, c, n, p, qd, w, H; auto). destruct (ready_uniform _ _ _ _ Rd BE) as (F & _). pose proof (cell_sampled contains n p qd w H c H' c' ess Q (built_wf _ _ _ _ _ _ _ B) P BE) as S. exists (laid_out qd 0 (concat ess)).
  assert (L : Z.of_nat (List.length (laid_out qd 0 (concat ess))) = csize (concat ess)) by (apply laid_length, S). pose proof (smp_len F) as SL. split; [|split; [lia|split; [apply laid_increasing, S|]]].
  - unfold find_t. rewrite (npts_cell F). cbn [attr bind]. rewrite (kedges_ok F). cbn [bind]. pose proof (laid_fold qd (concat ess) S [] 0 (Z.to_nat (csize (concat ess))) ltac:(lia)) as X. cbn [app List.length] in X. change (Z.of_nat 0) with 0%Z in X. rewrite X. reflexivity.
  - intros es1 e es2 i x E Ex. rewrite E in S. apply Forall_app in S. destruct S as (S1 & S2). inversion S2 as [|? ? Se S3]; subst. destruct Se as (_ & _ & _ & (_ & Rg) & Ln & Gn). rewrite Forall_forall in Rg. pose proof (all_well F) as W. rewrite E in W. apply Forall_app in W. destruct W as (W1 & W2). inversion W2 as [|? ? We W3]; subst. destruct We as (We1 & We2 & We3 & _).
    assert (Li : (i < List.length (removelast (nodes qd e)))%nat) by (apply nth_error_Some; congruence). split; [|split; [|exact (Rg x (nth_error_In _ _ Ex))]].
    + unfold open_smp. assert (LL : List.length (removelast (e_smp e)) = (List.length (e_smp e) - 1)%nat) by (clear -We3 We2; destruct (e_smp e) as [|a l] using rev_ind; [reflexivity|]; rewrite removelast_last, app_length; cbn; lia). lia.
    + rewrite E. assert (X : forall es1 t0, Forall (sampled_by qd) es1 -> laid_out qd t0 (es1 ++ e :: es2) = laid_out qd t0 es1 ++ laid_out qd (t0 + 2 * PI * INR (List.length es1)) (e :: es2)).
      { clear. induction es1 as [|a es1 IH]; intros t0 S; [cbn [List.length INR app laid_out]; rewrite Rmult_0_r, Rplus_0_r; reflexivity|]. inversion S; subst. change ((a :: es1) ++ e :: es2) with (a :: (es1 ++ e :: es2)). cbn [laid_out]. rewrite IH by assumption. change (List.length (a :: es1)) with (Datatypes.S (List.length es1)). rewrite S_INR, <- app_assoc. f_equal. f_equal. cbn [laid_out]. replace (t0 + 2 * PI + 2 * PI * INR (List.length es1)) with (t0 + 2 * PI * (INR (List.length es1) + 1)) by ring. reflexivity. }
      rewrite X by exact S1. assert (L1 : List.length (contour_smp es1) = List.length (laid_out qd 0 es1)). { pose proof (laid_length qd es1 S1 0) as A. pose proof (contour_smp_length es1 W1) as A'. lia. } rewrite L1, nth_error_app2 by lia. replace (List.length (laid_out qd 0 es1) + i - List.length (laid_out qd 0 es1))%nat with i by lia. cbn [laid_out]. rewrite nth_error_app1 by (rewrite map_length; exact Li). rewrite nth_error_map, Ex. cbn. f_equal. lra.
Qed.
Print Assumptions C67_parameter.
(** Quadratures with another number of nodes are refused. *)
Theorem C67_size_refused contains H0 z ids mesh rtol atol c n p qd w H H' c' ess m p' qd' : mk_cell H0 z ids mesh rtol atol = Ok c -> get_quad_dict (PInt n) p = Ok qd -> param_cell contains qd w H c = Ok (H', c') -> boundary_edges H' c' ess ->
  get_quad_dict (PInt m) p' = Ok qd' -> m <> n -> find_t H' c' qd' = Err BroadcastError.
Proof.
  intros B Q P BE Q' D. assert (Rd : ContourProps.ready contains H' c') by (exists H0, z, ids, mesh, rtol, atol, c, (PInt n), p, qd, w, H; auto). destruct (ready_uniform _ _ _ _ Rd BE) as (F & NE & _). pose proof (cell_sampled contains _ p qd w H c H' c' ess Q (built_wf _ _ _ _ _ _ _ B) P BE) as S.
  assert (QN : forall k r u, get_quad_dict (PInt k) r = Ok u -> (4 <= k)%Z /\ q_n (fst u) = Z.to_nat k /\ q_n (snd u) = Z.to_nat k). { clear. intros k r u E. unfold get_quad_dict in E. rewrite quad_trap, quad_kress in E. destruct (Z.ltb_spec k 4); [discriminate|]. cbn [bind] in E. destruct (Z.ltb r 2); [discriminate|]. cbn [bind] in E. apply Ok_inj in E. subst u. cbn. auto. }
  unfold find_t. rewrite (npts_cell F). cbn [attr bind]. rewrite (kedges_ok F). cbn [bind]. destruct (concat ess) as [|e es] eqn:Ee; [exfalso; exact (ready_nonempty _ _ _ _ Rd BE Ee)|]. inversion S as [|? ? Se S']; subst. destruct Se as (_ & Qe & Ne & _ & Le & Ge). destruct (QN _ _ _ Q) as (K1 & K2 & K3). destruct (QN _ _ _ Q') as (K1' & K2' & K3').
  assert (T : e_qtype e = "trap"%string \/ e_qtype e = "kress"%string) by (unfold quad_of in Qe; destruct (String.eqb_spec (e_qtype e) "trap"); [auto|]; destruct (String.eqb_spec (e_qtype e) "kress"); [auto|destruct Qe; discriminate]).
  destruct (dict_nodes _ _ _ Q e T) as (q & E1 & E2 & E3 & _ & E5 & _). destruct (dict_nodes _ _ _ Q' e T) as (q' & E1' & E2' & E3' & _ & E5' & _). rewrite E3, E5 in Le. assert (Zq : q_n q = Z.to_nat n) by (destruct E2 as [-> | ->]; assumption). assert (Zq' : q_n q' = Z.to_nat m) by (destruct E2' as [-> | ->]; assumption).
  cbn [fold_res]. rewrite E1'. cbn [bind]. assert (Gc : (0 <= csize es)%Z). { clear -S'. induction S' as [|e es S F IH]; [reflexivity|]. destruct S as (_ & _ & _ & _ & _ & G). change (csize (e :: es)) with (e_npts e - 1 + csize es)%Z. lia. } assert (Kc : csize (e :: es) = (e_npts e - 1 + csize es)%Z) by reflexivity.
  rewrite (put_other _ _ (e_npts e - 1)); [reflexivity|rewrite map_length, E5', Zq'; lia|lia|lia].
Qed.
Print Assumptions C67_size_refused.

(** ** Tick marks *)
(** When the number of intervals divides the number of edges, in particular for up to eight edges with
    the default of nine marks, the marks are at ends of edges, evenly spaced from 0 to the end, and
    each label is the number at its mark. *)
Theorem C67_ticks ne mx : (1 <= ne)%Z -> (2 <= mx)%Z -> let k := (Z.min (ne + 1) mx - 1)%Z in (k | ne)%Z ->
  exists ticks labels, find_ticks ne mx = Ok (ticks, labels) /\ List.length ticks = Z.to_nat (k + 1) /\ List.length labels = Z.to_nat (k + 1) /\
  forall i, (Z.of_nat i <= k)%Z -> exists l, nth_error labels i = Some l /\ nth_error ticks i = Some (label_value l) /\ label_value l = 2 * PI * IZR (Z.of_nat i * (ne / k)).
Proof.
  intros H1 H2 k (q & Eq). assert (Hk : (1 <= k)%Z) by (unfold k; lia). unfold find_ticks. cbv zeta. replace (Z.min (ne + 1) mx) with (k + 1)%Z by (unfold k; lia). replace (k + 1 - 1)%Z with k by lia. rewrite (proj2 (Z.eqb_neq k 0)) by lia. rewrite (proj2 (Z.eqb_eq (ne mod k) 0)) by (rewrite Eq; apply Z_mod_mult). assert (Er : (ne / k = q)%Z) by (rewrite Eq; apply Z.div_mul; lia). rewrite Er.
  unfold np_linspace. rewrite (proj2 (Z.ltb_ge _ _)) by lia. rewrite (proj2 (Z.eqb_neq _ _)) by lia. cbn [bind]. replace (Z.to_nat (k + 1 - 1)) with (Z.to_nat k) by lia. eexists _, _. split; [reflexivity|]. rewrite linspace_length. split; [lia|]. split; [cbn [List.length]; rewrite map_length, zrange_length; lia|].
  intros i Li. rewrite (linspace_at _ _ _ i) by lia. assert (V : 0 + INR i * ((2 * PI * IZR ne - 0) / INR (Z.to_nat k)) = 2 * PI * IZR (Z.of_nat i * q)). { rewrite (INR_IZR_INZ i), (INR_IZR_INZ (Z.to_nat k)), Z2Nat.id by lia. rewrite Eq, !mult_IZR. field. apply not_0_IZR. lia. } rewrite V.
  destruct i as [|i]; [exists 0%Z; cbn [nth_error]; split; [reflexivity|]; unfold label_value; cbn [Z.of_nat Z.mul]; split; [f_equal|]; lra|]. exists (2 * Z.of_nat (S i) * q)%Z. cbn [nth_error]. rewrite nth_error_map, zrange_nth by lia. cbn [option_map]. split; [do 2 f_equal; lia|]. unfold label_value. rewrite !mult_IZR. split; [f_equal|]; ring.
Qed.
Print Assumptions C67_ticks.
(** Otherwise every label between the first and the last is wrong: mark [i] is at its label times
    k / (k - 1), where [k] is the number of intervals. *)
Theorem C67_ticks_refuted ne mx : (1 <= ne)%Z -> (2 <= mx)%Z -> let k := (Z.min (ne + 1) mx - 1)%Z in ~ (k | ne)%Z ->
  exists ticks labels, find_ticks ne mx = Ok (ticks, labels) /\ List.length ticks = Z.to_nat (k + 1) /\ List.length labels = Z.to_nat (k + 1) /\ (2 <= k)%Z /\
  nth_error ticks 0 = Some 0 /\ nth_error labels 0 = Some 0%Z /\ nth_error ticks (Z.to_nat k) = Some (2 * PI * IZR ne) /\ nth_error labels (Z.to_nat k) = Some (2 * ne)%Z /\
  forall i, (1 <= Z.of_nat i < k)%Z -> exists l x, nth_error labels i = Some l /\ l = (2 * Z.of_nat i * (ne / k))%Z /\ nth_error ticks i = Some x /\ x = label_value l * (IZR k / IZR (k - 1)) /\ label_value l < x < 2 * PI * IZR ne.
Proof.
  intros H1 H2 k N. assert (Hk : (1 <= k)%Z) by (unfold k; lia). assert (Hk2 : (2 <= k)%Z) by (destruct (Z.eq_dec k 1) as [E|]; [exfalso; apply N; rewrite E; exists ne; lia|lia]). assert (Hn : (k < ne)%Z). { unfold k in *. destruct (Z.le_gt_cases (ne + 1) mx) as [L|L]; [exfalso; apply N; rewrite Z.min_l by lia; exists 1%Z; lia|]. rewrite Z.min_r in * by lia. assert (mx - 1 <> ne)%Z by (intros E; apply N; rewrite E; exists 1%Z; lia). lia. }
  assert (M : (ne mod k <> 0)%Z) by (intros E; apply N; apply Z.mod_divide; [lia|exact E]). unfold find_ticks. cbv zeta. replace (Z.min (ne + 1) mx) with (k + 1)%Z by (unfold k; lia). replace (k + 1 - 1)%Z with k by lia. rewrite (proj2 (Z.eqb_neq k 0)) by lia. rewrite (proj2 (Z.eqb_neq (ne mod k) 0)) by exact M. rewrite (proj2 (Z.ltb_ge (k + 1) 0)) by lia. set (r := (ne / k)%Z).
  assert (Hr : (1 <= r)%Z) by (unfold r; apply Z.div_le_lower_bound; lia). assert (Hd : (r * k < ne)%Z). { pose proof (Z.div_mod ne k ltac:(lia)) as D. pose proof (Z.mod_pos_bound ne k ltac:(lia)). fold r in D. lia. }
  unfold np_linspace. rewrite (proj2 (Z.ltb_ge k 0)) by lia. rewrite (proj2 (Z.eqb_neq k 0)) by lia. cbn [bind]. set (xs := linspace _ _ _). assert (Lx : List.length xs = Z.to_nat k) by (unfold xs; rewrite linspace_length; lia).
  assert (Px : forall i, (Z.of_nat i < k)%Z -> nth_error (xs ++ [2 * PI * IZR ne]) i = Some (2 * PI * IZR (Z.of_nat i * r) * (IZR k / IZR (k - 1)))). { intros i Li. rewrite nth_error_app1 by lia. unfold xs. rewrite linspace_at by lia. f_equal. rewrite (INR_IZR_INZ i), (INR_IZR_INZ (Z.to_nat (k - 1))), Z2Nat.id by lia. rewrite !mult_IZR. field. apply not_0_IZR. lia. }
  eexists _, _. split; [reflexivity|]. split; [rewrite app_length; cbn [List.length]; lia|]. split; [cbn [List.length]; rewrite app_length, map_length, zrange_length; cbn [List.length]; lia|]. split; [exact Hk2|]. split; [|split; [reflexivity|split; [|split]]].
  - rewrite (Px O) by lia. f_equal. cbn [Z.of_nat Z.mul]. lra.
  - rewrite nth_error_app2 by lia. rewrite Lx, Nat.sub_diag. reflexivity.
  - replace (Z.to_nat k) with (Datatypes.S (Z.to_nat (k - 1))) by lia. cbn [nth_error]. rewrite nth_error_app2 by (rewrite map_length, zrange_length; lia). rewrite map_length, zrange_length, Nat.sub_diag. reflexivity.
  - intros i Li. exists (2 * Z.of_nat i * r)%Z. eexists. split; [|split; [reflexivity|split; [apply Px; lia|split]]].
    + destruct i as [|i]; [lia|]. cbn [nth_error]. rewrite nth_error_app1 by (rewrite map_length, zrange_length; lia). rewrite nth_error_map, zrange_nth by lia. cbn [option_map]. f_equal. lia.
    + unfold label_value. rewrite !mult_IZR. ring.
    + pose proof PI_RGT_0 as Pp. unfold label_value. assert (K1 : 0 < IZR (k - 1)) by (apply IZR_lt; lia). assert (Kk : IZR k = IZR (k - 1) + 1) by (rewrite minus_IZR; lra). assert (I0 : 0 < IZR (Z.of_nat i * r)) by (apply IZR_lt; lia). split.
      * replace (IZR (2 * Z.of_nat i * r) * PI) with (2 * PI * IZR (Z.of_nat i * r) * 1) by (rewrite !mult_IZR; ring). apply Rmult_lt_compat_l; [apply Rmult_lt_0_compat; lra|]. rewrite Kk. apply Rmult_lt_reg_r with (IZR (k - 1)); [exact K1|]. unfold Rdiv. rewrite Rmult_assoc, Rinv_l by lra. lra.
      * rewrite Rmult_assoc. apply Rmult_lt_compat_l; [lra|]. apply Rmult_lt_reg_r with (IZR (k - 1)); [exact K1|]. unfold Rdiv. rewrite !Rmult_assoc, Rinv_l by lra. rewrite Rmult_1_r, <- !mult_IZR. apply IZR_lt. nia.
Qed.
Print Assumptions C67_ticks_refuted.
(** One mark is an error of division, fewer than zero are refused, and with none the plot cannot be
    drawn. *)
Theorem C67_few_ticks ne mx : (1 <= ne)%Z -> (mx = 1 -> find_ticks ne mx = Err ZeroDivisionError)%Z /\ (mx < 0 -> find_ticks ne mx = Err ValueError)%Z /\
  (mx = 0%Z -> exists ticks labels, find_ticks ne mx = Ok (ticks, labels) /\ List.length ticks <> List.length labels).
Proof.
  intros H. unfold find_ticks. cbv zeta. split; [|split].
  - intros ->. rewrite Z.min_r by lia. reflexivity.
  - intros L. rewrite Z.min_r by lia. rewrite (proj2 (Z.eqb_neq (mx - 1) 0)) by lia. unfold np_linspace. rewrite (proj2 (Z.ltb_lt mx 0)) by lia. destruct (Z.eqb _ 0); reflexivity.
  - intros ->. rewrite Z.min_r by lia. cbn [Z.sub Z.add Z.opp Z.eqb]. rewrite (proj2 (Z.eqb_eq (ne mod -1) 0)). { cbn. eexists _, _. split; [reflexivity|]. discriminate. } apply Z.mod_divide; [lia|]. exists (- ne)%Z. lia.
Qed.
Print Assumptions C67_few_ticks.
