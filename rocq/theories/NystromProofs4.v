(** The augmented operators of the Nyström solver. *)
From Coq Require Import List ZArith Reals Lia Lra Bool.
From Coquelicot Require Import Coquelicot.
From Verif Require Import PyBase PolyModel PolySpec BaryModel QuadModel VertModel EdgeModel EdgeSpec EdgeProps4 ContourModel CellModel CellSpec CellProofs CellProps ContourProofs ContourProofs2 ContourProofs3 InteriorProofs ContourProofs4 ContourProps CellProps3 TraceModel TraceSpec TraceProofs LocalProofs3 LocalModel LocalSpec LocalProofs LocalProofs2 LocalProofs5 FftModel FftSpec FftProofs FftProofs2 FftProofs3 FftProps AntilapModel AntilapSpec AntilapProofs AntilapProofs2 AntilapProofs3 AntilapProofs4 NystromModel NystromSpec NystromProofs.
Import List ListNotations.
Open Scope R_scope.

Lemma columns_shape n m cs : List.length cs = m -> shape n m (from_columns n cs).
Proof. intros L. split; [unfold from_columns; rewrite map_length; apply seq_length|]. apply Forall_forall. intros r I. unfold from_columns in I. apply in_map_iff in I. destruct I as (i & <- & _). rewrite map_length. exact L. Qed.

Section Cell.
Context {contains : R -> list pt -> pt -> bool} {H : heap} {c : cell} {ess : list (list edge)}.
Hypothesis Rd : ready contains H c.
Hypothesis B : boundary_edges H c ess.
Local Notation es := (concat ess).
Local Notation N := (Z.to_nat (csize es)).
Local Notation h := (Z.to_nat (c_holes c)).
Lemma comps_holes : List.length (tl (c_comps c)) = h.
Proof using Rd B. pose proof (NpF Rd B) as (_ & E & _). rewrite E. destruct (c_comps c); cbn [tl List.length]; lia. Qed.
Lemma log_trace_ok x1 x2 j xi : boundary_points H c = Ok (x1, x2) -> (exists k v, nth_error (tl (c_comps c)) j = Some k /\ k_int k = Some v /\ coord v = xi) -> exists t, log_trace H c x1 x2 j = Ok t /\ log_samples es xi t.
Proof using Rd B.
  intros Ep (k & v & Ek & Ev & Ec). pose proof (NpF Rd B) as F. rewrite (s_points F) in Ep. apply Ok_inj in Ep. injection Ep as -> ->. unfold log_trace. assert (Gk : geti (c_comps c) (S j) = Ok k). { apply geti_nth. destruct (c_comps c); [destruct j; discriminate|exact Ek]. } rewrite Gk. cbn [bind]. rewrite Ev. cbn [attr bind]. rewrite Ec.
  assert (Ed : map (fun x => psub_pt x xi) (combine (samples_of es (fun s => fst (sx s))) (samples_of es (fun s => snd (sx s)))) = map (fun s => (fst (sx s) - fst xi, snd (sx s) - snd xi)) (contour_smp es)).
  { unfold samples_of. rewrite combine_map, map_map. reflexivity. }
  rewrite Ed, !map_map. clear Ed. set (val := fun s => 5 / 10 * ln (norm_sq (fst (sx s) - fst xi, snd (sx s) - snd xi))). set (d1 := fun s => fst (fst (sx s) - fst xi, snd (sx s) - snd xi) / norm_sq (fst (sx s) - fst xi, snd (sx s) - snd xi)). set (d2 := fun s => snd (fst (sx s) - fst xi, snd (sx s) - snd xi) / norm_sq (fst (sx s) - fst xi, snd (sx s) - snd xi)).
  change (map val (contour_smp es)) with (samples_of es val). change (map d1 (contour_smp es)) with (samples_of es d1). change (map d2 (contour_smp es)) with (samples_of es d2).
  rewrite (trace_arr F) by apply (samples_fit F). cbn [bind]. rewrite (s_norm F). cbn [bind]. destruct (set_wnd_ok F (made es (samples_of es val) None None) (samples_of es val) None None (samples_of es (fun s => (d1 s * fst (sN s) + d2 s * snd (sN s)) * sw s))) as (t1 & E1 & C1); [apply made_carries; [apply (samples_fit F)|exact Logic.I|exact Logic.I]|apply (samples_fit F)|]. rewrite E1. cbn [bind]. rewrite (s_tang F). cbn [bind]. destruct (set_wtd_ok F t1 _ _ _ (samples_of es (fun s => (d1 s * fst (sT s) + d2 s * snd (sT s)) * sw s)) C1) as (t2 & E2 & C2); [apply (samples_fit F)|]. rewrite E2. exists t2. split; [reflexivity|].
  destruct C2 as (_ & Cv & Cn & Ct). unfold log_samples. rewrite Cv, Cn, Ct. assert (Q : forall s, norm_sq (fst (sx s) - fst xi, snd (sx s) - snd xi) = (fst (sx s) - fst xi)² + (snd (sx s) - snd xi)²) by (intros s; unfold norm_sq, Rsqr; cbn [fst snd]; ring).
  split; [|split]; f_equal; apply s_ext; intros s.
  - unfold val, at_smp, log_to. rewrite Q. set (q := _ + _). assert (P : 0 <= q) by (unfold q; pose proof (Rle_0_sqr (fst (sx s) - fst xi)); pose proof (Rle_0_sqr (snd (sx s) - snd xi)); lra). destruct (Req_dec q 0) as [Z|Z]; [rewrite Z, sqrt_0; assert (L0 : ln 0 = 0) by (unfold ln; destruct (Rlt_dec 0 0) as [C|_]; [exfalso; exact (Rlt_irrefl 0 C)|reflexivity]); rewrite L0; ring|]. rewrite <- (sqrt_sqrt q P) at 1. rewrite ln_mult by (apply sqrt_lt_R0; lra). lra.
  - unfold weighted_in, at_smp, d1, d2, log_x, log_y. rewrite Q. reflexivity.
  - unfold weighted_in, at_smp, d1, d2, log_x, log_y. rewrite Q. reflexivity.
Qed.
Lemma logs_ok xs : centers c xs -> exists lam x1 x2, boundary_points H c = Ok (x1, x2) /\ map_res (log_trace H c x1 x2) (holes c) = Ok lam /\ Forall2 (log_samples es) xs lam.
Proof using Rd B.
  intros Cx. pose proof (s_points (NpF Rd B)) as Ep. set (x1 := samples_of es (fun s => fst (sx s))) in *. set (x2 := samples_of es (fun s => snd (sx s))) in *.
  assert (G : forall ks xs', Forall2 (fun k p => exists v, k_int k = Some v /\ coord v = p) ks xs' -> forall a, (forall j k, nth_error ks j = Some k -> nth_error (tl (c_comps c)) (a + j) = Some k) -> exists lam, map_res (log_trace H c x1 x2) (seq a (List.length ks)) = Ok lam /\ Forall2 (log_samples es) xs' lam).
  { intros ks xs' Fk. induction Fk as [|k p ks xs' (v & Ev & Ecv) Fk IH]; intros a Ha; [exists []; split; [reflexivity|constructor]|]. destruct (log_trace_ok x1 x2 a p Ep) as (t & Et & St_). { exists k, v. split; [|auto]. specialize (Ha 0%nat k eq_refl). rewrite Nat.add_0_r in Ha. exact Ha. }
    destruct (IH (S a)) as (lam & El & Fl). { intros j k' Ek. specialize (Ha (S j) k' Ek). rewrite Nat.add_succ_r in Ha. exact Ha. } exists (t :: lam). split; [|constructor; assumption]. cbn [List.length seq map_res]. rewrite Et. cbn [bind]. rewrite El. reflexivity. }
  destruct (G _ _ Cx 0%nat) as (lam & El & Fl); [intros j k E; exact E|]. exists lam, x1, x2. split; [exact Ep|]. split; [|exact Fl]. rewrite comps_holes in El. exact El.
Qed.
Lemma F2_at {A C} (P : A -> C -> Prop) l l' j : Forall2 P l l' -> (j < List.length l')%nat -> exists x y, nth_error l j = Some x /\ nth_error l' j = Some y /\ P x y.
Proof. intros F2. revert j. induction F2 as [|x y l l' Pxy F2 IH]; intros j L; [cbn in L; lia|]. destruct j as [|j]; [exists x, y; auto|]. apply IH. cbn in L. lia. Qed.
Lemma fit_samples a : List.length (samples_of es a) = N.
Proof using Rd B. apply (fit_N Rd B), (samples_fit (NpF Rd B)). Qed.
(** The weighted derivatives of the j-th logarithm *)
Definition tang_of (T : logterms) (j : nat) : list R := match nth_error (lt_trace T) j with Some t => match tr_wtd t with Some w => w | None => [] end | None => [] end.
Lemma moments_ok d lam v (w : nat -> list R) : (forall j, (j < h)%nat -> exists t, nth_error lam j = Some t /\ d t = Some (w j) /\ List.length (w j) = N) -> List.length v = N -> moments d H c lam v = Ok (map (fun j => boundary_sum es (zip_with Rmult v (w j))) (seq 0 h)).
Proof using Rd B.
  intros Hl Lv. destruct (ready_uniform _ _ _ _ Rd B) as (F & NE & ? & U). unfold moments, holes. apply map_res_map. intros j Ij. apply in_seq in Ij. destruct (Hl j ltac:(lia)) as (t & Et & Ew & Lw). rewrite (geti_nth _ _ _ Et). cbn [bind]. rewrite Ew. cbn [arith bind]. rewrite LocalProofs.np_mul_zip by congruence. cbn [bind]. rewrite (pre_ok F NE U); [reflexivity|]. apply fit_zip; apply (fit_N Rd B); assumption.
Qed.
Lemma terms_ok L xs : build_layers H c = Ok L -> centers c xs -> exists T, compute_log_terms H c L = Ok T /\ Forall2 (log_samples es) xs (lt_trace T) /\ shape N h (lt_T1 T) /\ shape h h (lt_Sn T) /\
  (forall i j, (i < N)%nat -> (j < h)%nat -> nth j (nth i (lt_T1 T) []) 0 = np_dot (nth i (ly_single L) []) (tang_of T j)) /\
  (forall i j xi xj, nth_error xs i = Some xi -> nth_error xs j = Some xj -> nth j (nth i (lt_Sn T) []) 0 = boundary_sum es (samples_of es (fun s => at_smp (log_to xj) s * weighted_in sN (log_x xi) (log_y xi) s))).
Proof using Rd B.
  intros EL Cx. destruct (logs_ok xs Cx) as (lam & x1 & x2 & Ep & El & Fl). unfold compute_log_terms. rewrite Ep. cbn [bind]. rewrite (npts_cell (NpF Rd B)). cbn [attr bind]. rewrite El. cbn [bind].
  assert (Ll : List.length lam = h). { apply map_res_ok in El. rewrite <- (Forall2_len _ _ _ El). unfold holes. apply seq_length. } assert (Lx : List.length xs = h) by (rewrite <- Ll; exact (Forall2_len _ _ _ Fl)).
  assert (At : forall j, (j < h)%nat -> exists xi t, nth_error xs j = Some xi /\ nth_error lam j = Some t /\ log_samples es xi t) by (intros j Lj; apply F2_at; [exact Fl|lia]).
  set (wt := fun j => match nth_error lam j with Some t => match tr_wtd t with Some w => w | None => [] end | None => [] end). set (wn := fun j => match nth_error lam j with Some t => match tr_wnd t with Some w => w | None => [] end | None => [] end). set (va := fun j => match nth_error lam j with Some t => match tr_vals t with Some w => w | None => [] end | None => [] end).
  rewrite (map_res_map _ (fun j => map (fun i => np_dot (nth i (ly_single L) []) (wt j)) (seq 0 N))).
  2:{ intros j Ij. unfold holes in Ij. apply in_seq in Ij. destruct (At j ltac:(lia)) as (xi & t & _ & Et & (_ & _ & Ew)). rewrite (geti_nth _ _ _ Et). cbn [bind]. rewrite Ew. cbn [attr bind]. unfold wt. rewrite Et, Ew. apply (single_ok Rd B L _ EL). apply fit_samples. }
  cbn [bind]. rewrite (map_res_map _ (fun j => map (fun i => boundary_sum es (zip_with Rmult (va j) (wn i))) (seq 0 h))).
  2:{ intros j Ij. unfold holes in Ij. apply in_seq in Ij. destruct (At j ltac:(lia)) as (xi & t & _ & Et & (Ev & _)). rewrite (geti_nth _ _ _ Et). cbn [bind]. rewrite Ev. cbn [attr bind]. unfold Sn. unfold va. rewrite Et, Ev. apply moments_ok; [|apply fit_samples]. intros i Li. destruct (At i Li) as (yi & ti & _ & Eti & (_ & Ewi & _)). exists ti. split; [exact Eti|]. unfold wn. rewrite Eti, Ewi. split; [reflexivity|apply fit_samples]. }
  cbn [bind]. eexists. split; [reflexivity|]. cbn [lt_trace lt_T1 lt_Sn]. split; [exact Fl|]. split; [apply columns_shape; rewrite map_length; unfold holes; apply seq_length|]. split; [apply columns_shape; rewrite map_length; unfold holes; apply seq_length|]. split.
  - intros i j Li Lj. unfold from_columns. rewrite nth_sq by exact Li. unfold holes. rewrite map_map, nth_sq by exact Lj. rewrite nth_sq by exact Li. reflexivity.
  - intros i j xi xj Exi Exj. assert (Li : (i < h)%nat) by (rewrite <- Lx; apply nth_error_Some; congruence). assert (Lj : (j < h)%nat) by (rewrite <- Lx; apply nth_error_Some; congruence). unfold from_columns. rewrite nth_sq by exact Li. unfold holes. rewrite map_map, nth_sq by exact Lj. rewrite nth_sq by exact Li. destruct (At i Li) as (yi & ti & Eyi & Eti & (_ & Ewi & _)). destruct (At j Lj) as (yj & tj & Eyj & Etj & (Evj & _)). unfold va, wn. rewrite Eti, Etj, Ewi, Evj. assert (yi = xi) by congruence. assert (yj = xj) by congruence. subst. f_equal. unfold samples_of. apply zip_map.
Qed.
(** The augmented operator of a cell with holes *)
Definition conj_first (L : layers) (T : logterms) (psi a : list R) (i : nat) : R := double_at (c := c) L psi i + total_int (ess := ess) psi - np_dot (nth i (lt_T1 T) []) a.
Definition conj_second (T : logterms) (psi a : list R) (j : nat) : R := - boundary_sum es (zip_with Rmult psi (tang_of T j)) + np_dot (nth j (lt_Sn T) []) a.
Lemma holes_Z : (0 <= c_holes c)%Z.
Proof using Rd B. pose proof (ready_nonempty _ _ _ _ Rd B) as Ne. pose proof (NpF Rd B) as (F2 & E & _). rewrite E. destruct F2; [destruct Ne; reflexivity|cbn [List.length]; lia]. Qed.
Lemma conjugate_ok L T xs psi a : build_layers H c = Ok L -> centers c xs -> compute_log_terms H c L = Ok T -> List.length psi = N -> List.length a = h -> conjugate_op H c L T (psi ++ a) = Ok (map (conj_first L T psi a) (seq 0 N) ++ map (conj_second T psi a) (seq 0 h)).
Proof using Rd B.
  intros EL Cx ET Lp La. destruct (terms_ok L xs EL Cx) as (T' & ET' & Fl & S1 & S2 & _). assert (T' = T) by (rewrite ET in ET'; apply Ok_inj in ET'; congruence). subst T'. unfold conjugate_op. rewrite (npts_cell (NpF Rd B)). cbn [attr bind]. pose proof (size_N Rd B) as SN. pose proof holes_Z as HZ. assert (Lx : List.length xs = h) by (rewrite <- (Forall2_len _ _ _ Cx); apply comps_holes).
  unfold lin_call. rewrite app_length. rewrite (proj2 (Z.eqb_eq _ _)) by lia. rewrite firstn_app, <- Lp, firstn_all, Nat.sub_diag, firstn_O, app_nil_r, skipn_app, skipn_all, Nat.sub_diag, skipn_O. cbn [app]. rewrite (double_ok Rd B L psi EL Lp). cbn [bind]. rewrite (total_int_ok Rd B psi Lp). cbn [bind]. rewrite map_map, (mat_vec_ok N h _ a S1 La). cbn [bind]. rewrite map_map, sq_iadd. cbn [bind].
  unfold St. rewrite (moments_ok tr_wtd (lt_trace T) psi (tang_of T)).
  2:{ intros j Lj. destruct (F2_at _ _ _ j Fl) as (xi & t & _ & Et & (_ & _ & Ew)); [rewrite <- (Forall2_len _ _ _ Fl); lia|]. exists t. split; [exact Et|]. unfold tang_of. rewrite Et, Ew. split; [reflexivity|apply fit_samples]. }
  2: exact Lp.
  cbn [bind]. rewrite map_map, (mat_vec_ok h h _ a S2 La). cbn [bind]. rewrite sq_add. cbn [bind]. rewrite app_length, !map_length, !seq_length. rewrite (proj2 (Z.eqb_eq _ _)) by lia. rewrite Lp. reflexivity.
Qed.
Lemma conj_first_linear L T a b psi psi' x x' i : List.length psi = List.length psi' -> List.length x = List.length x' -> conj_first L T (lincomb a b psi psi') (lincomb a b x x') i = a * conj_first L T psi x i + b * conj_first L T psi' x' i.
Proof. intros L1 L2. unfold conj_first. rewrite double_at_linear, total_linear, dot_linear by assumption. ring. Qed.
Lemma conj_second_linear T a b psi psi' x x' j : List.length psi = List.length psi' -> List.length x = List.length x' -> conj_second T (lincomb a b psi psi') (lincomb a b x x') j = a * conj_second T psi x j + b * conj_second T psi' x' j.
Proof. intros L1 L2. unfold conj_second, boundary_sum. rewrite zip_lincomb, dot_linear by assumption. ring. Qed.
End Cell.
