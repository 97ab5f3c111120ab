(** Lemmas on local function spaces. *)
From Coq Require Import List ZArith Reals Lia Lra Bool String Permutation.
From Verif Require Import PyBase PolyModel PolySpec PolyProofs BaryModel QuadModel VertModel EdgeModel EdgeSpec EdgeProofs EdgeProofs2 ContourModel CellModel CellSpec CellProofs ContourProofs ContourProofs2 ContourProofs3 ContourProps InteriorProofs ContourProofs4 MeshModel TraceModel TraceSpec TraceProofs LocalModel LocalSpec LocalProofs LocalProofs2 NystromModel EdgeSpaceModel EdgeSpaceProps EdgeSpaceProps2 GlobModel LocSpaceModel LocSpaceSpec.
Import List ListNotations.
Open Scope R_scope.

(** ** Traces made of one function per edge *)
Definition carr (es : list edge) (t : trace) (fs : list (R -> R -> R)) : Prop :=
  built es t /\ tr_funcs t = Some fs /\ List.length fs = List.length es /\ exists a, tr_vals t = Some a /\ holds es a (sample_value es fs).

Lemma set_nth_same {A} j (x : A) l : (j < List.length l)%nat -> nth_error (set_nth j x l) j = Some x.
Proof. intros L. unfold set_nth. rewrite nth_error_app2; rewrite firstn_length, Nat.min_l by lia; [|lia]. rewrite Nat.sub_diag. reflexivity. Qed.
Lemma set_nth_other {A} j i (x : A) l : i <> j -> (j < List.length l)%nat -> nth_error (set_nth j x l) i = nth_error l i.
Proof.
  intros N L. unfold set_nth. destruct (Nat.lt_ge_cases i j).
  - rewrite nth_error_app1 by (rewrite firstn_length; lia). apply nth_error_firstn; assumption.
  - rewrite nth_error_app2; rewrite firstn_length, Nat.min_l by lia; [|lia]. destruct (i - j)%nat as [|m] eqn:D; [lia|]. cbn [nth_error]. rewrite nth_error_skipn. f_equal. lia.
Qed.
Lemma set_nth_length {A} j (x : A) l : (j < List.length l)%nat -> List.length (set_nth j x l) = List.length l.
Proof. intros L. unfold set_nth. rewrite app_length, firstn_length. cbn [List.length]. rewrite skipn_length. lia. Qed.

Section Traces.
Context {es : list edge}.
Hypothesis W : Forall well_sampled es.

Lemma all_param : edges_param es = true.
Proof. exact (ready_param es (well_ready es W)). Qed.
Lemma refill t fs : built es t -> List.length fs = List.length es -> exists t', find_values (with_funcs t fs) = Ok t' /\ carr es t' fs.
Proof.
  intros B L. destruct (find_values_spec es (with_funcs t fs) fs W (with_funcs_built es t fs B) eq_refl L) as (a & E & Ha). exists (with_vals (with_funcs t fs) a). split; [exact E|].
  split; [exact (proj1 (find_values_built es _ _ (well_ready es W) (with_funcs_built es t fs B) E))|]. split; [reflexivity|]. split; [exact L|]. exists a. split; [reflexivity|exact Ha].
Qed.
Lemma zero_ok : exists t, zero_trace es = Ok t /\ carr es t (map (fun _ => zero_fun) es).
Proof.
  unfold zero_trace, mk_trace. cbv zeta. rewrite (init_built es (well_ready es W)). set (t2 := Trace _ _ _ _ _ _ _). assert (B0 : built es t2) by apply blank_built. clearbody t2.
  unfold set_funcs, store_funcs. assert (Ee : tr_edges t2 = es) by apply B0. rewrite Ee.
  assert (Fb : forallb (fun f => match f with FBad => false | _ => true end) (map (fun _ : edge => FFun (fun _ _ => 0)) es) = true) by (apply forallb_forall; intros x I; apply in_map_iff in I; destruct I as (e & <- & _); reflexivity).
  rewrite Fb, map_length, Nat.eqb_refl. cbv zeta. cbn [with_funcs tr_edges]. rewrite Ee, all_param. cbn [andb]. rewrite map_map. destruct (refill t2 (map (fun _ => zero_fun) es) B0 (map_length _ _)) as (t' & E & C). exists t'. split; [exact E|exact C].
Qed.
Lemma put_ok t fs j p : carr es t fs -> (j < List.length es)%nat -> exists t', put_poly t j p = Ok t' /\ carr es t' (set_nth j (peval RS p) fs).
Proof.
  intros (B & E & L & _) Lj. unfold put_poly, set_func_on_edge. assert (Ee : tr_edges t = es) by apply B. rewrite Ee.
  destruct (Z.ltb_spec (Z.of_nat j) 0); [lia|]. destruct (Z.leb_spec (Z.of_nat (List.length es)) (Z.of_nat j)); [lia|]. cbn [orb]. rewrite E. cbn [attr bind]. rewrite Nat2Z.id. destruct (Nat.ltb_spec j (List.length fs)); [|lia]. cbv zeta. cbn [with_funcs tr_edges]. rewrite Ee, all_param. cbn [andb].
  assert (L' : List.length (set_nth j (peval RS p) fs) = List.length es) by (rewrite set_nth_length; [exact L|assumption]).
  exact (refill t (set_nth j (peval RS p) fs) B L').
Qed.
Lemma put_beyond t fs j p : carr es t fs -> (List.length es <= j)%nat -> put_poly t j p = Err ValueError.
Proof.
  intros (B & _) Lj. unfold put_poly, set_func_on_edge. assert (Ee : tr_edges t = es) by apply B. rewrite Ee. destruct (Z.leb_spec (Z.of_nat (List.length es)) (Z.of_nat j)); [|lia]. rewrite Bool.orb_true_r. reflexivity.
Qed.
End Traces.

(** The first [n] vertex traces *)
Definition trace_upto (n : nat) (b : espace) (v : Z) (f : R -> R -> R) : Prop :=
  (exists k p key, (k < n)%nat /\ nth_error (sp_vert b) k = Some p /\ nth_error (sp_vkeys b) k = Some key /\ g_vert key = v /\ f = peval RS p /\
     forall k' key', (k < k' < n)%nat -> nth_error (sp_vkeys b) k' = Some key' -> g_vert key' <> v) \/
  (f = zero_fun /\ forall k key, (k < n)%nat -> nth_error (sp_vkeys b) k = Some key -> g_vert key <> v).
Lemma upto_all b v f : trace_upto (List.length (sp_vert b)) b v f -> trace_for b v f.
Proof. intros [(k & p & key & _ & X)|X]; [left; exists k, p, key; exact X|right; exact X]. Qed.

Section Traces2.
Context {es : list edge}.
Hypothesis W : Forall well_sampled es.

Lemma add_vert_ok v t fs j b : carr es t fs -> (j < List.length es)%nat -> nth_error fs j = Some zero_fun -> (List.length (sp_vert b) <= List.length (sp_vkeys b))%nat ->
  exists t' fs' f, add_vert v t (j, b) = Ok t' /\ carr es t' fs' /\ (forall i, i <> j -> nth_error fs' i = nth_error fs i) /\ nth_error fs' j = Some f /\ trace_for b v f.
Proof.
  intros C Lj Z0 Lk. unfold add_vert. cbn [fst snd].
  assert (G : forall n, (n <= List.length (sp_vert b))%nat -> exists t' fs' f, fold_res (fun t k => do key <- geti (sp_vkeys b) k; if Z.eqb (g_vert key) v then do p <- geti (sp_vert b) k; put_poly t j p else Ok t) (seq 0 n) t = Ok t' /\ carr es t' fs' /\ (forall i, i <> j -> nth_error fs' i = nth_error fs i) /\ nth_error fs' j = Some f /\ trace_upto n b v f).
  { induction n as [|n IH]; intros Ln.
    - exists t, fs, zero_fun. split; [reflexivity|]. split; [exact C|]. split; [reflexivity|]. split; [exact Z0|]. right. split; [reflexivity|]. intros k key Q; lia.
    - destruct (IH ltac:(lia)) as (t1 & fs1 & f1 & E1 & C1 & O1 & F1 & U1). rewrite seq_S, fold_res_app, E1. cbn [bind Nat.add fold_res].
      destruct (nth_error (sp_vkeys b) n) as [key|] eqn:Ek; [|apply nth_error_None in Ek; lia]. destruct (nth_error (sp_vert b) n) as [p|] eqn:Ep; [|apply nth_error_None in Ep; lia]. unfold geti. rewrite Ek, Ep. cbn [bind].
      destruct (Z.eqb_spec (g_vert key) v) as [Q|Q].
      + destruct (put_ok W t1 fs1 j p C1 Lj) as (t2 & E2 & C2). rewrite E2. cbn [bind]. assert (Lf : (j < List.length fs1)%nat) by (destruct C1 as (_ & _ & L1 & _); lia).
        exists t2, (set_nth j (peval RS p) fs1), (peval RS p). split; [reflexivity|]. split; [exact C2|]. split; [intros i Ni; rewrite set_nth_other by assumption; exact (O1 i Ni)|]. split; [apply set_nth_same, Lf|]. left. exists n, p, key. repeat (split; [assumption || lia || reflexivity|]). intros k' key' Q'; lia.
      + cbn [bind]. exists t1, fs1, f1. repeat (split; [assumption || reflexivity|]). destruct U1 as [(k & p1 & key1 & K1 & K2 & K3 & K4 & K5 & K6)|(K1 & K2)].
        * left. exists k, p1, key1. split; [lia|]. repeat (split; [assumption|]). intros k' key' Q1 Q2. destruct (Nat.eq_dec k' n) as [->|]; [congruence|]. apply (K6 k'); [lia|exact Q2].
        * right. split; [exact K1|]. intros k key' Q1 Q2. destruct (Nat.eq_dec k n) as [->|]; [congruence|]. apply (K2 k); [lia|exact Q2]. }
  destruct (G _ (le_n _)) as (t' & fs' & f & E & C' & O' & F' & U). exists t', fs', f. repeat (split; [assumption|]). apply upto_all, U.
Qed.
Lemma add_verts_ok v l : Forall (fun b => (List.length (sp_vert b) <= List.length (sp_vkeys b))%nat) l -> forall s t fs, carr es t fs -> (s + List.length l <= List.length es)%nat -> (forall i, (s <= i < s + List.length l)%nat -> nth_error fs i = Some zero_fun) ->
  exists t' fs', fold_res (add_vert v) (combine (seq s (List.length l)) l) t = Ok t' /\ carr es t' fs' /\ (forall i, (i < s \/ s + List.length l <= i)%nat -> nth_error fs' i = nth_error fs i) /\
    forall m b, nth_error l m = Some b -> exists f, nth_error fs' (s + m) = Some f /\ trace_for b v f.
Proof.
  intros F. induction F as [|b l Hb F IH]; intros s t fs C Ls Z0.
  - exists t, fs. split; [reflexivity|]. split; [exact C|]. split; [reflexivity|]. intros m b E. destruct m; discriminate.
  - cbn [List.length seq combine fold_res] in *. destruct (add_vert_ok v t fs s b C ltac:(lia) (Z0 s ltac:(lia)) Hb) as (t1 & fs1 & f & E1 & C1 & O1 & F1 & T1). rewrite E1. cbn [bind].
    destruct (IH (S s) t1 fs1 C1 ltac:(lia)) as (t2 & fs2 & E2 & C2 & O2 & P2); [intros i Hi; rewrite O1 by lia; apply Z0; lia|].
    exists t2, fs2. split; [exact E2|]. split; [exact C2|]. split.
    + intros i Hi. rewrite O2 by lia. apply O1. lia.
    + intros [|m] b' Eb; cbn [nth_error] in Eb.
      * injection Eb as <-. exists f. rewrite Nat.add_0_r. rewrite O2 by lia. split; [exact F1|exact T1].
      * destruct (P2 m b' Eb) as (f' & Ef & Tf). exists f'. rewrite <- Nat.add_succ_comm. split; [exact Ef|exact Tf].
Qed.
Lemma zero_nth i : (i < List.length es)%nat -> nth_error (map (fun _ => zero_fun) es) i = Some zero_fun.
Proof. clear W. intros L. rewrite nth_error_map. destruct (nth_error es i) eqn:E; [reflexivity|]. apply nth_error_None in E. lia. Qed.
Lemma vert_trace_ok spaces v : (List.length spaces <= List.length es)%nat -> Forall (fun b => (List.length (sp_vert b) <= List.length (sp_vkeys b))%nat) spaces ->
  exists t fs, vert_trace es spaces v = Ok t /\ carr es t fs /\ (forall j b, nth_error spaces j = Some b -> exists f, nth_error fs j = Some f /\ trace_for b v f) /\
    forall j, (List.length spaces <= j < List.length es)%nat -> nth_error fs j = Some zero_fun.
Proof.
  intros L F. unfold vert_trace, enum. destruct (zero_ok W) as (t0 & E0 & C0). rewrite E0. cbn [bind].
  destruct (add_verts_ok v spaces F 0 t0 _ C0 ltac:(lia)) as (t & fs & E & C & O & P); [intros i Hi; apply zero_nth; lia|].
  exists t, fs. split; [exact E|]. split; [exact C|]. split; [intros j b Eb; exact (P j b Eb)|]. intros j Hj. rewrite O by lia. apply zero_nth. lia.
Qed.
Lemma edge_trace_ok j p : (j < List.length es)%nat -> exists t fs, edge_trace es j p = Ok t /\ carr es t fs /\ nth_error fs j = Some (peval RS p) /\ forall i, (i < List.length es)%nat -> i <> j -> nth_error fs i = Some zero_fun.
Proof.
  intros L. unfold edge_trace. destruct (zero_ok W) as (t0 & E0 & C0). rewrite E0. cbn [bind]. destruct (put_ok W t0 _ j p C0 L) as (t & E & C). exists t. eexists. split; [exact E|]. split; [exact C|]. assert (Lm : (j < List.length (map (fun _ : edge => zero_fun) es))%nat) by (rewrite map_length; exact L).
  split; [apply set_nth_same, Lm|]. intros i Li Ni. rewrite set_nth_other by assumption. apply zero_nth, Li.
Qed.
End Traces2.
