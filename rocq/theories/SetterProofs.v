(** Lemmas for C80 *)
From Coq Require Import List ZArith Reals Bool String Lia.
From Verif Require Import PyBase SetterModel SetterSpec.
Import List ListNotations.
Open Scope string_scope.

Lemma is_int_iff v : is_int v = true <-> exists z, integer v z.
Proof.
  split.
  - destruct v as [z|b| | | | | | | |]; try discriminate; intros _; [exists z; left; reflexivity|]. exists (if b then 1 else 0)%Z. destruct b; right; [left|right]; auto.
  - intros (z & [->|[[-> _]|[-> _]]]); reflexivity.
Qed.
Lemma int_of_iff v z : integer v z <-> is_int v = true /\ int_of v = z.
Proof.
  split; [intros [->|[[-> ->]|[-> ->]]]; auto|]. intros (I & <-). destruct v as [z|b| | | | | | | |]; try discriminate; [left; reflexivity|right]. destruct b; [left|right]; auto.
Qed.
Lemma is_bool_iff v : is_bool v = true <-> boolean v.
Proof. split; [destruct v as [ |[|]| | | | | | | |]; try discriminate; intros _; [left|right]; reflexivity|intros [-> | ->]; reflexivity]. Qed.
Lemma is_str_iff v : is_str v = true <-> text v.
Proof. split; [destruct v; try discriminate; intros _; eexists; reflexivity|intros (s & ->); reflexivity]. Qed.
Lemma is_a_iff cls v : is_a cls v = true <-> instance cls v.
Proof.
  split.
  - destruct v as [ | | | | | | | | |mro id parts]; try discriminate. intros E. cbn in E. apply existsb_exists in E. destruct E as (c & I & E). apply String.eqb_eq in E. subst c. exists mro, id, parts. auto.
  - intros (mro & id & parts & -> & I). cbn. apply existsb_exists. exists cls. split; [exact I|apply String.eqb_refl].
Qed.
Lemma is_string_iff v s : is_string v s = true <-> v = OStr s.
Proof. split; [destruct v; try discriminate; intros E; cbn in E; apply String.eqb_eq in E; subst; reflexivity|intros ->; apply String.eqb_refl]. Qed.
Lemma in_strings_iff v l : in_strings v l = true <-> exists s, In s l /\ v = OStr s.
Proof.
  unfold in_strings. rewrite existsb_exists. split; intros (s & I & E); exists s; (split; [exact I|]); [apply is_string_iff in E; exact E|apply is_string_iff; exact E].
Qed.
Lemma all_edges_iff l : forallb (is_a "Edge") l = true <-> Forall (instance "Edge") l.
Proof. rewrite forallb_forall, Forall_forall. split; intros F x I; apply is_a_iff, F, I. Qed.
Lemma get_set o a v b : getattr (setattr o a v) b = if String.eqb b a then Some v else getattr o b.
Proof. reflexivity. Qed.
Lemma get_same o a v : getattr (setattr o a v) a = Some v.
Proof. rewrite get_set, String.eqb_refl. reflexivity. Qed.
Lemma get_other o a v b : b <> a -> getattr (setattr o a v) b = getattr o b.
Proof. intros N. rewrite get_set. destruct (String.eqb_spec b a); [contradiction|reflexivity]. Qed.

(** The decision each setter takes *)
Definition checks (s : setter) (v : pyobj) : bool :=
  match s with
  | SFunType => in_strings v ["vert"; "edge"; "bubb"]
  | SVertIdx | SEdgeIdx | SEdgeSpaceIdx | SBubbSpaceIdx => is_int v
  | SGlobIdx => is_int v && Z.leb 0 (int_of v)
  | SDegree => is_int v && Z.leb 1 (int_of v)
  | SDiffusion | SReaction | SRhs | SCoef | SMultidx => true
  | SMesh => is_a "PlanarMesh" v | SGlobSpace => is_a "GlobalFunctionSpace" v | SForm => is_a "BilinearForm" v | SEdge => is_a "Edge" v
  | STraceEdges => is_a "MeshCell" v || match v with OList l => forallb (is_a "Edge") l | _ => false end
  | STrace => is_a "DirichletTrace" v
  | SKey => match v with ONone => true | _ => is_a "GlobalKey" v end
  | SNystrom => is_a "NystromSolver" v | SMeshCell | SK => is_a "MeshCell" v
  | SStrategy => in_strings v ["direct"; "fft"]
  | STitle => is_str v | SGrid | SLogScale | SUseInterp => is_bool v
  | SPlotEdges => match v with OList l => forallb (is_a "Edge") l | _ => false end
  | SLocalFunction => is_a "LocalPoissonFunction" v | SSolver => is_a "Solver" v
  end.
Lemma edges_iff v : match v with OList l => forallb (is_a "Edge") l | _ => false end = true <-> edges_list v.
Proof.
  split; [destruct v; try discriminate; intros E; apply all_edges_iff in E; eexists; split; [reflexivity|exact E]|]. intros (l & -> & F). apply all_edges_iff, F.
Qed.
Lemma least_iff (v : pyobj) (k : Z) : is_int v && Z.leb k (int_of v) = true <-> exists z, integer v z /\ (k <= z)%Z.
Proof.
  rewrite andb_true_iff, Z.leb_le. split; [intros (I & L); exists (int_of v); split; [apply int_of_iff; auto|exact L]|]. intros (z & I & L). apply int_of_iff in I. destruct I as (I & <-). auto.
Qed.
Lemma checks_iff s v : checks s v = true <-> wanted s v.
Proof.
  destruct s; cbn [checks wanted]; try apply is_int_iff; try apply is_a_iff; try apply is_bool_iff; try apply is_str_iff; try apply least_iff; try apply edges_iff; try (split; auto; fail).
  - rewrite in_strings_iff. cbn [In]. split; [intros (s & [<-|[<-|[<-|[]]]] & ->); auto|]. intros [->|[->| ->]]; eexists; (split; [|reflexivity]); auto.
  - rewrite orb_true_iff, is_a_iff, edges_iff. reflexivity.
  - split; [destruct v; auto; intros E; right; apply is_a_iff; exact E|]. intros [->|I]; [reflexivity|]. apply is_a_iff in I. destruct v; auto.
  - rewrite in_strings_iff. cbn [In]. split; [intros (s & [<-|[<-|[]]] & ->); auto|]. intros [->| ->]; eexists; (split; [|reflexivity]); auto.
Qed.
Definition typed (s : setter) (o : attrs) : Prop := of_key s <> None -> getattr o "fun_type" <> None.
Definition key_value (o : attrs) (ty : string) (v : pyobj) : pyobj := match getattr o "fun_type" with Some t => if is_string t ty then v else OInt (-1) | None => v end.
(** What a setter leaves if it accepts the value *)
Definition after (s : setter) (o : attrs) (v : pyobj) : attrs :=
  match of_key s with
  | Some ty => setattr o (target s) (key_value o ty v)
  | None => match s, v with
      | SKey, ONone => o
      | STraceEdges, OInst _ _ l | STraceEdges, OList l => setattr (setattr o "edges" (OList l)) "num_edges" (OInt (Z.of_nat (List.length l)))
      | _, _ => setattr o (target s) v
      end
  end.
Lemma key_run o ty a v : getattr o "fun_type" <> None -> is_int v = true -> set_key_idx o ty a v = done (setattr o a (key_value o ty v)).
Proof. intros T I. unfold set_key_idx, key_value. rewrite I. cbn [negb]. destruct (getattr o "fun_type") as [t|]; [|contradiction]. destruct (is_string t ty); reflexivity. Qed.
Lemma run_ok s o v : typed s o -> checks s v = true -> run s o v = done (after s o v).
Proof.
  intros T C. assert (K : of_key s <> None -> getattr o "fun_type" <> None) by exact T. clear T.
  destruct s; cbn [run checks of_key after target] in *;
    try (unfold set_mesh, set_global_function_space, set_bilinear_form, set_edge, set_trace, set_nystrom_solver, set_mesh_cell, set_K, set_local_function, set_solver, set_instance; rewrite C; reflexivity);
    try (unfold set_vert_idx, set_edge_idx, set_edge_space_idx, set_bubb_space_idx; apply key_run; [apply K; discriminate|exact C]);
    try reflexivity.
  - unfold set_fun_type. rewrite C. reflexivity.
  - apply andb_true_iff in C. destruct C as (I & L). apply Z.leb_le in L. unfold set_glob_idx. rewrite I. cbn [negb]. destruct (Z.ltb_spec (int_of v) 0); [lia|reflexivity].
  - apply andb_true_iff in C. destruct C as (I & L). apply Z.leb_le in L. unfold set_degree. rewrite I. cbn [negb]. destruct (Z.ltb_spec (int_of v) 1); [lia|reflexivity].
  - unfold set_trace_edges. cbv zeta. destruct v; cbn [is_a orb] in C; try discriminate.
    + rewrite C. reflexivity.
    + rewrite orb_false_r in C. cbn [is_a]. rewrite C. reflexivity.
  - unfold set_key, set_instance. destruct v; try discriminate; try reflexivity. rewrite C. reflexivity.
  - unfold set_antilap_strategy. rewrite C. reflexivity.
  - unfold set_title. rewrite C. reflexivity.
  - unfold set_grid. rewrite C. reflexivity.
  - unfold set_log_scale. rewrite C. reflexivity.
  - unfold set_plot_edges, validate_edges. destruct v; try discriminate. rewrite C. reflexivity.
  - unfold set_use_interp. rewrite C. reflexivity.
Qed.
Lemma run_bad s o v : checks s v = false -> exists e, run s o v = fail o e /\ complaint s v e.
Proof.
  intros C.
  destruct s; cbn [run checks complaint] in *; try discriminate;
    try (exists TypeError; unfold set_mesh, set_global_function_space, set_bilinear_form, set_edge, set_trace, set_nystrom_solver, set_mesh_cell, set_K, set_local_function, set_solver, set_instance, set_vert_idx, set_edge_idx, set_edge_space_idx, set_bubb_space_idx, set_key_idx, set_title, set_grid, set_log_scale, set_use_interp; rewrite C; split; reflexivity);
    try (exists ValueError; unfold set_fun_type, set_antilap_strategy; rewrite C; split; reflexivity).
  - destruct (is_int v) eqn:I.
    + cbn in C. apply Z.leb_gt in C. exists ValueError. unfold set_glob_idx. rewrite I. cbn [negb]. destruct (Z.ltb_spec (int_of v) 0); [|lia]. split; [reflexivity|left; split; [apply is_int_iff, I|reflexivity]].
    + exists TypeError. unfold set_glob_idx. rewrite I. split; [reflexivity|right]. split; [|reflexivity]. intros z Hz. apply int_of_iff in Hz. destruct Hz. congruence.
  - destruct (is_int v) eqn:I.
    + cbn in C. apply Z.leb_gt in C. exists ValueError. unfold set_degree. rewrite I. cbn [negb]. destruct (Z.ltb_spec (int_of v) 1); [|lia]. split; [reflexivity|left; split; [apply is_int_iff, I|reflexivity]].
    + exists TypeError. unfold set_degree. rewrite I. split; [reflexivity|right]. split; [|reflexivity]. intros z Hz. apply int_of_iff in Hz. destruct Hz. congruence.
  - exists ValueError. split; [|reflexivity]. unfold set_trace_edges. cbv zeta. apply orb_false_iff in C. destruct C as (-> & C). destruct v; try reflexivity. rewrite C. reflexivity.
  - exists TypeError. unfold set_key, set_instance. destruct v; try discriminate; try (split; reflexivity). rewrite C. split; reflexivity.
  - exists TypeError. unfold set_plot_edges, validate_edges. destruct v; try (split; reflexivity). rewrite C. split; reflexivity.
Qed.
Lemma run_untyped s o v : of_key s <> None -> getattr o "fun_type" = None -> is_int v = true -> run s o v = fail o AttributeError.
Proof. intros K T I. destruct s; try (exfalso; apply K; reflexivity); cbn [run]; unfold set_vert_idx, set_edge_idx, set_edge_space_idx, set_bubb_space_idx, set_key_idx; rewrite I, T; reflexivity. Qed.
Lemma run_cases s o v : (typed s o /\ checks s v = true /\ run s o v = done (after s o v)) \/ (exists e, run s o v = fail o e).
Proof.
  destruct (checks s v) eqn:C; [|right; destruct (run_bad s o v C) as (e & E & _); exists e; exact E].
  destruct (of_key s) as [ty|] eqn:K.
  - destruct (getattr o "fun_type") eqn:T.
    + left. assert (Ty : typed s o) by (intros _; congruence). split; [exact Ty|]. split; [reflexivity|]. apply run_ok; assumption.
    + right. exists AttributeError. apply run_untyped; [congruence|exact T|]. destruct s; try discriminate; exact C.
  - left. assert (Ty : typed s o) by (intros X; congruence). split; [exact Ty|]. split; [reflexivity|]. apply run_ok; assumption.
Qed.
Lemma after_frame s o v a : checks s v = true -> a <> target s -> (s = STraceEdges -> a <> "num_edges") -> getattr (after s o v) a = getattr o a.
Proof.
  intros C N M. unfold after. destruct (of_key s); [apply get_other, N|]. destruct s; cbn [target] in N; try (apply get_other, N).
  - destruct v; cbn in C; try discriminate; rewrite !get_other; auto.
  - destruct v; try reflexivity; apply get_other, N.
Qed.
Lemma run_frame s o v a : a <> target s -> (s = STraceEdges -> a <> "num_edges") -> getattr (fst (run s o v)) a = getattr o a.
Proof.
  intros N M. destruct (run_cases s o v) as [(_ & C & ->)|(e & ->)]; [apply after_frame; assumption|reflexivity].
Qed.
