(** Setters and the objects that depend on them (C80): keys, bilinear forms, spaces, functions of two variables *)
From Coq Require Import List ZArith Reals Bool String Lia Lra.
From Verif Require Import PyBase PolyModel MeshModel MeshProps GlobModel SetterModel SetterSpec SetterProofs SetterProps.
Import List ListNotations.
Open Scope string_scope.

(** ** The keys of C47 *)
(** The model of the keys used for the global numbering knows integers and other values only. *)
Definition seen (v : pyobj) : pyint := if is_int v then PInt (int_of v) else PNotInt.
Definition holds (o : attrs) (a : string) (z : Z) : Prop := exists w, getattr o a = Some w /\ integer w z.
Lemma holds_only ty t w z : is_int w = true -> int_of w = z -> integer (if String.eqb ty t then w else OInt (-1)) (if String.eqb ty t then z else (-1)%Z).
Proof. intros I V. destruct (String.eqb ty t); [apply int_of_iff; auto|left; reflexivity]. Qed.
(** It fails with the same exceptions, and otherwise its fields are the attributes. *)
Theorem C80_key_agrees ty e v b s : match mk_key ty (seen e) (seen v) (seen b) (seen s) with
  | Err x => snd (key_init (OStr ty) e v b s) = Some x
  | Ok k => exists o, key_init (OStr ty) e v b s = (o, None) /\ getattr o "fun_type" = Some (OStr (g_type k)) /\ holds o "vert_idx" (g_vert k) /\ holds o "edge_idx" (g_edge k) /\ holds o "edge_space_idx" (g_espace k) /\ holds o "bubb_space_idx" (g_bubb k) /\
      getattr o "glob_idx" = None /\ g_glob k = None
  end.
Proof.
  unfold mk_key, key_init, andthen, set_fun_type, in_strings. cbn [existsb is_string]. rewrite orb_false_r. destruct (String.eqb ty "vert" || (String.eqb ty "edge" || String.eqb ty "bubb")); [|reflexivity]. cbn [negb snd fst done bind].
  unfold seen, set_vert_idx, set_edge_idx, set_edge_space_idx, set_bubb_space_idx.
  destruct (is_int v) eqn:Iv; [rewrite key_run by (discriminate || exact Iv)|unfold set_key_idx; rewrite Iv; reflexivity]. cbn [as_int bind snd fst done].
  destruct (is_int e) eqn:Ie; [rewrite key_run by (discriminate || exact Ie)|unfold set_key_idx; rewrite Ie; reflexivity]. cbn [as_int bind snd fst done].
  destruct (is_int s) eqn:Is; [rewrite key_run by (discriminate || exact Is)|unfold set_key_idx; rewrite Is; reflexivity]. cbn [as_int bind snd fst done].
  destruct (is_int b) eqn:Ib; [rewrite key_run by (discriminate || exact Ib)|unfold set_key_idx; rewrite Ib; reflexivity]. cbn [as_int bind snd fst done].
  eexists. split; [reflexivity|]. cbn [g_type g_vert g_edge g_espace g_bubb g_glob]. split; [reflexivity|].
  split; [eexists; split; [reflexivity|apply (holds_only ty "vert" v (int_of v) Iv eq_refl)]|]. split; [eexists; split; [reflexivity|apply (holds_only ty "edge" e (int_of e) Ie eq_refl)]|].
  split; [eexists; split; [reflexivity|apply (holds_only ty "edge" s (int_of s) Is eq_refl)]|]. split; [eexists; split; [reflexivity|apply (holds_only ty "bubb" b (int_of b) Ib eq_refl)]|]. split; reflexivity.
Qed.
Print Assumptions C80_key_agrees.
Example C80_example_key : exists o, key_init (OStr "edge") (OInt 4) (OInt 9) (OInt 9) (OBool true) = (o, None) /\ consistent o /\ holds o "edge_idx" 4 /\ holds o "edge_space_idx" 1 /\ holds o "vert_idx" (-1) /\
  mk_key "edge" (PInt 4) (PInt 9) (PInt 9) (PInt 1) = Ok (Key "edge" (-1) 4 1 (-1) None None) /\
  key_init (OStr "face") (OInt 4) (OFloat 1) (OInt 9) (OInt 1) = ([], Some ValueError) /\ snd (key_init (OStr "edge") (OInt 4) (OFloat 1) (OInt 9) (OInt 1)) = Some TypeError.
Proof.
  eexists. split; [reflexivity|]. split; [apply (C80_key_init (OStr "edge") (OInt 4) (OInt 9) (OInt 9) (OBool true)); reflexivity|]. split; [eexists; split; [reflexivity|left; reflexivity]|]. split; [eexists; split; [reflexivity|right; left; auto]|].
  split; [eexists; split; [reflexivity|left; reflexivity]|]. repeat split; reflexivity.
Qed.

(** ** Bilinear forms *)
Definition number (v : pyobj) (r : R) : Prop := v = OFloat r \/ exists z, (integer v z \/ v = ONpInt z) /\ r = IZR z.
Lemma times_number v r x : number v r -> times v x = Ok (r * x)%R.
Proof. intros [->|(z & [[->|[[-> ->]|[-> ->]]]| ->] & ->)]; reflexivity. Qed.
(** A form made of numbers is their combination of the two products, whatever is set later besides the constants ... *)
Theorem C80_form d r f h : (forall s v, In (s, v) h -> s <> SDiffusion /\ s <> SReaction) -> forall a b, number d a -> number r b ->
  exists o, form_init d r f = (o, None) /\ forall h1 l2, eval_with (calls h o) h1 l2 = Ok (a * h1 + b * l2)%R.
Proof.
  intros N a b D E. eexists. split; [reflexivity|]. intros h1 l2. unfold eval_with, attr_of.
  rewrite (C80_history_none h _ "diffusion_constant"), (C80_history_none h _ "reaction_constant");
    [|intros s v I _; destruct (N s v I) as (N1 & N2); split; [intros X; destruct s; discriminate X || contradiction|intros _; discriminate]..].
  cbn -[Rmult Rplus]. rewrite (times_number d a h1 D). cbn [bind]. rewrite (times_number r b l2 E). reflexivity.
Qed.
Print Assumptions C80_form.
(** ... and the constants that count are the last ones set. *)
Theorem C80_form_last o h d r h' a b : (forall s v, In (s, v) h' -> s <> SDiffusion /\ s <> SReaction) -> number d a -> number r b ->
  forall h1 l2, eval_with (calls (h ++ (SDiffusion, d) :: (SReaction, r) :: h') o) h1 l2 = Ok (a * h1 + b * l2)%R.
Proof.
  intros N D E h1 l2. unfold eval_with, attr_of.
  assert (Q : forall s v, In (s, v) h' -> target s <> "diffusion_constant" /\ target s <> "reaction_constant") by (intros s v J; destruct (N s v J) as (N1 & N2); split; intros X; destruct s; discriminate X || contradiction).
  assert (G1 : getattr (calls (h ++ (SDiffusion, d) :: (SReaction, r) :: h') o) "diffusion_constant" = Some d).
  { apply (C80_history h SDiffusion d ((SReaction, r) :: h') o); [repeat split; discriminate|exact I|]. intros s v [J|J] _; [injection J as <- <-; split; [discriminate|intros X; discriminate X]|]. split; [apply (Q s v J)|intros _; discriminate]. }
  assert (G2 : getattr (calls ((h ++ [(SDiffusion, d)]) ++ (SReaction, r) :: h') o) "reaction_constant" = Some r).
  { apply (C80_history (h ++ [(SDiffusion, d)]) SReaction r h' o); [repeat split; discriminate|exact I|]. intros s v J _. split; [apply (Q s v J)|intros _; discriminate]. }
  rewrite <- app_assoc in G2. cbn [app] in G2. rewrite G1, G2. cbn [bind]. rewrite (times_number d a h1 D). cbn [bind]. rewrite (times_number r b l2 E). reflexivity.
Qed.
Print Assumptions C80_form_last.
(** The constants are not checked: a form made with the text "2" is built, and fails only when it is evaluated. *)
Theorem C80_form_refuted r f : exists o, form_init (OStr "2") r f = (o, None) /\ (forall a, ~ number (OStr "2") a) /\ forall h1 l2, eval_with o h1 l2 = Err TypeError.
Proof. eexists. split; [reflexivity|]. split; [|reflexivity]. intros a [X|(z & [[X|[[X _]|[X _]]]|X] & _)]; discriminate X. Qed.
Print Assumptions C80_form_refuted.
Example C80_example_form : exists o, form_init (OInt 2) (OFloat (1 / 2)) ONone = (o, None) /\ eval_with o 3 4 = Ok 8%R /\ eval_with (calls [(SDiffusion, OBool true); (SReaction, ONpInt 5); (SRhs, OStr "f")] o) 3 4 = Ok 23%R.
Proof.
  destruct (C80_form (OInt 2) (OFloat (1 / 2)) ONone [] (fun _ _ X => match X with end) 2%R (1 / 2)%R) as (o & E & V); [right; exists 2%Z; split; [left; left|]; reflexivity|left; reflexivity|]. exists o. split; [exact E|]. split; [rewrite (V 3%R 4%R : eval_with o 3 4 = _); f_equal; lra|].
  pose proof (C80_form_last o [] (OBool true) (ONpInt 5) [(SRhs, OStr "f")] 1 5) as L. cbn [app] in L. rewrite L; [f_equal; lra|..].
  - intros s v [J|[]]. injection J as <- <-. split; discriminate.
  - right. exists 1%Z. split; [left; right; left; auto|reflexivity].
  - right. exists 5%Z. split; [right|]; reflexivity.
Qed.

(** ** Spaces and solvers *)
(** The constructor of a global space reads the number of cells before it checks the mesh. A value that is not a mesh
    is refused with an AttributeError, never with the TypeError of the setter. *)
Theorem C80_space_refuted mesh deg o : ~ wanted SMesh mesh -> run SMesh o mesh = (o, Some TypeError) /\ space_init mesh deg = ([], Some AttributeError).
Proof.
  intros W. split; [destruct (C80_refused SMesh o mesh W) as (e & -> & ->); reflexivity|]. unfold space_init. destruct (is_a "PlanarMesh" mesh) eqn:E; [apply is_a_iff in E; contradiction|reflexivity].
Qed.
Print Assumptions C80_space_refuted.
Theorem C80_space mesh deg : wanted SMesh mesh -> match snd (space_init mesh deg) with
  | None => wanted SDegree deg /\ getattr (fst (space_init mesh deg)) "mesh" = Some mesh /\ getattr (fst (space_init mesh deg)) "deg" = Some deg
  | Some e => ~ wanted SDegree deg /\ complaint SDegree deg e end.
Proof.
  intros W. apply is_a_iff in W. unfold space_init, set_mesh, set_instance, andthen. rewrite W. cbn [negb snd fst done]. set (o := setattr [] "mesh" mesh). change (set_degree o deg) with (run SDegree o deg). destruct (checks SDegree deg) eqn:C.
  - rewrite (run_ok SDegree o deg (fun X => False_ind _ (X eq_refl)) C). cbn [snd fst done]. split; [apply checks_iff, C|]. split; reflexivity.
  - assert (N : ~ wanted SDegree deg) by (intros X; apply checks_iff in X; congruence). destruct (C80_refused SDegree o deg N) as (e & -> & Y). cbn [snd]. split; assumption.
Qed.
Print Assumptions C80_space.
Theorem C80_solver space form : match snd (solver_init space form) with
  | None => wanted SGlobSpace space /\ wanted SForm form /\ getattr (fst (solver_init space form)) "glob_fun_sp" = Some space /\ getattr (fst (solver_init space form)) "bilinear_form" = Some form
  | Some e => e = TypeError /\ ~ (wanted SGlobSpace space /\ wanted SForm form) end.
Proof.
  unfold solver_init, set_global_function_space, set_bilinear_form, set_instance, andthen. pose proof (is_a_iff "GlobalFunctionSpace" space) as I1. pose proof (is_a_iff "BilinearForm" form) as I2. cbn [wanted].
  destruct (is_a "GlobalFunctionSpace" space) eqn:E1; cbn [negb snd fst done fail]; [|split; [reflexivity|intros (X & _); apply I1 in X; discriminate X]].
  destruct (is_a "BilinearForm" form) eqn:E2; cbn [negb snd fst done fail]; [|split; [reflexivity|intros (_ & X); apply I2 in X; discriminate X]]. split; [apply I1; reflexivity|]. split; [apply I2; reflexivity|]. split; reflexivity.
Qed.
Print Assumptions C80_solver.
Theorem C80_locplot v interp : match snd (locplot_init v interp) with
  | None => wanted SLocalFunction v /\ wanted SUseInterp interp /\ getattr (fst (locplot_init v interp)) "v" = Some v /\ getattr (fst (locplot_init v interp)) "use_interp" = Some interp
  | Some e => e = TypeError /\ ~ (wanted SLocalFunction v /\ wanted SUseInterp interp) end.
Proof.
  unfold locplot_init, set_local_function, set_use_interp, set_instance, andthen. pose proof (is_a_iff "LocalPoissonFunction" v) as I1. pose proof (is_bool_iff interp) as I2. cbn [wanted].
  destruct (is_a "LocalPoissonFunction" v) eqn:E1; cbn [negb snd fst done fail]; [|split; [reflexivity|intros (X & _); apply I1 in X; discriminate X]].
  destruct (is_bool interp) eqn:E2; cbn [negb snd fst done fail]; [|split; [reflexivity|intros (_ & X); apply I2 in X; discriminate X]]. split; [apply I1; reflexivity|]. split; [apply I2; reflexivity|]. split; reflexivity.
Qed.
Print Assumptions C80_locplot.
Example C80_example_space : let mesh := OInst ["PlanarMesh"; "object"] 1 [] in let space := OInst ["GlobalFunctionSpace"; "object"] 2 [] in
  wanted SMesh mesh /\ snd (space_init mesh (OInt 2)) = None /\ snd (space_init mesh (OInt 0)) = Some ValueError /\ ~ wanted SMesh space /\ snd (space_init space (OInt 2)) = Some AttributeError /\
  snd (solver_init space (OInst ["BilinearForm"; "object"] 3 [])) = None /\ snd (solver_init space (OFloat 2)) = Some TypeError.
Proof.
  intros mesh space. split; [do 3 eexists; split; [reflexivity|left; reflexivity]|]. split; [reflexivity|]. split; [reflexivity|]. split; [intros (mro & id & parts & E & J); injection E as <- <- <-; destruct J as [J|[J|[]]]; discriminate J|]. repeat split; reflexivity.
Qed.

(** The setter of the degree of a global space, called on a finished space, changes nothing else: the numbers of functions stay those of the former
    degree (globfunsp.py:115-133, 206-231). *)
Definition with_deg (p : gspace) (d : Z) : gspace := Space (p_mesh p) d (p_sizes p) (p_nvert p) (p_nedge p) (p_nbubb p) (p_num p) (p_cumsum p) (p_dofs p).
(** After the degree of any space was raised the last bubble function of the mesh has no number, although a space built with the new degree numbers it. *)
Theorem C80_degree_refuted m d sizes p d' p' : mk_space m (PInt d) sizes = Ok p -> mk_space m (PInt d') sizes = Ok p' -> (d < d')%Z -> (1 <= m_ncells m)%Z ->
  let k := Key "bubb" (-1) (-1) (-1) (d' * (d' - 1) / 2 - 1) None None in
  get_global_idx (with_deg p d') k (m_ncells m - 1) = Err IndexError /\ get_global_idx p' k (m_ncells m - 1) = Ok (m_ncells m * (d' * (d' - 1) / 2) - 1)%Z.
Proof.
  unfold mk_space, set_deg. cbn [as_int bind]. destruct (Z.ltb_spec d 1); [discriminate|]. destruct (Z.ltb_spec d' 1); [discriminate|]. cbn [bind]. intros E E' L C; cbv zeta; apply Ok_inj in E, E'. subst p p'. unfold get_global_idx. cbn [g_type String.eqb Ascii.eqb Bool.eqb g_bubb p_nbubb p_deg with_deg].
  assert (G : (d * (d - 1) / 2 + 1 <= d' * (d' - 1) / 2)%Z). { rewrite <- Z.div_add by lia. apply Z.div_le_mono; nia. } assert (G0 : (0 <= d * (d - 1) / 2)%Z) by (apply Z.div_pos; nia).
  set (q := (d' * (d' - 1) / 2)%Z) in *. set (q0 := (d * (d - 1) / 2)%Z) in *. unfold in_range. split.
  - destruct (Z.ltb_spec (0 + q * (m_ncells m - 1) + (q - 1)) (m_ncells m * q0)); [nia|]. rewrite andb_false_r. reflexivity.
  - rewrite (proj2 (Z.leb_le _ _)), (proj2 (Z.ltb_lt _ _)) by nia. cbn [andb]. f_equal. lia.
Qed.
Print Assumptions C80_degree_refuted.
(** The two triangles of C44 with degree 1 raised to 3 *)
Example C80_example_degree : exists H' m p p', mk_mesh two_triangles [0; 1; 2; 4; 3]%nat = Ok (H', m) /\ mk_space m (PInt 1) [0; 0; 0; 0; 0]%Z = Ok p /\ mk_space m (PInt 3) [0; 0; 0; 0; 0]%Z = Ok p' /\ m_ncells m = 2%Z /\
  get_global_idx (with_deg p 3) (Key "bubb" (-1) (-1) (-1) 2 None None) 1 = Err IndexError /\ get_global_idx p' (Key "bubb" (-1) (-1) (-1) 2 None None) 1 = Ok 5%Z.
Proof. do 4 eexists. split; [vm_compute; reflexivity|]. split; [vm_compute; reflexivity|]. split; [vm_compute; reflexivity|]. repeat split; vm_compute; reflexivity. Qed.

(** ** Functions of two variables (types.py:26-44) *)
Lemma binds_plain ps : plain_params ps -> forall n, binds ps n = Nat.eqb (List.length ps) n.
Proof.
  induction 1 as [|(k & d) ps (K & D) F IH]; intros n; [destruct n; reflexivity|]. cbn in K, D. subst d. destruct K as [-> | ->]; destruct n; cbn; auto.
Qed.
(** Functions of plain parameters are recognised exactly when they take two arguments. *)
Theorem C80_function_partial ps : plain_params ps -> is_Func_R2_R (OFun (Some ps)) = Ok (binds ps 2).
Proof. intros P. rewrite binds_plain by exact P. reflexivity. Qed.
Print Assumptions C80_function_partial.
(** A function with two positional parameters is called with two arguments without trouble, even if they have defaults. *)
Theorem C80_function_two k1 d1 k2 d2 : (k1 = PositionalOnly \/ k1 = PositionalOrKeyword) -> (k2 = PositionalOnly \/ k2 = PositionalOrKeyword) -> let ps := [Param k1 d1; Param k2 d2] in is_Func_R2_R (OFun (Some ps)) = Ok true /\ binds ps 2 = true.
Proof. intros [-> | ->] [-> | ->]; split; reflexivity. Qed.
Print Assumptions C80_function_two.
(** Others are told apart wrongly: lambda x, *, y: 0 is accepted and cannot be called, lambda x, y, z=0: 0 and lambda *a: 0 can be called and are refused, a built-in function without signature raises
    an exception. *)
Theorem C80_function_refuted :
  let kw := [Param PositionalOrKeyword false; Param KeywordOnly false] in let opt := [Param PositionalOrKeyword false; Param PositionalOrKeyword false; Param PositionalOrKeyword true] in let star := [Param VarPositional false] in
  is_Func_R2_R (OFun (Some kw)) = Ok true /\ binds kw 2 = false /\ is_Func_R2_R (OFun (Some opt)) = Ok false /\ binds opt 2 = true /\ is_Func_R2_R (OFun (Some star)) = Ok false /\ binds star 2 = true /\ is_Func_R2_R (OFun None) = Err ValueError.
Proof. repeat split; reflexivity. Qed.
Print Assumptions C80_function_refuted.
(** Values that are not callable are refused without an exception, polynomials are accepted. *)
Theorem C80_function_values v : (forall sg, v <> OFun sg) -> exists b, is_Func_R2_R v = Ok b /\ (b = true <-> instance "Polynomial" v).
Proof.
  intros N. destruct v as [ | | | | | | | |sg|mro id parts]; try (exists false; split; [reflexivity|]; split; [discriminate|intros (? & ? & ? & X & _); discriminate X]); [exfalso; apply (N sg); reflexivity|].
  eexists. split; [reflexivity|]. rewrite <- is_a_iff. reflexivity.
Qed.
Print Assumptions C80_function_values.
Example C80_example_function : plain_params [Param PositionalOrKeyword false; Param PositionalOrKeyword false] /\ is_Func_R2_R (OFun (Some [Param PositionalOrKeyword false; Param PositionalOrKeyword false])) = Ok true /\
  is_Func_R2_R (OFun (Some [Param PositionalOrKeyword false])) = Ok false /\ is_Func_R2_R (OInst ["Polynomial"; "object"] 4 []) = Ok true /\ is_Func_R2_R (OFloat 1) = Ok false.
Proof. split; [repeat constructor; right; reflexivity|]. repeat split; reflexivity. Qed.
