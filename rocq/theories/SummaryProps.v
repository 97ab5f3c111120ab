(** C77: the texts of objects can be read back. *)
From Coq Require Import List String Ascii Arith ZArith Lia Reals Decimal DecimalString DecimalNat DecimalFacts.
From Verif Require Import PyBase PolyModel PolySpec PolyProofs CurveModel VertModel EdgeModel QuadModel MeshModel MeshProps GlobModel SolverModel SolverProps AsmModel PrintModel PrintSpec PrintProps SummaryModel SummarySpec.
Import ListNotations.
Open Scope string_scope.

(** ** Lines *)
Fixpoint one_line (s : string) : Prop := match s with "" => True | String c s => is_newline c = false /\ one_line s end.
Definition starts (s : string) : Prop := skip s = s.
Lemma lines_app a b : one_line a -> lines (a ++ nl ++ b) = a :: lines b.
Proof. induction a as [|c a IH]; intros H; [reflexivity|]. destruct H as [N H]. cbn [append lines] in *. rewrite N, IH by exact H. reflexivity. Qed.
Lemma lines_one a : one_line a -> lines a = [a].
Proof. induction a as [|c a IH]; intros H; [reflexivity|]. destruct H as [N H]. cbn [lines]. rewrite N, IH by exact H. reflexivity. Qed.
Lemma one_app a b : one_line a -> one_line b -> one_line (a ++ b).
Proof. induction a as [|c a IH]; intros A B; [exact B|]. destruct A as [N A]. cbn. split; [exact N|apply IH; assumption]. Qed.
Lemma one_uint d : one_line (NilEmpty.string_of_uint d).
Proof. induction d; cbn; auto. Qed.
Lemma dec_uint n : exists c r, dec n = String c r /\ one_line (String c r) /\ digit c <> None /\ Ascii.eqb c " " = false /\ Ascii.eqb c "009" = false /\ Ascii.eqb c "-" = false.
Proof.
  unfold dec, NilZero.string_of_uint. destruct (Nat.to_uint n) as [|d|d|d|d|d|d|d|d|d|d]; (do 2 eexists; split; [reflexivity|]; split; [split; [reflexivity|try apply one_uint; try exact I]|]; repeat split; try reflexivity; vm_compute; discriminate).
Qed.
Lemma one_dec n : one_line (dec n).
Proof. destruct (dec_uint n) as (c & r & -> & H & _). exact H. Qed.
Lemma one_decz z : one_line (decz z).
Proof. unfold decz. destruct (Z.ltb z 0); [apply (one_app "-"); [cbn; auto|]|]; apply one_dec. Qed.
Lemma starts_dec n : starts (dec n).
Proof. destruct (dec_uint n) as (c & r & -> & _ & _ & B & T & _). unfold starts. cbn [skip]. rewrite B, T. reflexivity. Qed.
Lemma starts_decz z : skip (decz z) = decz z.
Proof. unfold decz. destruct (Z.ltb z 0); [reflexivity|apply starts_dec]. Qed.
Lemma whole_dec n : whole (dec n) = Some (Z.of_nat n).
Proof.
  destruct (dec_uint n) as (c & r & E & _ & _ & _ & _ & M). pose proof (number_dec n "" I) as N. rewrite app_nil_s, E in N. unfold whole. rewrite E. assert (X : forall (A : Type) (u v : A), match c with "-"%char => u | _ => v end = v). { intros A u v. clear -M. destruct c as [[] [] [] [] [] [] [] []]; try reflexivity. discriminate M. } rewrite X, N. reflexivity.
Qed.
Theorem C77_whole z : whole (decz z) = Some z.
Proof.
  unfold decz. destruct (Z.ltb_spec z 0) as [L|L].
  - pose proof (number_dec (Z.to_nat (- z)) "" I) as N. rewrite app_nil_s in N. destruct (dec_uint (Z.to_nat (- z))) as (c & r & E & _). cbn [append whole]. rewrite E in *. rewrite N. f_equal. lia.
  - rewrite whole_dec. f_equal. lia.
Qed.
Print Assumptions C77_whole.

Lemma items_app a b : one_line a -> items (a ++ nl ++ b) = key (skip a) :: items b.
Proof. intros H. unfold items. rewrite lines_app by exact H. reflexivity. Qed.
Lemma items_one a : one_line a -> items a = [key (skip a)].
Proof. intros H. unfold items. rewrite lines_one by exact H. reflexivity. Qed.

(** A line with a concrete key *)
Lemma line_next t p v b : one_line t -> one_line p -> one_line v -> items (t ++ p ++ v ++ nl ++ b) = key (skip (t ++ p ++ v)) :: items b.
Proof. intros T P V. rewrite <- !app_assoc_s, (app_assoc_s _ nl), items_app by (repeat apply one_app; assumption). rewrite !app_assoc_s. reflexivity. Qed.
Lemma line_last t p v : one_line t -> one_line p -> one_line v -> items (t ++ p ++ v) = [key (skip (t ++ p ++ v))].
Proof. intros T P V. apply items_one. repeat apply one_app; assumption. Qed.
Ltac concrete := cbn; repeat split.
Ltac next := rewrite line_next; [|concrete|concrete|]; [apply (f_equal2 cons); [cbn; rewrite ?starts_decz; reflexivity|]|try apply one_decz].

(** ** Meshes and spaces *)
Definition mesh_items (m : mesh) : list (string * string) := [("num_verts", decz (m_nverts m)); ("num_edges", decz (m_num m)); ("num_cells", decz (m_ncells m))].
Lemma mesh_next h t m b : one_line h -> one_line t -> items (h ++ t ++ mesh_str m ++ nl ++ b) = key (skip (h ++ t ++ "PlanarMesh:")) :: mesh_items m ++ items b.
Proof.
  intros Hh Ht. unfold mesh_str, mesh_items. rewrite !app_assoc_s. rewrite line_next by (assumption || concrete). cbn [app]. f_equal. next. next. next. reflexivity.
Qed.
Theorem C77_mesh m : items (mesh_str m) = ("PlanarMesh", "") :: mesh_items m /\ numbers "num_verts" (mesh_str m) = [Some (m_nverts m)] /\ numbers "num_edges" (mesh_str m) = [Some (m_num m)] /\ numbers "num_cells" (mesh_str m) = [Some (m_ncells m)].
Proof.
  assert (E : items (mesh_str m) = ("PlanarMesh", "") :: mesh_items m). { unfold mesh_str, mesh_items. rewrite (items_app "PlanarMesh:") by concrete. apply (f_equal2 cons); [reflexivity|]. next. next. rewrite line_last by (concrete || apply one_decz). cbn. rewrite starts_decz. reflexivity. }
  split; [exact E|]. unfold numbers, values. rewrite E. cbn. rewrite !C77_whole. auto.
Qed.
Print Assumptions C77_mesh.
Definition space_items (p : gspace) : list (string * string) :=
  ("mesh", "PlanarMesh:") :: mesh_items (p_mesh p) ++ [("deg", decz (p_deg p)); ("num_funs", decz (p_num p)); ("num_bubb_funs", decz (p_nbubb p)); ("num_vert_funs", decz (p_nvert p)); ("num_edge_funs", decz (p_nedge p))].
Lemma space_next h t p b : one_line h -> one_line t -> items (h ++ t ++ space_str p ++ nl ++ b) = key (skip (h ++ t ++ "GlobalFunctionSpace:")) :: space_items p ++ items b.
Proof.
  intros Hh Ht. unfold space_str, space_items. rewrite !app_assoc_s. rewrite line_next by (assumption || concrete). cbn [app]. f_equal. rewrite mesh_next by concrete. unfold mesh_items. cbn [app]. do 4 (apply (f_equal2 cons); [reflexivity|]). cbn [app]. next. next. next. next. next. reflexivity.
Qed.
Theorem C77_space p : items (space_str p) = ("GlobalFunctionSpace", "") :: space_items p.
Proof.
  unfold space_str, space_items. rewrite (items_app "GlobalFunctionSpace:") by concrete. apply (f_equal2 cons); [reflexivity|]. rewrite mesh_next by concrete. apply (f_equal2 cons); [reflexivity|]. f_equal. next. next. next. next. rewrite line_last by (concrete || apply one_decz). cbn. rewrite starts_decz. reflexivity.
Qed.
Print Assumptions C77_space.

(** The numbers of a new space add up in its text. *)
Theorem C77_adds_up m deg sizes p : mk_space m deg sizes = Ok p -> exists a b c, numbers "num_bubb_funs" (space_str p) = [Some a] /\ numbers "num_vert_funs" (space_str p) = [Some b] /\ numbers "num_edge_funs" (space_str p) = [Some c] /\
  numbers "num_funs" (space_str p) = [Some (a + b + c)%Z] /\ numbers "num_verts" (space_str p) = [Some b] /\ numbers "num_cells" (space_str p) = [Some (m_ncells m)] /\ numbers "deg" (space_str p) = [Some (p_deg p)].
Proof.
  intros E. unfold mk_space in E. destruct (set_deg deg) as [d|]; [|discriminate]. cbn [bind] in E. apply Ok_inj in E. subst p. do 3 eexists. unfold numbers, values. rewrite C77_space. cbn -[decz]. rewrite !C77_whole. repeat split. do 2 f_equal. lia.
Qed.
Print Assumptions C77_adds_up.
(** Two spaces with the same text have the same numbers. *)
Theorem C77_alike p q : space_str p = space_str q -> p_deg p = p_deg q /\ p_num p = p_num q /\ p_nbubb p = p_nbubb q /\ p_nvert p = p_nvert q /\ p_nedge p = p_nedge q /\ m_nverts (p_mesh p) = m_nverts (p_mesh q) /\ m_num (p_mesh p) = m_num (p_mesh q) /\ m_ncells (p_mesh p) = m_ncells (p_mesh q).
Proof.
  intros E. assert (D : forall a b, decz a = decz b -> a = b) by (intros a b Eab; apply (f_equal whole) in Eab; rewrite !C77_whole in Eab; congruence). apply (f_equal items) in E. rewrite !C77_space in E. unfold space_items, mesh_items in E. cbn [app] in E. injection E as E1 E2 E3 E4 E5 E6 E7 E8. repeat split; apply D; assumption.
Qed.
Print Assumptions C77_alike.

(** ** Forms and solvers *)
(** The text of a number is one line without a blank at its start. *)
Definition tidy (show : R -> string) : Prop := forall c, one_line (show c) /\ skip (show c) = show c.
Section Forms.
Variable show : R -> string.
Hypothesis Tidy : tidy show.
Lemma one_power v n : one_line v -> one_line (power_repr v n).
Proof. intros V. unfold power_repr. apply one_app; [destruct (Nat.ltb 0 n); [exact V|exact I]|]. destruct (Nat.ltb 1 n); [|concrete]. apply (one_app "^"); [concrete|]. apply one_app; [apply one_dec|concrete]. Qed.
Lemma one_text (p : poly RS) : one_line (text RS show p).
Proof.
  induction p as [|m p IH]; cbn [text]; [exact I|]. apply one_app; [|exact IH]. unfold mono_repr. apply one_app; [concrete|]. apply one_app; [apply Tidy|]. apply one_app; [concrete|]. apply one_app; apply one_power; concrete.
Qed.
Lemma poly_line p : one_line (snd (poly_str RS show p)) /\ skip (snd (poly_str RS show p)) = snd (poly_str RS show p).
Proof.
  unfold poly_str, poly_repr. cbn [snd]. destruct (psort RS p) as [|m q]; [concrete|]. rewrite fold_text. cbn [append]. split; [apply one_text|reflexivity].
Qed.
Definition form_items (B : bform) : list (string * string) := [("D", show (bf_diffusion B)); ("R", show (bf_reaction B)); ("f", snd (poly_str RS show (bf_rhs B)))].
Lemma form_next h t B b : one_line h -> one_line t -> items (h ++ t ++ snd (form_str show B) ++ nl ++ b) = key (skip (h ++ t ++ "BilinearForm:")) :: form_items B ++ items b.
Proof.
  intros Hh Ht. unfold form_str, form_items. destruct (poly_line (bf_rhs B)) as [P1 P2]. destruct (poly_str RS show (bf_rhs B)) as [f u]. cbn [snd] in *. rewrite !app_assoc_s. rewrite line_next by (assumption || concrete). cbn [app]. f_equal. destruct (Tidy (bf_diffusion B)) as [D1 D2]. destruct (Tidy (bf_reaction B)) as [R1 R2].
  rewrite line_next; [|concrete|concrete|exact D1]. apply (f_equal2 cons); [cbn; rewrite D2; reflexivity|]. rewrite line_next; [|concrete|concrete|exact R1]. apply (f_equal2 cons); [cbn; rewrite R2; reflexivity|]. rewrite line_next; [|concrete|concrete|exact P1]. apply (f_equal2 cons); [cbn; rewrite P2; reflexivity|reflexivity].
Qed.
Theorem C77_form B : let (B', t) := form_str show B in items t = ("BilinearForm", "") :: form_items B /\ B' = BForm (bf_diffusion B) (bf_reaction B) (fst (poly_str RS show (bf_rhs B))).
Proof.
  unfold form_str, form_items. destruct (poly_line (bf_rhs B)) as [P1 P2]. destruct (poly_str RS show (bf_rhs B)) as [f u]. cbn [fst snd] in *. split; [|reflexivity]. rewrite (items_app "BilinearForm:") by concrete. apply (f_equal2 cons); [reflexivity|]. destruct (Tidy (bf_diffusion B)) as [D1 D2]. destruct (Tidy (bf_reaction B)) as [R1 R2].
  rewrite line_next; [|concrete|concrete|exact D1]. apply (f_equal2 cons); [cbn; rewrite D2; reflexivity|]. rewrite line_next; [|concrete|concrete|exact R1]. apply (f_equal2 cons); [cbn; rewrite R2; reflexivity|]. rewrite line_last; [|concrete|concrete|exact P1]. cbn. rewrite P2. reflexivity.
Qed.
(** The polynomial can be read back from the text of the form. *)
Theorem C77_form_poly parse B : (forall m, In m (bf_rhs (fst (form_str show B))) -> printable show parse (mcoef m)) -> exists t, values "f" (snd (form_str show B)) = [t] /\ read parse t = Some (map (plain RS) (bf_rhs (fst (form_str show B)))).
Proof.
  intros H. pose proof (C77_form B) as F. destruct (form_str show B) as [B' t]. cbn [fst snd] in *. destruct F as [F ->]. exists (snd (poly_str RS show (bf_rhs B))). split; [unfold values; rewrite F; reflexivity|]. cbn [bf_rhs] in *. unfold poly_str in *. apply (C71_read RS show parse (bf_rhs B) H).
Qed.
Theorem C77_solver p B num : let (B', t) := solver_str show p B num in
  items t = ("Solver", "") :: ("glob_fun_sp", "GlobalFunctionSpace:") :: space_items p ++ ("a", "BilinearForm:") :: form_items B ++ [("num_funs", decz num); ("", "")] /\ numbers "num_funs" t = [Some (p_num p); Some num].
Proof.
  unfold solver_str. pose proof (form_next tab "a: " B) as F. destruct (form_str show B) as [B' u]. cbn [snd] in F.
  assert (E : items ("Solver:" ++ nl ++ tab ++ "glob_fun_sp: " ++ space_str p ++ nl ++ tab ++ "a: " ++ u ++ nl ++ tab ++ "num_funs: " ++ decz num ++ nl) = ("Solver", "") :: ("glob_fun_sp", "GlobalFunctionSpace:") :: space_items p ++ ("a", "BilinearForm:") :: form_items B ++ [("num_funs", decz num); ("", "")]).
  { rewrite (items_app "Solver:") by concrete. apply (f_equal2 cons); [reflexivity|]. rewrite space_next by concrete. apply (f_equal2 cons); [reflexivity|]. f_equal. rewrite F by concrete. apply (f_equal2 cons); [reflexivity|]. f_equal. rewrite <- (app_nil_s nl) at 1. next. reflexivity. }
  split; [exact E|]. unfold numbers, values. rewrite E. unfold space_items, mesh_items, form_items. cbn -[decz]. rewrite !C77_whole. reflexivity.
Qed.
End Forms.
Print Assumptions C77_form.
Print Assumptions C77_form_poly.
Print Assumptions C77_solver.

(** ** Edges, vertices and rules *)
Definition idx_items (e : edge) : list (string * string) := match e_idx e with Some i => [("idx", decz i)] | None => [] end.
Theorem C77_edge name e : one_line name -> skip name = name -> one_line (e_qtype e) -> skip (e_qtype e) = e_qtype e ->
  items (edge_str name e) = (idx_items e ++ [("curve_type", name); ("quad_type", e_qtype e); ("num_pts", decz (e_npts e)); ("", "")])%list /\ numbers "num_pts" (edge_str name e) = [Some (e_npts e)] /\ numbers "idx" (edge_str name e) = match e_idx e with Some i => [Some i] | None => [] end.
Proof.
  intros N1 N2 Q1 Q2. assert (T : items ("curve_type: " ++ name ++ nl ++ "quad_type:  " ++ e_qtype e ++ nl ++ "num_pts:    " ++ decz (e_npts e) ++ nl) = [("curve_type", name); ("quad_type", e_qtype e); ("num_pts", decz (e_npts e)); ("", "")]).
  { change ("curve_type: " ++ ?a) with ("" ++ "curve_type: " ++ a). rewrite line_next by (assumption || concrete). apply (f_equal2 cons); [cbn; rewrite N2; reflexivity|]. change ("quad_type:  " ++ ?a) with ("" ++ "quad_type:  " ++ a). rewrite line_next by (assumption || concrete). apply (f_equal2 cons); [cbn; rewrite Q2; reflexivity|].
    change ("num_pts:    " ++ decz (e_npts e) ++ nl) with ("" ++ "num_pts:    " ++ decz (e_npts e) ++ nl ++ ""). next. reflexivity. }
  assert (E : items (edge_str name e) = (idx_items e ++ [("curve_type", name); ("quad_type", e_qtype e); ("num_pts", decz (e_npts e)); ("", "")])%list).
  { unfold edge_str, idx_items. destruct (e_idx e) as [i|]; [|exact T]. rewrite !app_assoc_s. change ("idx:         " ++ ?a) with ("" ++ "idx:         " ++ a). rewrite line_next by (apply one_decz || concrete). apply (f_equal2 cons); [cbn; rewrite starts_decz; reflexivity|exact T]. }
  split; [exact E|]. unfold numbers, values. rewrite E. unfold idx_items. destruct (e_idx e); cbn -[decz]; rewrite !C77_whole; auto.
Qed.
Print Assumptions C77_edge.

Fixpoint free (c : ascii) (s : string) : Prop := match s with "" => True | String a s => a <> c /\ free c s end.
Lemma upto_app c t s : free c t -> upto c (t ++ String c s) = Some (t, s).
Proof. induction t as [|a t IH]; intros H; cbn [append upto]; [rewrite Ascii.eqb_refl; reflexivity|]. destruct H as [N H]. apply Ascii.eqb_neq in N. rewrite N, IH by exact H. reflexivity. Qed.
Lemma free_app c a b : free c a -> free c b -> free c (a ++ b).
Proof. induction a as [|x a IH]; intros A B; [exact B|]. destruct A as [N A]. cbn. split; [exact N|apply IH; assumption]. Qed.
Lemma free_decz c z : digit c = None -> c <> "-"%char -> free c (decz z).
Proof.
  intros D M. assert (U : forall d, free c (NilEmpty.string_of_uint d)) by (induction d; cbn; auto; split; auto; intros <-; discriminate D). assert (N : forall n, free c (dec n)). { intros n. unfold dec, NilZero.string_of_uint. destruct (Nat.to_uint n) as [|d|d|d|d|d|d|d|d|d|d]; try apply U. cbn. split; [intros <-; discriminate D|exact I]. }
  unfold decz. destruct (Z.ltb z 0); [cbn; split; [congruence|apply N]|apply N].
Qed.
Theorem C77_vert show v : free "," (show (vx v)) -> free ")" (show (vy v)) -> read_vert (vert_str show v) = Some (vidx v, show (vx v), show (vy v)).
Proof.
  intros X Y. unfold vert_str, read_vert. rewrite drop_app. change ("](" ++ ?a) with (String "]" ("(" ++ a)). rewrite upto_app by (apply free_decz; [reflexivity|discriminate]). rewrite drop_app. change (", " ++ ?a) with (String "," (" " ++ a)). rewrite upto_app by exact X. rewrite drop_app, upto_app by exact Y. rewrite C77_whole. reflexivity.
Qed.
Print Assumptions C77_vert.
(** The line of n in the text of a rule *)
Theorem C77_quad q : one_line (q_type q) -> exists l, lines (quad_repr q) = ["Quad object "; tab ++ "type" ++ tab ++ q_type q ++ " "; l] /\ match drop (tab ++ "n" ++ tab) l with Some r => whole r = Some (Z.of_nat (q_n q)) | None => False end.
Proof.
  intros T. exists (tab ++ "n" ++ tab ++ dec (q_n q)). split; [|cbn; apply whole_dec]. unfold quad_repr. rewrite (lines_app "Quad object ") by concrete. f_equal. replace (tab ++ "type" ++ tab ++ q_type q ++ " " ++ nl ++ tab ++ "n" ++ tab ++ dec (q_n q)) with ((tab ++ "type" ++ tab ++ q_type q ++ " ") ++ nl ++ tab ++ "n" ++ tab ++ dec (q_n q)) by (rewrite !app_assoc_s; reflexivity). rewrite lines_app; [|apply (one_app (tab ++ "type" ++ tab)); [concrete|apply one_app; [exact T|concrete]]]. f_equal. apply lines_one. apply (one_app (tab ++ "n" ++ tab)); [concrete|apply one_dec].
Qed.
Print Assumptions C77_quad.

(** ** The progress line *)
Lemma skip_blanks n s : skip (blanks n ++ s) = skip s.
Proof. induction n as [|n IH]; [reflexivity|exact IH]. Qed.
Lemma padded_dec6 z s : (0 <= z)%Z -> ends_number s -> padded (dec6 z ++ s) = (Z.to_nat z, s).
Proof.
  intros Hz E. unfold padded, dec6, decz. destruct (Z.ltb_spec z 0); [lia|]. rewrite app_assoc_s, skip_blanks. assert (K : skip (dec (Z.to_nat z) ++ s) = dec (Z.to_nat z) ++ s). { destruct (dec_uint (Z.to_nat z)) as (c & r & -> & _ & _ & B & T & _). cbn [append skip]. rewrite B, T. reflexivity. } rewrite K. apply number_dec, E.
Qed.
Theorem C77_progress i n : (0 <= i)%Z -> (0 <= n)%Z -> read_progress (cell_progress i n) = Some (Z.to_nat (i + 1), Z.to_nat n).
Proof.
  intros Hi Hn. unfold cell_progress, in_green, read_progress. change (esc ++ "[32m" ++ ?a ++ ?b) with (String "027" "[32m" ++ (a ++ b)). rewrite !app_assoc_s. change (String "027" "[32m" ++ "Cell " ++ ?a) with (String "027" "[32mCell " ++ a). rewrite drop_app, padded_dec6 by (lia || reflexivity). rewrite drop_app, padded_dec6 by (lia || reflexivity). reflexivity.
Qed.
Print Assumptions C77_progress.
(** Six characters hold every number below a million, so the lines of one run have the same length. *)
Lemma of_acc d acc : (Z.of_nat acc * 10 ^ Z.of_nat (nb_digits d) <= Z.of_nat (Nat.of_uint_acc d acc))%Z.
Proof.
  revert acc. induction d as [|d IH|d IH|d IH|d IH|d IH|d IH|d IH|d IH|d IH|d IH]; intros acc; cbn [nb_digits Nat.of_uint_acc]; [change (Z.of_nat 0) with 0%Z; lia|..];
    (rewrite Nat2Z.inj_succ, Z.pow_succ_r by lia; eapply Z.le_trans; [|apply IH]; rewrite Z.mul_assoc; apply Z.mul_le_mono_nonneg_r; [apply Z.pow_nonneg; lia|]; rewrite ?Nat2Z.inj_succ, Nat.tail_mul_spec, Nat2Z.inj_mul; lia).
Qed.
Lemma uint_len d : String.length (NilEmpty.string_of_uint d) = nb_digits d.
Proof. induction d; cbn; congruence. Qed.
Lemma dec_len n k : (Z.of_nat n < 10 ^ Z.of_nat (S k))%Z -> (String.length (dec n) <= S k)%nat.
Proof.
  intros H. unfold dec, NilZero.string_of_uint. pose proof (Unsigned.of_to n) as E. pose proof (Unsigned.to_of (Nat.to_uint n)) as N. rewrite E in N.
  assert (P : forall d, Nat.to_uint n = d -> nb_digits d <> 0%nat -> (forall e, d <> D0 e) -> (nb_digits d <= S k)%nat).
  { intros d D Z0 NZ. rewrite D in E. destruct (le_lt_dec (nb_digits d) (S k)) as [|L]; [assumption|]. exfalso. clear N. unfold Nat.of_uint in E.
    assert (Q : (1 * 10 ^ Z.of_nat (S k) <= Z.of_nat n)%Z); [|lia]. destruct d as [|d|d|d|d|d|d|d|d|d|d]; [exfalso; exact (Z0 eq_refl)|exfalso; eapply NZ; reflexivity|..];
      (cbn [Nat.of_uint_acc Nat.tail_mul Nat.tail_addmul nb_digits] in E, L; rewrite <- E; eapply Z.le_trans; [|apply of_acc]; apply Z.mul_le_mono_nonneg; [lia|cbn; lia|apply Z.pow_nonneg; lia|apply Z.pow_le_mono_r; lia]). }
  destruct (Nat.to_uint n) as [|d|d|d|d|d|d|d|d|d|d] eqn:D; try (rewrite uint_len; apply (P _ eq_refl); [discriminate|intros e X; discriminate X]); [cbn; lia|].
  unfold unorm in N. destruct (nzhead (D0 d)) eqn:Z0; try discriminate N; [injection N as ->; cbn; lia|]. exfalso. exact (nzhead_nonzero _ _ Z0).
Qed.
Lemma dec6_len z : (0 <= z < 1000000)%Z -> String.length (dec6 z) = 6%nat.
Proof.
  intros H. assert (L : (String.length (decz z) <= 6)%nat). { unfold decz. destruct (Z.ltb_spec z 0); [lia|]. apply (dec_len _ 5). rewrite Z2Nat.id by lia. change (10 ^ Z.of_nat 6)%Z with 1000000%Z. lia. }
  unfold dec6. assert (A : forall n s, String.length (blanks n ++ s) = (n + String.length s)%nat) by (induction n as [|n IH]; intros s; cbn in *; [reflexivity|rewrite IH; reflexivity]). rewrite A. lia.
Qed.
Lemma len_app a b : String.length (a ++ b) = (String.length a + String.length b)%nat.
Proof. induction a as [|c a IH]; cbn; congruence. Qed.
Theorem C77_progress_width i n : (0 <= i < n)%Z -> (n < 1000000)%Z -> String.length (cell_progress i n) = 29%nat.
Proof. intros Hi Hn. unfold cell_progress, in_green. rewrite !len_app, !dec6_len by lia. reflexivity. Qed.
Print Assumptions C77_progress_width.

(** ** A solver that was built shows its number of functions twice, with the same value. *)
Theorem C77_solver_built {Fn} H (basis : nat -> res (list (gkey * Fn))) h1 l2 load p interior v B show : tidy show -> mk_solver H basis h1 l2 load (bf_diffusion B) (bf_reaction B) p interior = Ok v ->
  numbers "num_funs" (snd (solver_str show (v_space v) B (v_num v))) = [Some (v_num v); Some (v_num v)].
Proof.
  intros T E. pose proof (C77_solver show T (v_space v) B (v_num v)) as S. destruct (solver_str show (v_space v) B (v_num v)) as [B' t]. cbn [snd]. destruct S as [_ ->]. unfold mk_solver in E.
  destruct (fold_res _ _ _) as [w|]; [|discriminate]. cbn [bind] in E. destruct (impose_bc _ _) as [sys|]; [|discriminate]. cbn [bind] in E. do 3 (destruct (check_indices _ _) as [?|] in E; [|discriminate]; cbn [bind] in E). apply Ok_inj in E. subst v. reflexivity.
Qed.
Print Assumptions C77_solver_built.

(** ** Examples *)
Definition one (c : R) : string := "1.0".
Lemma tidy_one : tidy one.
Proof. intros c. split; [concrete|reflexivity]. Qed.
(** The solver of two triangles, with its whole text *)
Example C77_example h1 l2 load : exists H m p v, mk_mesh two_triangles [0; 1; 2; 4; 3]%nat = Ok (H, m) /\ mk_space m (PInt 2) [0; 1; 0; 0; 0]%Z = Ok p /\ mk_solver H ex_basis h1 l2 load 1 1 p true = Ok v /\
  snd (solver_str one (v_space v) (BForm 1 1 []) (v_num v)) = "Solver:" ++ nl ++ tab ++ "glob_fun_sp: GlobalFunctionSpace:" ++ nl ++ tab ++ "mesh: PlanarMesh:" ++ nl ++ tab ++ "num_verts: 4" ++ nl ++ tab ++ "num_edges: 5" ++ nl ++ tab ++ "num_cells: 2" ++
    nl ++ tab ++ "deg: 2" ++ nl ++ tab ++ "num_funs: 7" ++ nl ++ tab ++ "num_bubb_funs: 2" ++ nl ++ tab ++ "num_vert_funs: 4" ++ nl ++ tab ++ "num_edge_funs: 1" ++ nl ++ tab ++ "a: BilinearForm:" ++ nl ++ tab ++ "D: 1.0" ++ nl ++ tab ++ "R: 1.0" ++ nl ++ tab ++ "f: + (0) " ++ nl ++ tab ++ "num_funs: 7" ++ nl /\
  numbers "num_funs" (space_str (v_space v)) = [Some 7%Z] /\ values "num_cells" (mesh_str m) = ["2"].
Proof. do 4 eexists. split; [vm_compute; reflexivity|]. split; [vm_compute; reflexivity|]. split; [vm_compute; reflexivity|]. repeat split; vm_compute; reflexivity. Qed.
Example C77_text_examples : vert_str one (Vert 1 1 (-1)) = "[vert-1](1.0, 1.0)" /\ read_vert "[vert-1](1.0, 1.0)" = Some ((-1)%Z, "1.0", "1.0") /\ cell_progress 8 120 = String "027" "[32mCell      9 /    120" ++ String "027" "[0m" /\ read_progress (cell_progress 8 120) = Some (9, 120)%nat /\
  lines (quad_repr (Quad_ "kress" 16 0 [] [])) = ["Quad object "; String "009" "type" ++ String "009" "kress "; String "009" "n" ++ String "009" "16"] /\ free "," (one 2) /\ free ")" (one 2).
Proof. repeat split; try (vm_compute; reflexivity); discriminate. Qed.
Example C77_edge_example : exists H m e, mk_mesh two_triangles [0; 1; 2; 4; 3]%nat = Ok (H, m) /\ nth_error H 4 = Some e /\ values "idx" (edge_str "line" e) = ["3"] /\ values "num_pts" (edge_str "line" e) = ["-1"] /\ values "curve_type" (edge_str "line" e) = ["line"] /\ one_line "line" /\ skip "line" = "line" /\ one_line (e_qtype e) /\ skip (e_qtype e) = e_qtype e.
Proof. do 3 eexists. split; [vm_compute; reflexivity|]. split; [vm_compute; reflexivity|]. repeat split; vm_compute; reflexivity. Qed.
