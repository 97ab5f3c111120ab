(** Property C72: the names of curves. *)
From Coq Require Import List ZArith Reals Lra Lia String Bool.
From Verif Require Import PyBase PolyModel BaryModel QuadModel CurveModel VertModel EdgeModel EdgeSpec EdgeProofs EdgeProofs2
  EdgeProps EdgeProps2 EdgeProps3 FaultModel FaultProofs FaultProps.
Import ListNotations.
Open Scope R_scope.

(** The files of puncturedfem/mesh/edgelib *)
Definition library : list string := ["bean"; "cartioid"; "circle"; "circular_arc"; "circular_arc_deg"; "ellipse";
  "line"; "sine_wave"; "spline"; "teardrop"]%string.

(** A file test that finds these files and no other file with a plain name *)
Definition faithful (there : string -> bool) (plain : string -> Prop) : Prop :=
  (forall s, In s library -> there s = true) /\ (forall s, plain s -> there s = true -> In s library).

(** Exactly the ten names are found, each as its own curve. *)
Theorem C72_library sp s : (exists c, find_module sp s = Some c) <-> In s library.
Proof.
  unfold find_module, library. cbn [In].
  repeat match goal with |- context [String.eqb s ?n] => destruct (String.eqb_spec s n) as [->|?] end.
  all: try (split; [intros _; tauto|intros _; eexists; reflexivity]).
  split; [intros (c & H); discriminate|]. intuition congruence.
Qed.
Print Assumptions C72_library.

Theorem C72_curves sp : map (find_module sp) library =
  map Some [Bean; Cartioid; Circle; CircularArc; CircularArcDeg; Ellipse; Line; SineWave; sp; Teardrop].
Proof. reflexivity. Qed.
Print Assumptions C72_curves.

(** The constructor takes every name: an edge with another name is built, and no sampling of it
    succeeds. All that a call changes is num_pts. *)
Theorem C72_unknown_refuted n p sp qd t e : get_quad_dict n p = Ok qd -> ~ In (shown t) library ->
  e_qtype e = "trap"%string \/ e_qtype e = "kress"%string ->
  exists m, st_parameterize sp qd t e = (with_npts e m, Some NoModule) /\ (9 <= m)%Z.
Proof.
  intros HD N Q. unfold st_parameterize. assert (M : find_module sp (shown t) = None).
  { destruct (find_module sp (shown t)) as [c|] eqn:E; [|reflexivity]. destruct N. apply (C72_library sp). exists c. exact E. }
  rewrite M. assert (G : forall q, pick qd e = Ok q -> (9 <= 2 * Z.of_nat (q_n q) + 1)%Z).
  { intros q Hq. destruct n as [n|]; [|discriminate]. unfold get_quad_dict in HD.
    destruct (mk_quad "trap" (PInt n) 7) as [qa|] eqn:Ea; [|discriminate]. destruct (mk_quad "kress" (PInt n) p) as [qb|] eqn:Eb; [|discriminate].
    cbn [bind] in HD. apply Ok_inj in HD. subst qd. rewrite QuadProps.quad_trap in Ea. rewrite QuadProps.quad_kress in Eb.
    destruct (Z.ltb_spec n 4); [discriminate|]. cbv zeta in Ea, Eb. apply Ok_inj in Ea. subst qa.
    destruct (Z.ltb_spec p 2); [discriminate|]. apply Ok_inj in Eb. subst qb. unfold pick in Hq. cbn [fst snd] in Hq.
    destruct (String.eqb _ "trap"); [|destruct (String.eqb _ "kress"); [|discriminate]]; apply Ok_inj in Hq; subst q; cbn [q_n]; lia. }
  unfold pick in G. destruct (e_tb e) as [a b]. destruct Q as [Q|Q]; rewrite Q in *; cbn [String.eqb Ascii.eqb Bool.eqb] in *.
  - eexists. split; [reflexivity|]. apply G. reflexivity.
  - eexists. split; [reflexivity|]. apply G. reflexivity.
Qed.
Print Assumptions C72_unknown_refuted.

(** set_curve_type accepts exactly: any str, provided that the file of the current type exists. *)
Theorem C72_set there cur new t : set_curve_type there cur new = Ok t <->
  t = new /\ exists s s', new = CStr s /\ cur = CStr s' /\ there s' = true.
Proof.
  unfold set_curve_type. destruct new as [s|s], cur as [s'|s']; split; intros H; try discriminate.
  - destruct (there s') eqn:E; [|discriminate]. apply Ok_inj in H. split; [congruence|]. exists s, s'. auto.
  - destruct H as (-> & u & u' & E1 & E2 & E3). injection E2 as <-. rewrite E3. reflexivity.
  - destruct H as (-> & u & u' & E1 & E2 & E3). discriminate.
  - destruct H as (-> & u & u' & E1 & E2 & E3). discriminate.
  - destruct H as (-> & u & u' & E1 & E2 & E3). discriminate.
Qed.
Print Assumptions C72_set.

Theorem C72_set_refused there s s' u u' :
  set_curve_type there (CStr s') (COther u) = Err ValueError /\
  set_curve_type there (COther u') (COther u) = Err ValueError /\
  set_curve_type there (COther u') (CStr s) = Err TypeError /\
  (there s' = false -> set_curve_type there (CStr s') (CStr s) = Err FileExistsError).
Proof. repeat split. intros H. unfold set_curve_type. rewrite H. reflexivity. Qed.
Print Assumptions C72_set_refused.

(** From every type of the library every str is accepted, in particular names without a file. *)
Theorem C72_set_refuted there plain s new : faithful there plain -> In s library ->
  set_curve_type there (CStr s) (CStr new) = Ok (CStr new).
Proof. intros (H & _) L. unfold set_curve_type. rewrite (H s L). reflexivity. Qed.
Print Assumptions C72_set_refuted.

(** Any sequence of calls of set_curve_type, each of which may be refused *)
Definition calls (there : string -> bool) (l : list cname) (t : cname) : cname :=
  fold_left (fun t new => match set_curve_type there t new with Ok t' => t' | Err _ => t end) l t.

(** A type without a file can never be replaced: every later call is refused, with every name. *)
Theorem C72_stuck_refuted there plain s l new : faithful there plain -> plain s -> ~ In s library ->
  calls there l (CStr s) = CStr s /\ exists x, set_curve_type there (calls there l (CStr s)) new = Err x.
Proof.
  intros (_ & H) P N. assert (F : there s = false) by (destruct (there s) eqn:E; [destruct (N (H s P E))|reflexivity]).
  assert (K : forall new, exists x, set_curve_type there (CStr s) new = Err x).
  { intros [u|u]; cbn; [rewrite F|]; eexists; reflexivity. }
  assert (C : calls there l (CStr s) = CStr s).
  { unfold calls. induction l as [|t l IH]; [reflexivity|]. cbn [fold_left]. destruct (K t) as (x & ->). exact IH. }
  split; [exact C|]. rewrite C. apply K.
Qed.
Print Assumptions C72_stuck_refuted.

(** As long as only names of the library are given, the type stays one of the library and is the
    last name given. *)
Theorem C72_library_names there plain l s : faithful there plain -> In s library -> Forall (fun t => In t library) l ->
  calls there (map CStr l) (CStr s) = CStr (last l s).
Proof.
  intros F. revert s. unfold calls. induction l as [|t l IH]; intros s L A; [reflexivity|]. cbn [map fold_left].
  rewrite (C72_set_refuted there plain s t F L). inversion A as [|u v A1 A2]; subst. rewrite (IH t A1 A2).
  destruct l as [|u l]; [reflexivity|]. cbn [last]. f_equal. clear. revert u. induction l as [|v l IH]; intros u; [reflexivity|]. exact (IH v).
Qed.
Print Assumptions C72_library_names.

(** A sampled edge whose type is replaced by a misspelt name: the next sampling, with more nodes,
    is refused; the edge is still flagged as sampled, with 9 samples and num_pts 17. A vector with
    num_pts entries, which the size check asks for, cannot be multiplied by the speeds. *)
Definition there10 (s : string) : bool := existsb (String.eqb s) library.
Lemma there10_ok : faithful there10 (fun _ => True).
Proof.
  split; [intros s H; apply existsb_exists; exists s; split; [exact H|apply String.eqb_refl]|].
  intros s _ H. apply existsb_exists in H. destruct H as (u & I & E). apply String.eqb_eq in E. subst u. exact I.
Qed.
Definition dict8 : quad * quad := (Quad_ "trap" 8 (PI / INR 8) (linspace 0 (2 * PI) 16) (map (fun _ => 1) (linspace 0 (2 * PI) 16)),
  Quad_ "kress" 8 (PI / INR 8) (map (kress_node 7) (linspace 0 (2 * PI) 16)) (map (kress_wgt 7) (linspace 0 (2 * PI) 16))).
Example C72_example : exists e e',
  set_curve_type there10 (CStr "circle") (CStr "circel") = Ok (CStr "circel") /\
  set_curve_type there10 (CStr "circel") (CStr "circle") = Err FileExistsError /\
  st_parameterize Line dict4 (CStr "circle") circle0 = (e, None) /\
  st_parameterize Line dict8 (CStr "circel") e = (e', Some NoModule) /\
  e_param e' = true /\ e_npts e' = 17%Z /\ List.length (e_smp e') = 9%nat /\
  (forall v, List.length v = 17%nat -> multiply_by_dx_norm v false e' = Err BroadcastError) /\
  (forall v, List.length v = 9%nat -> multiply_by_dx_norm v false e' = Err SizeMismatchError).
Proof.
  assert (S1 : exists e, parameterize dict4 circle0 = Ok e) by (eexists; reflexivity). destruct S1 as (e & S1).
  exists e, (with_npts e 17). split; [reflexivity|]. split; [reflexivity|].
  split; [apply (C73_sampling_outcomes Line dict4 (CStr "circle") circle0 eq_refl); exact S1|].
  assert (Q : e_qtype e = "trap"%string /\ e_param e = true /\ List.length (e_smp e) = 9%nat /\ exists tb, e_tb e = tb).
  { unfold parameterize in S1. cbn [circle0 e_qtype e_tb e_curve e_opts cX cDX cDDX bind String.eqb Ascii.eqb Bool.eqb] in S1. unfold run_diary in S1. cbn [e_diary with_param fold_res apply_step bind] in S1.
    apply Ok_inj in S1. subst e. repeat split. eexists. reflexivity. }
  destruct Q as (Q1 & Q2 & Q3 & (t0, t1) & Q4). split.
  { unfold st_parameterize. rewrite Q1. cbn [String.eqb Ascii.eqb Bool.eqb]. rewrite Q4. reflexivity. }
  split; [exact Q2|]. split; [reflexivity|]. split; [exact Q3|].
  split; intros v L; unfold multiply_by_dx_norm; cbn [with_npts with_param e_param e_npts e_smp]; rewrite Q2, L; cbn [Z.of_nat Z.eqb Pos.of_succ_nat Pos.succ Pos.eqb]; [|reflexivity].
  unfold np_mul. rewrite map_length, Q3, L. cbn [Nat.eqb].
  destruct v as [|v0 [|v1 v]]; cbn in L; try lia. destruct (e_smp e) as [|s0 [|s1 l]]; cbn in Q3; try lia. reflexivity.
Qed.
