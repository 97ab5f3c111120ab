(** C85: the flags compute_interior_values and compute_interior_gradient do not change the linear system. *)
From Coq Require Import List ZArith Reals Lia Lra Bool String.
From Verif Require Import PyBase PolyModel PolySpec BaryModel QuadModel VertModel EdgeModel ContourModel CellModel MeshModel TraceModel LocalModel NystromModel EdgeSpaceModel GlobModel SolverModel LocSpaceModel AsmModel PegSpec PegProps BoardProps2 DeparamProps LocSpaceProps4 AgainProps FlagProofs.
From Verif Require ConvProofs5.
Import List ListNotations.
Open Scope R_scope.

(** Flags [i] and [g] that ask for no more than [iv] and [gv] *)
Definition asks_less (i g iv gv : bool) : Prop := (i = true -> iv = true) /\ (g = true -> gv = true).
(** The same edges, the same space with the same keys, the same matrix and right-hand side *)
Definition equal_systems (v v' : @solver lpois) : Prop := v_space v' = v_space v /\ v_entries v' = v_entries v /\ v_rhs v' = v_rhs v /\ v_num v' = v_num v /\ v_soln v' = v_soln v.
(** The same function with the same values inside the cell; the same gradient if [g], else zeros *)
Definition equal_inside (g : bool) (u u' : lpois) : Prop :=
  u_harm u' = u_harm u /\ u_poly u' = u_poly u /\ u_vals u' = u_vals u /\
  if g then u_g1 u' = u_g1 u /\ u_g2 u' = u_g2 u
  else match u_vals u with Some l => u_g1 u' = Some (repeat 0 (List.length l)) /\ u_g2 u' = Some (repeat 0 (List.length l)) | None => u_g1 u' = None /\ u_g2 u' = None end.
Definition equal_lists (g : bool) (o o' : option (list lpois)) : Prop := match o, o' with Some l, Some l' => Forall2 (equal_inside g) l l' | None, None => True | _, _ => False end.

Lemma zeros_repeat {A} (l : list A) : map (fun _ => 0) l = repeat 0 (List.length l).
Proof. induction l as [|a l IH]; [reflexivity|]. cbn. rewrite IH. reflexivity. Qed.
Lemma view_inside g u : equal_inside g u (view true g u).
Proof. unfold equal_inside, view. cbn [u_harm u_poly u_vals u_g1 u_g2 orb]. destruct g; [auto|]. destruct (u_vals u) as [l|]; cbn [option_map]; [rewrite zeros_repeat|]; auto. Qed.

Section Flags.
Variable contains : R -> list pt -> pt -> bool.
Variable low_rank : nat -> matrix -> matrix.
Variable gmres : (list R -> res (list R)) -> list R -> (list R -> res (list R)) -> res (list R).
Variable set_iter : list Z -> list Z.
Variable qd : quad * quad.
Variable B : bform.
Notation run := (run_solver contains low_rank gmres set_iter qd B).
Notation whole := (script contains low_rank gmres set_iter qd B).

(** A run that ends also ends when less is asked for, with the same system. Stored functions have the same values. *)
Theorem C85_less X p all iv gv i g X1 v : asks_less i g iv gv -> run X p all iv gv = Ok (X1, v) ->
  exists v', run X p all i g = Ok (X1, v') /\ equal_systems v v' /\ if i then Forall2 (equal_lists g) (v_local v) (v_local v') else v_local v' = repeat None (Z.to_nat (m_ncells (p_mesh p))).
Proof.
  intros W E. eexists. split; [exact (run_view _ _ _ _ _ _ _ _ _ _ _ i g _ _ W E)|]. split; [repeat split|]. cbn [v_local]. unfold locals. destruct i; [|reflexivity].
  induction (v_local v) as [|o l IH]; constructor; [|exact IH]. destruct o as [fs|]; cbn [equal_lists option_map]; [|exact I]. induction fs as [|f fs IHf]; constructor; [apply view_inside|exact IHf].
Qed.

(** Runs with any flags: the same system, and edges in the same state. *)
Theorem C85_flags X p all iv gv i g X1 v X2 v' : run X p all iv gv = Ok (X1, v) -> run X p all i g = Ok (X2, v') -> X2 = X1 /\ equal_systems v v'.
Proof.
  intros E E'. destruct (C85_less X p all iv gv false false X1 v) as (u & Eu & Su & _); [split; discriminate|exact E|]. destruct (C85_less X p all i g false false X2 v') as (u' & Eu' & Su' & _); [split; discriminate|exact E'|].
  rewrite Eu in Eu'. apply Ok_inj in Eu'. injection Eu' as -> ->. split; [reflexivity|]. unfold equal_systems in *. intuition congruence.
Qed.

(** A run that raises an exception without values inside raises one with them. *)
Theorem C85_failure X p all iv gv x : run X p all false false = Err x -> exists y, run X p all iv gv = Err y.
Proof.
  intros E. destruct (run X p all iv gv) as [[X1 v]|y] eqn:E1; [|exists y; reflexivity]. destruct (C85_less X p all iv gv false false X1 v) as (u & Eu & _); [split; discriminate|exact E1|]. congruence.
Qed.

(** The same for scripts *)
Theorem C85_script H0 is deg iv gv i g H2 v : asks_less i g iv gv -> whole H0 is deg iv gv = Ok (H2, v) ->
  exists v', whole H0 is deg i g = Ok (H2, v') /\ equal_systems v v' /\ if i then Forall2 (equal_lists g) (v_local v) (v_local v') else Forall (eq None) (v_local v').
Proof.
  intros W E. unfold script in *. destruct (mk_mesh H0 is) as [[H m]|]; [|discriminate]. cbn [bind] in *. destruct (mk_gfs low_rank qd H m deg) as [[[H1 p] all]|]; [|discriminate]. cbn [bind] in *.
  destruct (C85_less H1 p all iv gv i g H2 v W E) as (v' & E' & S' & L). exists v'. split; [exact E'|]. split; [exact S'|]. destruct i; [exact L|]. rewrite L. apply Forall_forall. intros o Io. symmetry. exact (repeat_spec _ _ _ Io).
Qed.

(** A second solver over the same space that asks for less: it exists and has the system of the first. *)
Theorem C85_second n q (X : heap) p all iv gv i g X1 v : get_quad_dict n q = Ok qd -> Forall new_edge (map deparameterize X) -> Forall (eq []) (p_dofs p) -> run X p all iv gv = Ok (X1, v) -> asks_less i g iv gv ->
  exists X2 v', run X1 (v_space v) all i g = Ok (X2, v') /\ v_entries v' = v_entries v /\ v_rhs v' = v_rhs v /\ v_num v' = v_num v.
Proof.
  intros Q N Fr E W. destruct (C84_second contains low_rank gmres set_iter qd B n q X p all iv gv X1 v Q N Fr E) as (X2 & v2 & E2 & _ & (Se & Sr & Sn & _) & _).
  destruct (C85_less X1 (v_space v) all iv gv i g X2 v2 W E2) as (v' & E' & (_ & Te & Tr & Tn & _) & _). exists X2, v'. split; [exact E'|]. repeat split; congruence.
Qed.
End Flags.
Print Assumptions C85_less.
Print Assumptions C85_flags.
Print Assumptions C85_failure.
Print Assumptions C85_script.
Print Assumptions C85_second.

(** The board of C82_example, 2 x 3 with 12 cells: with values and gradients, with values only and without either *)
Example C85_example low_rank : exists qd H0 H m H2 v v1 v0, get_quad_dict (PInt 16) 7 = Ok qd /\ pegboard (2, 3)%Z (1 / 4) = Ok (H, m) /\ mk_mesh H0 (seq 0 (List.length H0)) = Ok (H, m) /\
  let whole := script ConvProofs5.within low_rank (fun _ b _ => Ok b) (fun l => l) qd (BForm 1 1 [rmon 1 0 0; rmon 1 1 0]) H0 (seq 0 (List.length H0)) (PInt 2) in
  whole true true = Ok (H2, v) /\ whole true false = Ok (H2, v1) /\ whole false false = Ok (H2, v0) /\ equal_systems v v1 /\ equal_systems v v0 /\ Forall2 (equal_lists false) (v_local v) (v_local v1) /\ Forall (eq None) (v_local v0).
Proof.
  destruct (C82_example low_rank) as (qd & H0 & H & m & H2 & v & edges & all & Q & E & MK & Es & _).
  destruct (C85_script _ _ _ _ _ _ _ _ _ _ _ true false _ _ ltac:(split; [reflexivity|discriminate]) Es) as (v1 & E1 & S1 & L1). destruct (C85_script _ _ _ _ _ _ _ _ _ _ _ false false _ _ ltac:(split; discriminate) Es) as (v0 & E0 & S0 & L0).
  exists qd, H0, H, m, H2, v, v1, v0. cbv zeta. auto 12.
Qed.
