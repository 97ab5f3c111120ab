(** What the setters are meant to do (C80), stated without their code *)
From Coq Require Import List ZArith Reals Bool String.
From Verif Require Import PyBase SetterModel.
Import List ListNotations.
Open Scope string_scope.

(** Kinds of values. Python counts True and False among the integers, as 1 and 0. *)
Definition integer (v : pyobj) (z : Z) : Prop := v = OInt z \/ v = OBool true /\ z = 1%Z \/ v = OBool false /\ z = 0%Z.
Definition boolean (v : pyobj) : Prop := v = OBool true \/ v = OBool false.
Definition text (v : pyobj) : Prop := exists s, v = OStr s.
Definition instance (cls : string) (v : pyobj) : Prop := exists mro id parts, v = OInst mro id parts /\ In cls mro.
Definition edges_list (v : pyobj) : Prop := exists l, v = OList l /\ Forall (instance "Edge") l.

(** The values a setter is for *)
Definition wanted (s : setter) (v : pyobj) : Prop :=
  match s with
  | SFunType => v = OStr "vert" \/ v = OStr "edge" \/ v = OStr "bubb"
  | SVertIdx | SEdgeIdx | SEdgeSpaceIdx | SBubbSpaceIdx => exists z, integer v z
  | SGlobIdx => exists z, integer v z /\ (0 <= z)%Z
  | SDegree => exists z, integer v z /\ (1 <= z)%Z
  | SDiffusion | SReaction | SRhs | SCoef | SMultidx => True
  | SMesh => instance "PlanarMesh" v
  | SGlobSpace => instance "GlobalFunctionSpace" v
  | SForm => instance "BilinearForm" v
  | SEdge => instance "Edge" v
  | STraceEdges => instance "MeshCell" v \/ edges_list v
  | STrace => instance "DirichletTrace" v
  | SKey => v = ONone \/ instance "GlobalKey" v
  | SNystrom => instance "NystromSolver" v
  | SMeshCell | SK => instance "MeshCell" v
  | SStrategy => v = OStr "direct" \/ v = OStr "fft"
  | STitle => text v
  | SGrid | SLogScale | SUseInterp => boolean v
  | SPlotEdges => edges_list v
  | SLocalFunction => instance "LocalPoissonFunction" v
  | SSolver => instance "Solver" v
  end.
(** The complaint about another value: a ValueError for names that are not in a list of names, for edges of a trace and for integers
    that are too small, otherwise a TypeError *)
Definition complaint (s : setter) (v : pyobj) (e : exc) : Prop :=
  match s with
  | SFunType | SStrategy | STraceEdges => e = ValueError
  | SGlobIdx | SDegree => (exists z, integer v z) /\ e = ValueError \/ (forall z, ~ integer v z) /\ e = TypeError
  | _ => e = TypeError
  end.
(** The attribute a setter is for. The setter of the edges of a trace also counts them. *)
Definition target (s : setter) : string :=
  match s with
  | SFunType => "fun_type" | SVertIdx => "vert_idx" | SEdgeIdx => "edge_idx" | SEdgeSpaceIdx => "edge_space_idx" | SBubbSpaceIdx => "bubb_space_idx" | SGlobIdx => "glob_idx"
  | SDiffusion => "diffusion_constant" | SReaction => "reaction_constant" | SRhs => "rhs_poly" | SMesh => "mesh" | SDegree => "deg" | SGlobSpace => "glob_fun_sp" | SForm => "bilinear_form"
  | SEdge => "e" | STraceEdges => "edges" | STrace => "trace" | SKey => "key" | SNystrom => "nyst" | SMeshCell => "mesh_cell" | SK => "K" | SStrategy => "antilap_strategy"
  | STitle => "title" | SGrid => "show_grid" | SLogScale => "log_scale" | SPlotEdges => "edges" | SLocalFunction => "v" | SUseInterp => "use_interp" | SSolver => "solver"
  | SCoef => "coef" | SMultidx => "alpha"
  end.
(** Setters of indices of a key: they need to know the kind of function. *)
Definition of_key (s : setter) : option string :=
  match s with SVertIdx => Some "vert" | SEdgeIdx | SEdgeSpaceIdx => Some "edge" | SBubbSpaceIdx => Some "bubb" | _ => None end.
(** Setters that store what they are given *)
Definition plain (s : setter) (v : pyobj) : Prop :=
  of_key s = None /\ s <> STraceEdges /\ (s = SKey -> v <> ONone).

(** A key is consistent if only the indices that belong to its kind of function are set. *)
Definition consistent (o : attrs) : Prop :=
  forall s ty, of_key s = Some ty -> getattr o "fun_type" <> Some (OStr ty) -> getattr o (target s) = Some (OInt (-1)).

(** Whether a call with [n] positional arguments and no others finds a place for each of them and leaves no parameter without value:
    the arguments go to the positional parameters in turn, any that are left to a parameter *args. *)
Fixpoint binds (ps : list param) (n : nat) : bool :=
  match ps with
  | [] => Nat.eqb n 0
  | Param k d :: ps' =>
      match k with
      | PositionalOnly | PositionalOrKeyword => match n with S m => binds ps' m | 0%nat => d && binds ps' 0 end
      | VarPositional => binds ps' 0
      | KeywordOnly => d && binds ps' n
      | VarKeyword => binds ps' n
      end
  end.
(** Functions of plain parameters, such as lambda x, y: x + y *)
Definition plain_params (ps : list param) : Prop := Forall (fun p => (par_kind p = PositionalOnly \/ par_kind p = PositionalOrKeyword) /\ par_default p = false) ps.
