(** Model of the setters of the package that check what they are given, and of util/types.py. Objects are
    dictionaries of attributes, as in Python; values are distinguished as far as the checks can. *)
From Coq Require Import List ZArith Reals Bool String.
From Verif Require Import PyBase.
Import List ListNotations.
Open Scope string_scope.

(** inspect.Parameter: kind and whether there is a default *)
Inductive pkind : Type := PositionalOnly | PositionalOrKeyword | VarPositional | KeywordOnly | VarKeyword.
Record param : Type := Param { par_kind : pkind; par_default : bool }.

(** Values. [OFun] carries the signature of a function, [None] for built-in functions without one.
    [OInst] is an instance: its class and the base classes, its identity, and for a mesh cell what
    get_edges returns. Not modelled: numpy arrays, subclasses of the built-in types other than bool. *)
Inductive pyobj : Type :=
| OInt (z : Z) | OBool (b : bool) | ONpInt (z : Z) | OFloat (r : R) | OStr (s : string) | ONone
| OList (l : list pyobj) | OTuple (l : list pyobj) | OFun (sig : option (list param))
| OInst (mro : list string) (id : nat) (parts : list pyobj).

(** isinstance for the built-in types and for classes. A bool is an int. *)
Definition is_int (v : pyobj) : bool := match v with OInt _ | OBool _ => true | _ => false end.
Definition is_bool (v : pyobj) : bool := match v with OBool _ => true | _ => false end.
Definition is_str (v : pyobj) : bool := match v with OStr _ => true | _ => false end.
Definition is_a (cls : string) (v : pyobj) : bool := match v with OInst mro _ _ => existsb (String.eqb cls) mro | _ => false end.
(** The number an int stands for, used in comparisons *)
Definition int_of (v : pyobj) : Z := match v with OInt z => z | OBool b => if b then 1%Z else 0%Z | _ => 0%Z end.
(** [v in l] for a list of strings, and [v == s] *)
Definition is_string (v : pyobj) (s : string) : bool := match v with OStr t => String.eqb t s | _ => false end.
Definition in_strings (v : pyobj) (l : list string) : bool := existsb (is_string v) l.

(** ** Objects *)
Definition attrs : Type := list (string * pyobj).
Fixpoint getattr (o : attrs) (a : string) : option pyobj := match o with [] => None | (b, v) :: o' => if String.eqb a b then Some v else getattr o' a end.
Definition setattr (o : attrs) (a : string) (v : pyobj) : attrs := (a, v) :: o.
(** The object after a call, and the exception if one was raised *)
Definition outcome : Type := attrs * option exc.
Definition done (o : attrs) : outcome := (o, None).
Definition fail (o : attrs) (e : exc) : outcome := (o, Some e).

(** ** GlobalKey *)
(** globkey.py:71-82 *)
Definition set_fun_type (o : attrs) (v : pyobj) : outcome :=
  if negb (in_strings v ["vert"; "edge"; "bubb"]) then fail o ValueError else done (setattr o "fun_type" v).
(** The common part of globkey.py:93-98, 109-114, 125-130, 141-146 *)
Definition set_key_idx (o : attrs) (ty a : string) (v : pyobj) : outcome :=
  if negb (is_int v) then fail o TypeError else
  match getattr o "fun_type" with
  | None => fail o AttributeError
  | Some t => if negb (is_string t ty) then done (setattr o a (OInt (-1))) else done (setattr o a v)
  end.
(** globkey.py:84-98 *)
Definition set_vert_idx (o : attrs) (v : pyobj) : outcome := set_key_idx o "vert" "vert_idx" v.
(** globkey.py:100-114 *)
Definition set_edge_idx (o : attrs) (v : pyobj) : outcome := set_key_idx o "edge" "edge_idx" v.
(** globkey.py:116-130 *)
Definition set_edge_space_idx (o : attrs) (v : pyobj) : outcome := set_key_idx o "edge" "edge_space_idx" v.
(** globkey.py:132-146 *)
Definition set_bubb_space_idx (o : attrs) (v : pyobj) : outcome := set_key_idx o "bubb" "bubb_space_idx" v.
(** globkey.py:148-161 *)
Definition set_glob_idx (o : attrs) (v : pyobj) : outcome :=
  if negb (is_int v) then fail o TypeError else if Z.ltb (int_of v) 0 then fail o ValueError else done (setattr o "glob_idx" v).
(** Statements one after the other: the first exception ends the function. *)
Definition andthen (r : outcome) (f : attrs -> outcome) : outcome := match snd r with None => f (fst r) | Some _ => r end.
(** globkey.py:41-69 *)
Definition key_init (fun_type edge_idx vert_idx bubb_space_idx edge_space_idx : pyobj) : outcome :=
  andthen (set_fun_type [] fun_type) (fun o =>
  andthen (set_vert_idx o vert_idx) (fun o =>
  andthen (set_edge_idx o edge_idx) (fun o =>
  andthen (set_edge_space_idx o edge_space_idx) (fun o => set_bubb_space_idx o bubb_space_idx)))).

(** ** Other setters *)
(** A check for a class, for the classes of the package *)
Definition set_instance (o : attrs) (cls a : string) (v : pyobj) : outcome := if negb (is_a cls v) then fail o TypeError else done (setattr o a v).
(** bilinear_form.py:70-79, 81-90, 92-101: stored unchecked *)
Definition set_diffusion_constant (o : attrs) (v : pyobj) : outcome := done (setattr o "diffusion_constant" v).
Definition set_reaction_constant (o : attrs) (v : pyobj) : outcome := done (setattr o "reaction_constant" v).
Definition set_rhs_poly (o : attrs) (v : pyobj) : outcome := done (setattr o "rhs_poly" v).
(** globfunsp.py:102-113 *)
Definition set_mesh (o : attrs) (v : pyobj) : outcome := set_instance o "PlanarMesh" "mesh" v.
(** globfunsp.py:115-133 (without the warning), local_space.py:121-134, edge_space.py:94-107 *)
Definition set_degree (o : attrs) (v : pyobj) : outcome :=
  if negb (is_int v) then fail o TypeError else if Z.ltb (int_of v) 1 then fail o ValueError else done (setattr o "deg" v).
(** solver.py:109-122 *)
Definition set_global_function_space (o : attrs) (v : pyobj) : outcome := set_instance o "GlobalFunctionSpace" "glob_fun_sp" v.
(** solver.py:124-135 *)
Definition set_bilinear_form (o : attrs) (v : pyobj) : outcome := set_instance o "BilinearForm" "bilinear_form" v.
(** edge_space.py:81-92 *)
Definition set_edge (o : attrs) (v : pyobj) : outcome := set_instance o "Edge" "e" v.
(** trace.py:211-228 *)
Definition set_trace_edges (o : attrs) (v : pyobj) : outcome :=
  let store (l : list pyobj) := done (setattr (setattr o "edges" (OList l)) "num_edges" (OInt (Z.of_nat (List.length l)))) in
  if is_a "MeshCell" v then match v with OInst _ _ parts => store parts | _ => fail o ValueError end
  else match v with
  | OList l => if negb (forallb (is_a "Edge") l) then fail o ValueError else store l
  | _ => fail o ValueError
  end.
(** local_harmonic.py:193-199 *)
Definition set_trace (o : attrs) (v : pyobj) : outcome := set_instance o "DirichletTrace" "trace" v.
(** locfun.py:235-240, local_poisson.py:315-320 *)
Definition set_key (o : attrs) (v : pyobj) : outcome := match v with ONone => done o | _ => set_instance o "GlobalKey" "key" v end.
(** locfun.py:242-245 *)
Definition set_nystrom_solver (o : attrs) (v : pyobj) : outcome := set_instance o "NystromSolver" "nyst" v.
(** local_poisson.py:322-325 *)
Definition set_mesh_cell (o : attrs) (v : pyobj) : outcome := set_instance o "MeshCell" "mesh_cell" v.
(** nystrom.py:179-190 *)
Definition set_K (o : attrs) (v : pyobj) : outcome := set_instance o "MeshCell" "K" v.
(** nystrom.py:171-177 *)
Definition set_antilap_strategy (o : attrs) (v : pyobj) : outcome :=
  if negb (in_strings v ["direct"; "fft"]) then fail o ValueError else done (setattr o "antilap_strategy" v).
(** trace_plot.py:211-222 *)
Definition set_title (o : attrs) (v : pyobj) : outcome := if negb (is_str v) then fail o TypeError else done (setattr o "title" v).
(** trace_plot.py:224-235 *)
Definition set_grid (o : attrs) (v : pyobj) : outcome := if negb (is_bool v) then fail o TypeError else done (setattr o "show_grid" v).
(** trace_plot.py:237-248 *)
Definition set_log_scale (o : attrs) (v : pyobj) : outcome := if negb (is_bool v) then fail o TypeError else done (setattr o "log_scale" v).
(** mesh_plot.py:146-151 *)
Definition validate_edges (v : pyobj) : option exc := match v with OList l => if forallb (is_a "Edge") l then None else Some TypeError | _ => Some TypeError end.
(** mesh_plot.py:134-144 *)
Definition set_plot_edges (o : attrs) (v : pyobj) : outcome := match validate_edges v with Some e => fail o e | None => done (setattr o "edges" v) end.
(** locfun_plot.py:65-76 *)
Definition set_local_function (o : attrs) (v : pyobj) : outcome := set_instance o "LocalPoissonFunction" "v" v.
(** locfun_plot.py:78-81 *)
Definition set_use_interp (o : attrs) (v : pyobj) : outcome := if negb (is_bool v) then fail o TypeError else done (setattr o "use_interp" v).
(** globfun_plot.py:70-81 *)
Definition set_solver (o : attrs) (v : pyobj) : outcome := set_instance o "Solver" "solver" v.
(** monomial.py:84-93, 95-107: stored unchecked *)
Definition set_coef (o : attrs) (v : pyobj) : outcome := done (setattr o "coef" v).
Definition set_multidx (o : attrs) (v : pyobj) : outcome := done (setattr o "alpha" v).

(** The setters with one argument *)
Inductive setter : Type :=
| SFunType | SVertIdx | SEdgeIdx | SEdgeSpaceIdx | SBubbSpaceIdx | SGlobIdx
| SDiffusion | SReaction | SRhs | SMesh | SDegree | SGlobSpace | SForm | SEdge | STraceEdges | STrace | SKey | SNystrom | SMeshCell | SK | SStrategy
| STitle | SGrid | SLogScale | SPlotEdges | SLocalFunction | SUseInterp | SSolver | SCoef | SMultidx.
Definition run (s : setter) : attrs -> pyobj -> outcome :=
  match s with
  | SFunType => set_fun_type | SVertIdx => set_vert_idx | SEdgeIdx => set_edge_idx | SEdgeSpaceIdx => set_edge_space_idx | SBubbSpaceIdx => set_bubb_space_idx | SGlobIdx => set_glob_idx
  | SDiffusion => set_diffusion_constant | SReaction => set_reaction_constant | SRhs => set_rhs_poly | SMesh => set_mesh | SDegree => set_degree | SGlobSpace => set_global_function_space
  | SForm => set_bilinear_form | SEdge => set_edge | STraceEdges => set_trace_edges | STrace => set_trace | SKey => set_key | SNystrom => set_nystrom_solver | SMeshCell => set_mesh_cell
  | SK => set_K | SStrategy => set_antilap_strategy | STitle => set_title | SGrid => set_grid | SLogScale => set_log_scale | SPlotEdges => set_plot_edges
  | SLocalFunction => set_local_function | SUseInterp => set_use_interp | SSolver => set_solver | SCoef => set_coef | SMultidx => set_multidx
  end.
(** Calls one after the other by a caller who catches the exceptions *)
Definition calls (h : list (setter * pyobj)) (o : attrs) : attrs := fold_left (fun o c => fst (run (fst c) o (snd c))) h o.

(** ** Constructors made of setters *)
(** bilinear_form.py:40-61 *)
Definition form_init (d r f : pyobj) : outcome := andthen (set_diffusion_constant [] d) (fun o => andthen (set_reaction_constant o r) (fun o => set_rhs_poly o f)).
(** bilinear_form.py:137-148 for numbers. A product of a str, list, tuple, None or function with a float is a
    TypeError. Instances may bring their own products; they are not modelled. *)
Definition times (v : pyobj) (x : R) : res R :=
  match v with
  | OInt z | ONpInt z => Ok (IZR z * x)%R | OBool b => Ok ((if b then 1 else 0) * x)%R | OFloat r => Ok (r * x)%R
  | OInst _ _ _ => Err NotImplementedError | _ => Err TypeError
  end.
Definition attr_of (o : attrs) (a : string) : res pyobj := match getattr o a with Some v => Ok v | None => Err AttributeError end.
Definition eval_with (o : attrs) (h1 l2 : R) : res R :=
  do d <- attr_of o "diffusion_constant"; do a <- times d h1; do r <- attr_of o "reaction_constant"; do b <- times r l2; Ok (a + b)%R.
(** globfunsp.py:58-83 up to the call of set_deg. Of the classes of the package only PlanarMesh has an attribute num_cells
    (planar_mesh.py:169). *)
Definition space_init (mesh deg : pyobj) : outcome :=
  if negb (is_a "PlanarMesh" mesh) then fail [] AttributeError else andthen (set_mesh [] mesh) (fun o => set_degree o deg).
(** solver.py:71-96 up to the call of assemble *)
Definition solver_init (space form : pyobj) : outcome := andthen (set_global_function_space [] space) (fun o => set_bilinear_form o form).
(** locfun_plot.py:51-63 *)
Definition locplot_init (v interp : pyobj) : outcome := andthen (set_local_function [] v) (fun o => set_use_interp o interp).

(** ** util/types.py *)
(** types.py:26-44. inspect.signature raises a ValueError for built-in functions without signature. Of the classes of the package
    only Polynomial has a method __call__ (poly.py:452), with two parameters. *)
Definition is_Func_R2_R (v : pyobj) : res bool :=
  match v with
  | OFun None => Err ValueError
  | OFun (Some ps) => Ok (Nat.eqb (List.length ps) 2)
  | OInst mro _ _ => Ok (existsb (String.eqb "Polynomial") mro)
  | _ => Ok false
  end.
