(** Vocabulary for assembled systems of actual local spaces. *)
From Coq Require Import List ZArith Reals Bool.
From Verif Require Import PyBase PolyModel PolySpec BaryModel QuadModel VertModel EdgeModel ContourModel CellModel CellSpec MeshModel TraceModel LocalModel LocalSpec LocSpaceModel.
Import List ListNotations.
Open Scope R_scope.

(** The recorded transformations of an edge join it to its own end points only, as after its
    construction. *)
Definition settled (e : edge) : Prop := forall a b, In (SJoin a b) (e_diary e) -> vidx a = vidx (e_anchor e) /\ vidx b = vidx (e_endpnt e).

(** What a run leaves of a cell: the heap in which it is sampled, the cell and its space *)
Record cellrun : Type := CellRun { cr_heap : heap; cr_cell : cell; cr_space : lspace }.
Definition value (r : res R) : R := match r with Ok x => x | Err _ => 0 end.
(** The basis of the cell at position [c] and the values of a product of its functions [i] and [j] *)
Definition run_basis (f : nat -> cellrun) (c : nat) : res (list kfun) := Ok (get_basis (cr_space (f c))).
Definition run_pair (prod : lpois -> uother -> heap -> cell -> res R) (f : nat -> cellrun) (c i j : nat) : R :=
  match nth_error (get_basis (cr_space (f c))) i, nth_error (get_basis (cr_space (f c))) j with
  | Some u, Some v => value (prod (snd u) (UPois (snd v)) (cr_heap (f c)) (cr_cell (f c)))
  | _, _ => 0
  end.

(** The L2 inner product of a function with a polynomial [f], by blocks: Green's second identity
    with the anti-Laplacian of [f] for the harmonic part, a cell integral for the polynomial part *)
Definition load_block (es : list edge) (f : poly RS) (v : lpois) : R :=
  let q := panti_laplacian RS f in
  flux es (vals (lh_trace (u_harm v))) (samples_of es (weighted_deriv q sN)) - flux es (nd (lh_trace (u_harm v))) (samples_of es (at_smp (peval RS q))).
(** ... and of its functions with the polynomial [f] as a local polynomial *)
Definition run_load (f : poly RS) (fam : nat -> cellrun) (c i : nat) : R :=
  match nth_error (get_basis (cr_space (fam c))) i with
  | Some u => value (do q <- mk_lpoly f (cr_heap (fam c)) (cr_cell (fam c)); l2_inner (snd u) (UGen (GPoly q)) (cr_heap (fam c)) (cr_cell (fam c)))
  | None => 0
  end.
