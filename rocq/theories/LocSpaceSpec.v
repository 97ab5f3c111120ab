(** Vocabulary for local function spaces. *)
From Coq Require Import List ZArith Reals Bool String.
From Verif Require Import PyBase PolyModel BaryModel VertModel EdgeModel CellSpec TraceModel TraceSpec LocalModel EdgeSpaceModel GlobModel LocSpaceModel.
Import List ListNotations.
Open Scope R_scope.

(** The ends of the edges that have ends, and their indices *)
Definition vertices (es : list edge) : list vert := flat_map (fun e => if e_loop e then [] else [e_anchor e; e_endpnt e]) es.
Definition is_end (w : vert) (e : edge) : Prop := e_loop e = false /\ (w = e_anchor e \/ w = e_endpnt e).
(** The indices tell the vertices apart by their position. *)
Definition indexed (es : list edge) : Prop := forall v w, In v (vertices es) -> In w (vertices es) -> (vidx v = vidx w <-> coord v = coord w).

(** Keys: a type and the indices that belong to it *)
Definition is_vert_key (k : gkey) (v : Z) : Prop := g_type k = "vert"%string /\ g_vert k = v /\ g_edge k = (-1)%Z /\ g_espace k = (-1)%Z /\ g_bubb k = (-1)%Z.
Definition is_edge_key (k : gkey) (i : Z) (n : nat) : Prop := g_type k = "edge"%string /\ g_vert k = (-1)%Z /\ g_edge k = i /\ g_espace k = Z.of_nat n /\ g_bubb k = (-1)%Z.
Definition is_bubb_key (k : gkey) (n : nat) : Prop := g_type k = "bubb"%string /\ g_vert k = (-1)%Z /\ g_edge k = (-1)%Z /\ g_espace k = (-1)%Z /\ g_bubb k = Z.of_nat n.

(** The edge space [b] is labelled for the edge [e]: it has the index of [e], one vertex trace for
    the anchor and one for the end point, and numbered edge traces. *)
Definition labelled (e : edge) (b : espace) : Prop :=
  sp_idx b = e_idx e /\
  Forall2 is_vert_key (sp_vkeys b) (map vidx (if e_loop e then [] else [e_anchor e; e_endpnt e])) /\ List.length (sp_vert b) = List.length (sp_vkeys b) /\
  List.length (sp_ekeys b) = List.length (sp_edge b) /\ forall k key, nth_error (sp_ekeys b) k = Some key -> exists i, e_idx e = Some i /\ is_edge_key key i k.
(** [b] is nodal up to [eps]: the trace of a vertex is 1 there and 0 at the other end ... *)
Definition within (eps x y : R) : Prop := Rabs (x - y) <= eps.
Definition at_vert (p : poly RS) (v : vert) : R := peval RS p (vx v) (vy v).
Definition nodal (eps : R) (e : edge) (b : espace) : Prop :=
  e_loop e = false -> exists p q, sp_vert b = [p; q] /\
    within eps (at_vert p (e_anchor e)) 1 /\ within eps (at_vert p (e_endpnt e)) 0 /\ within eps (at_vert q (e_anchor e)) 0 /\ within eps (at_vert q (e_endpnt e)) 1.
(** ... and the edge traces are 0 at both. *)
Definition vanishing (eps : R) (e : edge) (b : espace) : Prop :=
  e_loop e = false -> forall p, In p (sp_edge b) -> within eps (at_vert p (e_anchor e)) 0 /\ within eps (at_vert p (e_endpnt e)) 0.

(** The first sample of the edge is at [w]. *)
Definition starts_at (e : edge) (w : vert) : Prop := option_map sx (nth_error (e_smp e) 0) = Some (coord w).
(** On the edge [k] the boundary values of [u] are the values of the function [fs[k]] at the samples. *)
Definition pieces (es : list edge) (u : lpois) (fs : list (R -> R -> R)) : Prop :=
  List.length fs = List.length es /\ exists v, get_trace_values u = Ok v /\
  holds es v (fun k j x => exists e s f, nth_error es k = Some e /\ nth_error (e_smp e) j = Some s /\ nth_error fs k = Some f /\ x = f (fst (sx s)) (snd (sx s))).
Definition zero_fun : R -> R -> R := fun _ _ => 0.
(** The trace that the edge space has for the vertex [v]: the last one with that key, or zero *)
Definition trace_for (b : espace) (v : Z) (f : R -> R -> R) : Prop :=
  (exists k p key, nth_error (sp_vert b) k = Some p /\ nth_error (sp_vkeys b) k = Some key /\ g_vert key = v /\ f = peval RS p /\
     forall k' key', (k < k' < List.length (sp_vert b))%nat -> nth_error (sp_vkeys b) k' = Some key' -> g_vert key' <> v) \/
  (f = zero_fun /\ forall k key, (k < List.length (sp_vert b))%nat -> nth_error (sp_vkeys b) k = Some key -> g_vert key <> v).
(** The value at an end [w] of an edge that the function of the vertex [z] should have *)
Definition hat (z : Z) (w : vert) : R := if Z.eqb (vidx w) z then 1 else 0.
(** The two ends of an edge have different indices. *)
Definition two_ends (es : list edge) : Prop := forall e, In e es -> e_loop e = false -> vidx (e_anchor e) <> vidx (e_endpnt e).
(** The edge spaces of a local space: those it was given, or new ones *)
Definition spaces_of (low_rank : nat -> matrix -> matrix) (es : list edge) (d : Z) (given : option (list espace)) (spaces : list espace) : Prop :=
  match given with Some l => spaces = l | None => Forall2 (fun e b => mk_espace low_rank e (PInt d) = Ok b) es spaces end.
