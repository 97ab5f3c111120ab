(** Vocabulary for plots of traces. *)
From Coq Require Import List ZArith Reals String.
From Verif Require Import PyBase QuadModel EdgeModel CellModel TraceModel TracePlotModel.
Import List ListNotations.
Open Scope R_scope.

(** The quadrature of an edge *)
Definition nodes (qd : quad * quad) (e : edge) : list R := q_t (if String.eqb (e_qtype e) "trap" then fst qd else snd qd).
(** The parameters of the samples along the boundary: every edge takes an interval of length 2 pi, the
    last node of an edge is the first of the next. *)
Fixpoint laid_out (qd : quad * quad) (t0 : R) (es : list edge) : list R :=
  match es with [] => [] | e :: es => map (Rplus t0) (removelast (nodes qd e)) ++ laid_out qd (t0 + 2 * PI) es end.
Definition increasing (l : list R) : Prop := forall i j x y, (i < j)%nat -> nth_error l i = Some x -> nth_error l j = Some y -> x < y.

(** The arrays given: one for each array, and the values of each DirichletTrace *)
Definition given_values (f : tlike) : option (list R) := match f with TLArr v => Some v | TLTrace t => tr_vals t | TLBad => None end.
Definition is_array (f : tlike) : Prop := exists v, f = TLArr v.
Definition listed (fs : tlikes) : list tlike := match fs with TLOne f => [f] | TLList l => l end.
(** How often it is drawn *)
Definition times_drawn (f : tlike) : nat := match f with TLTrace _ => 2 | _ => 1 end.
(** What a label says *)
Definition label_value (k : Z) : R := IZR k * PI.
(** A plot after any calls of its setters, also those that raised *)
Inductive later (p : tplot) : tplot -> Prop :=
| lt_now : later p p
| lt_call q k : later p q -> later p (fst (run_call q k)).
