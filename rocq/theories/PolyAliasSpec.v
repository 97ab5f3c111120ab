(** Vocabulary for array evaluation and sharing of Monomial objects. *)
From Coq Require Import List ZArith.
From Verif Require Import PyBase PolyModel PolyAliasModel.
Import ListNotations.
Open Scope nat_scope.

Section WithScalars.
Variable S : scal.
Notation poly := (poly S).
Notation heap := (heap S).

(** The entry of an argument at an index; a scalar has the same entry everywhere. *)
Definition fl_at (f : floatlike S) (i : list nat) : S :=
  match f with FScal c => c | FArr a => nat_at a i end.

(** An operand that numpy can combine with an array of shape [s] entry by entry. *)
Definition conforms (s : list nat) (f : floatlike S) : Prop :=
  match f with FScal _ => True | FArr a => nshape a = s end.

Definition in_shape (s i : list nat) : Prop := Forall2 (fun k n => k < n) i s.

(** Addresses that exist in a heap. *)
Definition valid (h : heap) (p : hpoly) : Prop := Forall (fun a => a < length h) p.

(** Every object refers to existing monomials only. *)
Definition wf (st : pstate S) : Prop := Forall (valid (ps_heap S st)) (ps_objs S st).

(** What each command computes, on the values of its operands. *)
Definition pure_result (st : pstate S) (c : pcmd S) : res poly :=
  match c with
  | CCopy _ o => do p <- denote S st o; Ok (pcopy S p)
  | CAdd _ o1 o2 => do p <- denote S st o1; do q <- denote S st o2; Ok (padd S p q)
  | CSub _ o1 o2 => do p <- denote S st o1; do q <- denote S st o2; Ok (psub S p q)
  | CMul _ o1 o2 => do p <- denote S st o1; do q <- denote S st o2; Ok (pmul S p q)
  | CScale _ o c => do p <- denote S st o; Ok (pscale S p c)
  | CNeg _ o => do p <- denote S st o; Ok (pneg S p)
  | CPow _ o n => do p <- denote S st o; Ok (ppow_nat S p n)
  | CCompose _ o o1 o2 => do p <- denote S st o; do q1 <- denote S st o1; do q2 <- denote S st o2;
                        Ok (pcompose S p q1 q2)
  | CDx _ o => do p <- denote S st o; Ok (pdx S p)
  | CDy _ o => do p <- denote S st o; Ok (pdy S p)
  | CLap _ o => do p <- denote S st o; Ok (plaplacian S p)
  | CIadd _ o1 o2 => do p <- denote S st o1; do q <- denote S st o2; Ok (piadd S p q)
  | CSetCoef _ _ _ _ => Err KeyError
  end.

(** The object written by a command. *)
Definition target (st : pstate S) (c : pcmd S) : nat :=
  match c with CIadd _ o1 _ => o1 | _ => length (ps_objs S st) end.
Definition arithmetic (c : pcmd S) : Prop :=
  match c with CSetCoef _ _ _ _ => False | _ => True end.
End WithScalars.
Arguments fl_at {S} f i.
Arguments conforms {S} s f.
Arguments valid {S} h p.
Arguments wf {S} st.
Arguments pure_result {S} st c.
Arguments target {S} st c.
Arguments arithmetic {S} c.
