(** Vocabulary for Dirichlet traces. *)
From Coq Require Import List ZArith Reals Bool.
From Verif Require Import PyBase PolyModel EdgeModel EdgeSpec CellSpec TraceModel.
Import List ListNotations.
Open Scope R_scope.

(** A parameterized edge with at least one point *)
Definition sampleable (e : edge) : Prop := e_param e = true /\ (1 <= e_npts e)%Z.

(** Sample [j] of edge [k] follows all samples of the earlier edges, each without its end point. *)
Definition place (es : list edge) (k j : nat) : nat := (Z.to_nat (total (firstn k (map open_num es))) + j)%nat.
(** The array has one entry per sample, and [P k j] holds for the entry at sample [j] of edge [k]. *)
Definition holds (es : list edge) (a : list R) (P : nat -> nat -> R -> Prop) : Prop :=
  Z.of_nat (List.length a) = total (map open_num es) /\
  forall k e j, nth_error es k = Some e -> (Z.of_nat j < open_num e)%Z -> exists x, nth_error a (place es k j) = Some x /\ P k j x.

(** The value that the argument prescribes at sample [j] of edge [k] *)
Definition prescribed (es : list edge) (v : tvals) (k j : nat) (x : R) : Prop :=
  match v with
  | One (VScal c) => x = c
  | One (VArr l) => nth_error l (place es k j) = Some x
  | One VOther => False
  | Many vs => match nth_error vs k with Some (VScal c) => x = c | Some (VArr l) => nth_error l j = Some x | _ => False end
  end.
(** One value for all samples, one per sample, or one array per edge with one value per sample *)
Definition fits (es : list edge) (v : tvals) : Prop :=
  match v with
  | One (VScal _) => True
  | One (VArr l) => Z.of_nat (List.length l) = total (map open_num es)
  | One VOther => False
  | Many vs => (forall x, In x vs -> exists l, x = VArr l) /\
      forall k e, nth_error es k = Some e -> exists l, nth_error vs k = Some (VArr l) /\ Z.of_nat (List.length l) = open_num e
  end.
(** The function prescribed on edge [k] *)
Definition usable (f : fval) : Prop := f <> FBad.
Definition func_at (es : list edge) (fs : fvals) (k : nat) (f : fval) : Prop :=
  match fs with FOne g => (k < List.length es)%nat /\ f = g | FMany l => nth_error l k = Some f end.
Definition funcs_fit (es : list edge) (fs : fvals) : Prop :=
  match fs with FOne g => usable g | FMany l => Forall usable l /\ List.length l = List.length es end.
Definition valued (f : fval) (x y z : R) : Prop :=
  match f with FPoly p => z = peval RS p x y | FFun g => z = g x y | FBad => False end.

(** All traces over [es] that a program can obtain *)
Inductive reach (es : list edge) : trace -> Prop :=
| by_init c f v t : mk_trace (Some es) c f v = Ok t -> reach es t
| by_values t v t' : reach es t -> set_trace_values t v = Ok t' -> reach es t'
| by_wnd t v t' : reach es t -> set_wnd t v = Ok t' -> reach es t'
| by_wtd t v t' : reach es t -> set_wtd t v = Ok t' -> reach es t'
| by_edge t k v t' : reach es t -> set_trace_values_on_edge t k v = Ok t' -> reach es t'
| by_funcs t f c t' : reach es t -> set_funcs t f c = Ok t' -> reach es t'
| by_func t k f b c t' : reach es t -> set_func_on_edge t k f b c = Ok t' -> reach es t'
| by_polys t f t' : reach es t -> set_funcs_from_polys t f = Ok t' -> reach es t'
| by_add s o t : reach es s -> tr_add s o = Ok t -> reach es t
| by_mul s c t : reach es s -> tr_mul s c = Ok t -> reach es t
| by_div s c t : reach es s -> tr_div s c = Ok t -> reach es t
| by_sub s o t : reach es s -> tr_sub s o = Ok t -> reach es t.

(** [c] is the entrywise image of [a] and [b], or of [a]. *)
Definition entrywise2 (f : R -> R -> R) (a b c : list R) : Prop :=
  List.length b = List.length a /\ List.length c = List.length a /\
  forall i x y, nth_error a i = Some x -> nth_error b i = Some y -> nth_error c i = Some (f x y).
Definition entrywise (f : R -> R) (a c : list R) : Prop :=
  List.length c = List.length a /\ forall i x, nth_error a i = Some x -> nth_error c i = Some (f x).
(** Derivative data: present in the result exactly when present in both operands *)
Definition kept2 (f : R -> R -> R) (a b c : option (list R)) : Prop :=
  match a, b, c with
  | Some a, Some b, Some c => entrywise2 f a b c
  | Some _, Some _, None => False
  | _, _, c => c = None
  end.
Definition kept (f : R -> R) (a c : option (list R)) : Prop :=
  match a, c with Some a, Some c => entrywise f a c | None, None => True | _, _ => False end.
