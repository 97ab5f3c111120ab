(** Shared vocabulary: Python exceptions as values and a result monad. *)
From Coq Require Import List ZArith.
Import ListNotations.

(** Exception classes raised by the code in /repo (mesh/mesh_exceptions.py:1-50,
    locfun/poly/poly_exceptions.py) and by Python/numpy itself. [OutOfFuel] is not a
    Python exception: it marks a loop whose fuel ran out. *)
Inductive exc : Type :=
| TypeError | ValueError | IndexError | KeyError | AttributeError
| ZeroDivisionError | UnboundLocalError | NotImplementedError | OverflowError
| BroadcastError            (* numpy: ValueError "operands could not be broadcast" *)
| MultiIndexError | PolynomialError | InvalidVariableError | DegenerateTriangleError
| EmbeddingError | NotParameterizedError | SizeMismatchError
| EdgeTransformationError | InteriorPointError | FileExistsError
| OutOfFuel.

Inductive res (A : Type) : Type :=
| Ok (a : A)
| Err (e : exc).
Arguments Ok {A} a.
Arguments Err {A} e.

Definition bind {A B} (r : res A) (f : A -> res B) : res B :=
  match r with Ok a => f a | Err e => Err e end.

Declare Scope py_scope.
Delimit Scope py_scope with py.
Notation "'do' x <- r ; k" := (bind r (fun x => k))
  (at level 200, x pattern, r at level 100, k at level 200) : py_scope.
Open Scope py_scope.

(** A Python [for] loop over a list with early exit by exception. *)
Fixpoint fold_res {A B} (f : B -> A -> res B) (l : list A) (b : B) : res B :=
  match l with
  | [] => Ok b
  | a :: l' => do b' <- f b a; fold_res f l' b'
  end.

(** List comprehension with early exit by exception. *)
Fixpoint map_res {A B} (f : A -> res B) (l : list A) : res (list B) :=
  match l with
  | [] => Ok []
  | a :: l' => do b <- f a; do bs <- map_res f l'; Ok (b :: bs)
  end.

Definition is_ok {A} (r : res A) : bool := match r with Ok _ => true | Err _ => false end.

Lemma Ok_inj {A} (a b : A) : Ok a = Ok b -> b = a.
Proof. congruence. Qed.
