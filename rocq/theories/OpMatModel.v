(** Model of the debugging aids of puncturedfem/locfun/nystrom.py. The condition number is that of
    numpy and is left out. *)
From Coq Require Import List ZArith Reals.
From Verif Require Import PyBase NystromModel.
Import ListNotations.
Open Scope R_scope.

(** A column of numpy.eye(n) *)
Definition eye_column (n i : nat) : list R := map (fun j => if Nat.eqb i j then 1 else 0) (seq 0 n).
(** nystrom.py:749-753 for an operator of shape (n, n) *)
Definition get_operator_matrix (n : nat) (A : list R -> res (list R)) : res mat :=
  do cols <- map_res (fun i => A (eye_column n i)) (seq 0 n); Ok (from_columns n cols).
