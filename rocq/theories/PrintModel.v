(** Model of the printed forms of monomials and polynomials: monomial.py and poly.py. *)
From Coq Require Import List String Decimal DecimalString.
From Verif Require Import PyBase PolyModel.
Import ListNotations.
Open Scope string_scope.

(** f"{n}" of an int that is not negative *)
Definition dec (n : nat) : string := NilZero.string_of_uint (Nat.to_uint n).

Section Print.
Variable S : scal.
(** f"{c}" of a coefficient: Python's text of a float, an argument of the model *)
Variable show : S -> string.

(** monomial.py:221-227 and 230-235: the power of one variable *)
Definition power_repr (v : string) (n : nat) : string :=
  (if Nat.ltb 0 n then v else "") ++ (if Nat.ltb 1 n then "^" ++ dec n ++ " " else " ").
(** monomial.py:219-237 *)
Definition mono_repr (m : mono S) : string :=
  "+ (" ++ show (mcoef m) ++ ") " ++ power_repr "x" (mx (malpha m)) ++ power_repr "y" (my (malpha m)).
(** poly.py:433-439 and 450: the object is sorted on the way, so it is returned with the text *)
Definition poly_repr (p : poly S) : poly S * string :=
  let p := psort S p in
  (p, match p with
      | [] => "+ (0) "
      | _ => fold_left (fun msg m => msg ++ mono_repr m) p ""
      end).
Definition poly_str (p : poly S) : poly S * string := poly_repr p.
End Print.
