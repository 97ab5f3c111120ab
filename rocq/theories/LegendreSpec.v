(** The Legendre polynomials, defined without reference to the code, and their coefficients. *)
From Coq Require Import Reals ZArith Lia.
Open Scope R_scope.

(** The function P_n, by Bonnet's recurrence
    (n+2) P_{n+2}(x) = (2n+3) x P_{n+1}(x) - (n+1) P_n(x). *)
Fixpoint leg_pair (n : nat) (x : R) : R * R :=
  match n with
  | O => (1, x)
  | S n' => let (a, b) := leg_pair n' x in
            (b, ((2 * INR n' + 3) * x * b - (INR n' + 1) * a) / (INR n' + 2))
  end.
Definition leg (n : nat) (x : R) : R := fst (leg_pair n x).

(** The integrated Legendre function L_n, normalised: for n >= 2
    L_n(x) = (P_n(x) - P_{n-2}(x)) / sqrt(4n-2). *)
Definition ileg (n : nat) (x : R) : R :=
  match n with
  | O => 1
  | 1%nat => x
  | S (S k) => (leg n x - leg k x) / sqrt (4 * INR n - 2)
  end.
