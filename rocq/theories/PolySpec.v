(** Specification vocabulary for polynomials in two variables, independent of how the code
    computes: coefficients, values, canonical form, and formal differential operators acting
    on coefficient tables. *)
From Coq Require Import List Reals.
From Verif Require Import PyBase PolyModel.
Import ListNotations.
Open Scope R_scope.

Notation rpoly := (poly RS).
Notation rmono := (mono RS).

(** A monomial with coefficient [c] and exponents [a], [b]. *)
Definition rmon (c : R) (a b : nat) : rmono := Mono (S := RS) (MI a b) c.

(** The coefficient cutoff. *)
Definition tol : R := 1 / 1000000000000.

(** Coefficient of x^a y^b in a list of monomials. *)
Fixpoint coef (p : rpoly) (a b : nat) : R :=
  match p with
  | [] => 0
  | m :: p' =>
      (if (Nat.eqb (mx (malpha m)) a && Nat.eqb (my (malpha m)) b)%bool
       then (mcoef m : R) else 0) + coef p' a b
  end.

(** Value of a list of monomials at a point. *)
Fixpoint value (p : rpoly) (x y : R) : R :=
  match p with
  | [] => 0
  | m :: p' => (mcoef m : R) * x ^ mx (malpha m) * y ^ my (malpha m) + value p' x y
  end.

(** A coefficient after the cutoff: values below 1e-12 in magnitude become 0. *)
Definition cutoff (c : R) : R := if Rlt_dec (Rabs c) tol then 0 else c.

(** Graded order on exponents: smaller total degree first, then smaller y-exponent. *)
Definition exp_lt (a b : mindex) : Prop :=
  (mx a + my a < mx b + my b)%nat \/
  (mx a + my a = mx b + my b /\ my a < my b)%nat.

(** Canonical form: strictly increasing exponents, no coefficient below the cutoff. *)
Inductive canonical : rpoly -> Prop :=
| can_nil : canonical []
| can_cons (m : rmono) (p : rpoly) :
    tol <= Rabs (mcoef m) ->
    Forall (fun n : rmono => exp_lt (malpha m) (malpha n)) p ->
    canonical p -> canonical (m :: p).

(** All coefficients are integer multiples of [u]. *)
Definition on_grid (u : R) (p : rpoly) : Prop :=
  forall m : rmono, In m p -> exists z : Z, (mcoef m : R) = u * IZR z.

(** Highest total degree. *)
Definition deg_le (d : nat) (p : rpoly) : Prop :=
  forall m : rmono, In m p -> (mx (malpha m) + my (malpha m) <= d)%nat.

(** Formal operators on coefficient tables. *)
Definition table := nat -> nat -> R.
Definition t_dx (f : table) : table := fun a b => INR (a + 1) * f (a + 1)%nat b.
Definition t_dy (f : table) : table := fun a b => INR (b + 1) * f a (b + 1)%nat.
Definition t_lap (f : table) : table := fun a b => t_dx (t_dx f) a b + t_dy (t_dy f) a b.
(** Multiplication by x^2 + y^2. *)
Definition t_r2 (f : table) : table := fun a b =>
  (if Nat.leb 2 a then f (a - 2)%nat b else 0) + (if Nat.leb 2 b then f a (b - 2)%nat else 0).
(** Cauchy product. *)
Definition t_mul (f g : table) : table := fun a b =>
  sum_f_R0 (fun i => sum_f_R0 (fun j => f i j * g (a - i)%nat (b - j)%nat) b) a.

(** [fx] is the derivative of [f] in its first (second) variable, everywhere. *)
Definition is_dx (f fx : R -> R -> R) : Prop :=
  forall x y, derivable_pt_lim (fun t => f t y) x (fx x y).
Definition is_dy (f fy : R -> R -> R) : Prop :=
  forall x y, derivable_pt_lim (fun t => f x t) y (fy x y).

(** [g] is the Laplacian of [f]: the sum of its second partial derivatives. *)
Definition is_laplacian (f g : R -> R -> R) : Prop :=
  exists fx fy fxx fyy,
    is_dx f fx /\ is_dy f fy /\ is_dx fx fxx /\ is_dy fy fyy /\
    forall x y, g x y = fxx x y + fyy x y.

(** Sum of the absolute values of the bare monomials of a list. *)
Fixpoint msize (p : rpoly) (x y : R) : R :=
  match p with
  | [] => 0
  | m :: p' => Rabs x ^ mx (malpha m) * Rabs y ^ my (malpha m) + msize p' x y
  end.

(** Coefficients graded by total degree: those of degree [d] are multiples of [u d]. *)
Definition graded_grid (u : nat -> R) (p : rpoly) : Prop :=
  forall m : rmono, In m p ->
    exists z : Z, (mcoef m : R) = u (mx (malpha m) + my (malpha m))%nat * IZR z.

(** The smallest factor by which anti_laplacian divides a coefficient of degree [d]. *)
Definition al_unit (d : nat) : R :=
  INR (fact (d - d / 2)) / (4 ^ (d / 2 + 1) * INR (fact (d / 2 + 1)) * INR (fact (d + 1))).

(** Every way of producing a Polynomial with the operators, as an expression. *)
Inductive pexpr : Type :=
| EMake (l : list (R * nat * nat))
| ECopy (e : pexpr)
| EAdd (e f : pexpr) | ESub (e f : pexpr) | EMul (e f : pexpr)
| EIAdd (e f : pexpr) | EIAddS (e : pexpr) (c : R)
| EAddS (e : pexpr) (c : R) | ESubS (e : pexpr) (c : R) | ERSubS (c : R) (e : pexpr)
| EScale (e : pexpr) (c : R) | EDiv (e : pexpr) (c : R) | ENeg (e : pexpr)
| EPow (e : pexpr) (n : nat) | ECompose (e f g : pexpr)
| EDx (e : pexpr) | EDy (e : pexpr) | ELap (e : pexpr) | EAnti (e : pexpr)
| EWithIdx (e : pexpr) (c : R) (k : nat).

Fixpoint pexpr_eval (e : pexpr) : rpoly :=
  match e with
  | EMake l => mkpoly RS l
  | ECopy e => pcopy RS (pexpr_eval e)
  | EAdd e f => padd RS (pexpr_eval e) (pexpr_eval f)
  | ESub e f => psub RS (pexpr_eval e) (pexpr_eval f)
  | EMul e f => pmul RS (pexpr_eval e) (pexpr_eval f)
  | EIAdd e f => piadd RS (pexpr_eval e) (pexpr_eval f)
  | EIAddS e c => piadd_scal RS (pexpr_eval e) c
  | EAddS e c => padd_scal RS (pexpr_eval e) c
  | ESubS e c => psub_scal RS (pexpr_eval e) c
  | ERSubS c e => prsub_scal RS c (pexpr_eval e)
  | EScale e c => pscale RS (pexpr_eval e) c
  | EDiv e c => pscale RS (pexpr_eval e) (1 / c)
  | ENeg e => pneg RS (pexpr_eval e)
  | EPow e n => ppow_nat RS (pexpr_eval e) n
  | ECompose e f g => pcompose RS (pexpr_eval e) (pexpr_eval f) (pexpr_eval g)
  | EDx e => pdx RS (pexpr_eval e)
  | EDy e => pdy RS (pexpr_eval e)
  | ELap e => plaplacian RS (pexpr_eval e)
  | EAnti e => panti_laplacian RS (pexpr_eval e)
  | EWithIdx e c k => add_monomial_with_idx RS (pexpr_eval e) c k
  end.
