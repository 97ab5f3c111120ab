(** What it means that functions of the plane span the polynomials of a degree, and the half widths of
    the box around the samples of an edge. *)
From Coq Require Import List Reals.
From Verif Require Import PolySpec BaryModel.
Import ListNotations.
Open Scope R_scope.

Definition combo (cs : list R) (fs : list (R -> R -> R)) (x y : R) : R :=
  fold_right Rplus 0 (map (fun cf : R * (R -> R -> R) => fst cf * snd cf x y) (combine cs fs)).
Definition in_span (fs : list (R -> R -> R)) (g : R -> R -> R) : Prop :=
  exists cs, length cs = length fs /\ forall x y, g x y = combo cs fs x y.
Definition spans_degree (fs : list (R -> R -> R)) (p : nat) : Prop :=
  forall i j, (i + j <= p)%nat -> in_span fs (fun x y => x ^ i * y ^ j).

(** The largest difference of a coordinate of the samples *)
Definition extent (f : pt -> R) (l : list pt) (w : R) : Prop :=
  (forall a b, In a l -> In b l -> f a - f b <= w) /\ exists a b, In a l /\ In b l /\ f a - f b = w.
(** Half of it; where a coordinate is constant up to the cutoff, half of the other one *)
Definition halves (l : list pt) (sx sy : R) : Prop :=
  exists wx wy, extent fst l wx /\ extent snd l wy /\ tol <= Rmax wx wy /\
    sx = (if Rlt_dec wx tol then Rmax wx wy else wx) / 2 /\ sy = (if Rlt_dec wy tol then Rmax wx wy else wy) / 2.
(** The highest terms of degree [p] survive the cutoff in coordinates scaled by the half widths. *)
Definition roomy (p : nat) (sx sy : R) : Prop :=
  forall m n, (m + n <= p)%nat -> 4 * (INR p + 1) ^ 4 * tol <= (1 / sx) ^ m * (1 / sy) ^ n.
(** The leading coefficients of the Legendre polynomials and of the functions of [ileg] *)
Fixpoint leg_lead (n : nat) : R := match n with O => 1 | S k => (2 * INR k + 1) / (INR k + 1) * leg_lead k end.
Definition ileg_lead (n : nat) : R := match n with O => 1 | 1%nat => 1 | _ => leg_lead n / sqrt (4 * INR n - 2) end.
(** The samples reach equally far to both sides of zero. *)
Definition centred (f : pt -> R) (l : list pt) (s : R) : Prop :=
  (forall c, In c l -> - s <= f c <= s) /\ exists a b, In a l /\ In b l /\ f a = - s /\ f b = s.
