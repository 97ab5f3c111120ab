(** Vocabulary for the order of convergence (C81) *)
From Coq Require Import Reals List String ZArith.
From Coquelicot Require Import Coquelicot.
From Verif Require Import PyBase BaryModel EdgeModel.
Open Scope R_scope.

(** [k] continuous derivatives on the interval [a, b] *)
Fixpoint smooth (k : nat) (a b : R) (f : R -> R) : Prop :=
  match k with
  | O => forall t, a <= t <= b -> continuous f t
  | S k => exists f', (forall t, a <= t <= b -> is_derive f t (f' t)) /\ smooth k a b f'
  end.
(** ... that have the same values at both ends, those of order below [k] *)
Fixpoint closes (k : nat) (a b : R) (f : R -> R) : Prop :=
  match k with
  | O => forall t, a <= t <= b -> continuous f t
  | S k => f a = f b /\ exists f', (forall t, a <= t <= b -> is_derive f t (f' t)) /\ closes k a b f'
  end.
(** A function of position and normal that is smooth along smooth curves *)
Definition smooth_field (k : nat) (G : pt -> pt -> R) : Prop :=
  forall a b x y u v, smooth k a b x -> smooth k a b y -> smooth k a b u -> smooth k a b v -> smooth k a b (fun t => G (x t, y t) (u t, v t)).
(** A smooth curve *)
Definition smooth_curve (k : nat) (a b : R) (c : R -> pt) : Prop := smooth k a b (fun t => fst (c t)) /\ smooth k a b (fun t => snd (c t)).
(** Edges whose rule is of order [k] for the integrand [L], a function of the edge's own parameter: Kress's rule with a large enough parameter [p] for smooth
    integrands, the trapezoid rule for those that are also periodic *)
Definition fast (k : nat) (p : Z) (e : edge) (L : R -> R) : Prop :=
  let a := fst (e_tb e) in let b := snd (e_tb e) in
  e_qtype e = "kress"%string /\ (Z.of_nat k + 1 <= p)%Z /\ smooth k a b L \/
  e_qtype e = "trap"%string /\ (forall c d, smooth k c d L) /\ forall t, L (t + (b - a)) = L t.
(** Edges whose rule is of order [k] for smooth integrands along the curve [Y] with derivative [Y']: Kress's rule with a large enough parameter on smooth curves,
    the trapezoid rule on closed ones without corners *)
Definition rule_fits (k : nat) (p : Z) (e : edge) (Y Y' : R -> pt) : Prop :=
  let a := fst (e_tb e) in let b := snd (e_tb e) in
  e_qtype e = "kress"%string /\ (Z.of_nat k + 1 <= p)%Z /\ smooth_curve k a b Y /\ smooth_curve k a b Y' \/
  e_qtype e = "trap"%string /\ (forall c d, smooth_curve k c d Y /\ smooth_curve k c d Y') /\ forall t, Y (t + (b - a)) = Y t /\ Y' (t + (b - a)) = Y' t.
