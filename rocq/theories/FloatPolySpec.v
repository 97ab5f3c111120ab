(** What polynomials with double coefficients stand for. *)
From Coq Require Import List ZArith Reals Sorted.
From Flocq Require Import Core BinarySingleNaN.
From Verif Require Import PyBase PolyModel FloatIdxModel FloatPolyModel FloatErr.
Import ListNotations.
Open Scope R_scope.

Notation dmono := (mono DS).
Definition coefd (m : dmono) : double := mcoef m.
Definition finite_poly (p : list dmono) : Prop := Forall (fun m => fin (coefd m) = true) p.
(** The same terms with real coefficients *)
Definition real (p : list dmono) : poly RS := map (fun m => @Mono RS (malpha m) (val (coefd m))) p.
(** The sum of the sizes of the terms at a point *)
Fixpoint size_at (p : list dmono) (x y : R) : R :=
  match p with [] => 0 | m :: p => Rabs (val (coefd m)) * Rabs x ^ mx (malpha m) * Rabs y ^ my (malpha m) + size_at p x y end.

(** A power function with at most [j n] roundings, up to underflow of at most [f x n] *)
Definition accurate (pow : double -> nat -> double) (j : nat -> nat) (f : double -> nat -> R) : Prop := forall x n, (0 < n)%nat -> fin (pow x n) = true ->
  fin x = true /\ 0 <= f x n /\ Rabs (val (pow x n) - val x ^ n) <= ((1 + uro) ^ j n - 1) * Rabs (val x) ^ n + f x n * (1 + uro) ^ j n.
(** What underflow adds to one term *)
Definition slack1 (f : double -> nat -> R) (m : dmono) (x : double) : R := if Nat.ltb 0 (mx (malpha m)) then Rabs (val (coefd m)) * f x (mx (malpha m)) + tiny else 0.
Definition slack (f : double -> nat -> R) (m : dmono) (x y : double) : R :=
  let b := my (malpha m) in let e := slack1 f m x in
  if Nat.ltb 0 b then Rabs (val (coefd m)) * Rabs (val x) ^ mx (malpha m) * f y b + e * Rabs (val y) ^ b + e * f y b + tiny else e.
Fixpoint slack_at (f : double -> nat -> R) (p : list dmono) (x y : double) : R := match p with [] => 0 | m :: p => slack f m x y + slack_at f p x y end.

(** Terms of one exponent pair, and their sum in the order of the list *)
Definition sum1 (l : list double) : option double := match l with [] => None | c :: l => Some (fold_left dadd l c) end.
Definition of_index (k : nat) (l : list dmono) : list double := map coefd (filter (fun m => Nat.eqb k (midx (malpha m))) l).
(** The cutoff of the code: below 1e-12. NaN is not below. *)
Definition negligible (c : double) : bool := Bltb (Babs c) (ddiv (of_int 1) (of_int 1000000000000)).
Definition ascending (p : list dmono) : Prop := StronglySorted (fun m n => (midx (malpha m) < midx (malpha n))%nat) p.
(** Canonical form *)
Definition neat (p : list dmono) : Prop := ascending p /\ Forall (fun m => negligible (coefd m) = false) p.
(** Two coefficients of one exponent pair *)
(** The coefficient of an exponent pair *)
Definition entry (p : list dmono) (k : nat) : option double := match of_index k p with [] => None | c :: _ => Some c end.
Definition join (a b : option double) : option double := match a, b with Some a, Some b => Some (dadd a b) | Some a, None => Some a | None, b => b end.

(** What underflow adds to a power by repeated multiplication *)
Fixpoint geo (x : R) (n : nat) : R := match n with O => 0 | S n => Rabs x * geo x n + tiny end.

(** Integers *)
Definition zterm (c : Z) (m : dmono) (x y : Z) : Z := (c * x ^ Z.of_nat (mx (malpha m)) * y ^ Z.of_nat (my (malpha m)))%Z.
(** Room for a term and all its intermediate results *)
Definition zroom (c : Z) (m : dmono) (x y : Z) : Z := (Z.max 1 (Z.abs c) * Z.max 1 (Z.abs x) ^ Z.of_nat (mx (malpha m)) * Z.max 1 (Z.abs y) ^ Z.of_nat (my (malpha m)))%Z.
Fixpoint zvalue (p : list (Z * dmono)) (x y : Z) : Z := match p with [] => 0%Z | (c, m) :: p => (zterm c m x y + zvalue p x y)%Z end.
Fixpoint zsize (p : list (Z * dmono)) (x y : Z) : Z := match p with [] => 0%Z | (c, m) :: p => (zroom c m x y + zsize p x y)%Z end.
(** A power function that is exact on integers up to 2^53 *)
Definition exact_pow (pow : double -> nat -> double) : Prop := forall x z n, isint x z -> (Z.max 1 (Z.abs z) ^ Z.of_nat n <= 2 ^ 53)%Z -> (0 < n)%nat -> isint (pow x n) (z ^ Z.of_nat n).
