(** Orders of summation by position, and the sizes that error bounds of integrals refer to *)
From Coq Require Import List ZArith Reals.
From Flocq Require Import Core BinarySingleNaN.
From Verif Require Import PyBase PolyModel FloatIdxModel FloatPolyModel FloatErr FloatQuadModel.
Import ListNotations.
Open Scope R_scope.

(** An order that depends on the length of the list only *)
Inductive shape : Type := At (i : nat) | Zero | Plus (a b : shape).
Fixpoint place (l : list double) (s : shape) : tree := match s with At i => Leaf (nth i l (of_int 0)) | Zero => Leaf (of_int 0) | Plus a b => Node (place l a) (place l b) end.
Definition by_position (order : list double -> tree) : Prop := exists s, forall l, order l = place l (s (length l)).
(** From left to right, starting with zero *)
Fixpoint chain (t : tree) (l : list double) : tree := match l with [] => t | x :: l => chain (Node t (Leaf x)) l end.
Definition from_left (l : list double) : tree := chain (Leaf (of_int 0)) l.
(** In halves *)
Fixpoint halves (fuel : nat) (l : list double) : tree :=
  match fuel, l with
  | O, _ => from_left l
  | _, [] => Leaf (of_int 0)
  | _, [x] => Leaf x
  | S fuel, _ => let k := Nat.div2 (length l) in Node (halves fuel (firstn k l)) (halves fuel (skipn k l))
  end.
(** The depth of the sum in an integral *)
Definition sum_depth (order : list double -> tree) (n : Z) (v : list double) (ign : bool) : nat := depth (order (map (dmul (d_h n)) (removelast (if ign then v else tl v)))).
Definition mags (v : list double) : list R := map (fun x => Rabs (val x)) v.
