(** Model of puncturedfem/locfun/poly/{multi_index,monomial,poly}.py.
    Numbers are elements of a record [scal] of scalar operations, so that the same
    definitions can be run on rationals and reasoned about on reals. Floating-point rounding
    is not modelled here (see FloatIdxModel.v for the one place where it matters most). *)
From Coq Require Import List ZArith Reals QArith Qreals Qabs.
From Verif Require Import PyBase.
Import ListNotations.
Open Scope nat_scope.

(** Scalar operations used by the code: + * / comparison and absolute value.
    [sdiv] is only applied to a nonzero divisor. *)
Record scal : Type := {
  car  :> Type;
  szero : car;
  sone : car;
  sadd : car -> car -> car;
  smul : car -> car -> car;
  sdiv : car -> car -> car;
  sabs : car -> car;
  sltb : car -> car -> bool;
  sofZ : Z -> car
}.

(** Python integer power with nonnegative exponent [x**n]. *)
Fixpoint spow (S : scal) (x : S) (n : nat) : S :=
  match n with O => sone S | S n' => smul S x (spow S x n') end.

(** The tolerance 1e-12 (monomial.py:64,239 default arguments), as the exact decimal. *)
Definition stol (S : scal) : S := sdiv S (sone S) (sofZ S 1000000000000).

(* ------------------------------------------------------------------ *)
(** * MultiIndex (multi_index.py) *)

(** multi_index.py:38-43,81-84. The fields [order] and [idx] are always assigned together
    with [x] and [y] by [set], so they are computed on demand here. *)
Record mindex : Type := MI { mx : nat; my : nat }.

(** multi_index.py:83 *)
Definition morder (a : mindex) : nat := mx a + my a.

(** multi_index.py:84: idx = y + order * (order + 1) // 2 *)
Definition midx (a : mindex) : nat := my a + (morder a * (morder a + 1)) / 2.

(** Arguments of MultiIndex(...): a Python integer (bools included) or something else. *)
Inductive pyint : Type := PInt (z : Z) | PNotInt.

(** multi_index.py:60-69 (validate) and 71-84 (set). [None] is a non-list argument. *)
Definition mi_set (alpha : option (list pyint)) : res mindex :=
  match alpha with
  | None => Err TypeError
  | Some [a; b] =>
      match a, b with
      | PInt x, PInt y =>
          if (Z.ltb x 0 || Z.ltb y 0)%bool then Err ValueError
          else Ok (MI (Z.to_nat x) (Z.to_nat y))
      | _, _ => Err TypeError
      end
  | Some _ => Err MultiIndexError
  end.

(** multi_index.py:86-98 with an exact square root: floor((sqrt(8 idx + 1) - 1) / 2) equals
    (isqrt(8 idx + 1) - 1) // 2. A negative idx makes math.sqrt raise ValueError. *)
Definition mi_set_from_idx (idx : Z) : res mindex :=
  if Z.ltb idx 0 then Err ValueError
  else
    let t := ((Z.sqrt (8 * idx + 1) - 1) / 2)%Z in
    let n := (t * (t + 1) / 2)%Z in
    mi_set (Some [PInt (t - idx + n); PInt (idx - n)])%Z.

(** The same function with the square root, division and floor taken in the real numbers,
    literally as written at multi_index.py:93-98. *)
Definition mi_set_from_idx_real (idx : Z) : res mindex :=
  if Z.ltb (8 * idx + 1) 0 then Err ValueError
  else
    let t := Int_part ((sqrt (IZR (8 * idx + 1)) - 1) / 2) in
    let n := (t * (t + 1) / 2)%Z in
    mi_set (Some [PInt (t - idx + n); PInt (idx - n)])%Z.

(** multi_index.py:111-129: equality compares idx. *)
Definition mi_eqb (a b : mindex) : bool := Nat.eqb (midx a) (midx b).

(** multi_index.py:131-143 *)
Definition mi_add (a b : mindex) : mindex := MI (mx a + mx b) (my a + my b).

(** A pure version of set_from_idx on natural numbers (multi_index.py:93-98), used by the
    polynomial code below, whose idx arguments are nonnegative integers. *)
Definition mi_of_idx (k : nat) : mindex :=
  let t := (Nat.sqrt (8 * k + 1) - 1) / 2 in
  let n := t * (t + 1) / 2 in
  MI (t + n - k) (k - n).

(* ------------------------------------------------------------------ *)
(** * Monomial (monomial.py) *)
Section WithScalars.
Variable S : scal.

(** monomial.py:20-51 *)
Record mono : Type := Mono { malpha : mindex; mcoef : S }.

(** monomial.py:64-82 *)
Definition m_is_zero (m : mono) : bool := sltb S (sabs S (mcoef m)) (stol S).

(** monomial.py:127-156, scalar arguments. [ones = 1.0]; factors are multiplied only for
    positive exponents. *)
Definition m_eval (m : mono) (x y : S) : S :=
  let v := smul S (mcoef m) (sone S) in
  let v := if Nat.ltb 0 (mx (malpha m)) then smul S v (spow S x (mx (malpha m))) else v in
  if Nat.ltb 0 (my (malpha m)) then smul S v (spow S y (my (malpha m))) else v.

(** The argument [var] of partial_deriv: "x", "y" or another string. *)
Inductive pyvar : Type := VX | VY | VOther.

(** monomial.py:158-195 *)
Definition m_partial_deriv (m : mono) (v : pyvar) : res mono :=
  match v with
  | VX => match mx (malpha m) with
          | O => Ok (Mono (MI 0 0) (szero S))
          | Datatypes.S a =>
              Ok (Mono (MI a (my (malpha m)))
                       (smul S (mcoef m) (sofZ S (Z.of_nat (mx (malpha m))))))
          end
  | VY => match my (malpha m) with
          | O => Ok (Mono (MI 0 0) (szero S))
          | Datatypes.S b =>
              Ok (Mono (MI (mx (malpha m)) b)
                       (smul S (mcoef m) (sofZ S (Z.of_nat (my (malpha m))))))
          end
  | VOther => Err InvalidVariableError
  end.

(** monomial.py:239-257 *)
Definition m_eqb (m n : mono) : bool :=
  if Nat.eqb (midx (malpha m)) (midx (malpha n))
  then sltb S (sabs S (sadd S (mcoef m) (smul S (sofZ S (-1)) (mcoef n)))) (stol S)
  else false.

(** monomial.py:259-275 *)
Definition m_gtb (m n : mono) : bool := Nat.ltb (midx (malpha n)) (midx (malpha m)).

(** monomial.py:277-298 *)
Definition m_add (m n : mono) : res mono :=
  if mi_eqb (malpha m) (malpha n)
  then Ok (Mono (malpha m) (sadd S (mcoef m) (mcoef n)))
  else Err ValueError.

(** monomial.py:318-322: product of two Monomials *)
Definition m_mul (m n : mono) : mono :=
  Mono (mi_add (malpha m) (malpha n)) (smul S (mcoef m) (mcoef n)).

(** monomial.py:323-327: product with a scalar *)
Definition m_scale (m : mono) (c : S) : mono := Mono (malpha m) (smul S (mcoef m) c).

(* ------------------------------------------------------------------ *)
(** * Polynomial (poly.py) *)

(** poly.py:31: the list [monos]. A Polynomial is represented by that list. *)
Definition poly : Type := list mono.

(** poly.py:89-99 *)
Definition add_monomial (p : poly) (m : mono) : poly :=
  if m_is_zero m then p else p ++ [m].

(** poly.py:125-129, inner loop over j for a fixed i: [m] is monos[i], [l] is monos[i+1:].
    Monomial.__add__ cannot raise because the indices were just compared. *)
Fixpoint cons_row (m : mono) (l : poly) : mono * poly :=
  match l with
  | [] => (m, [])
  | n :: l' =>
      if mi_eqb (malpha m) (malpha n) then
        let (m', l'') := cons_row (Mono (malpha m) (sadd S (mcoef m) (mcoef n))) l' in
        (m', m_scale n (sofZ S 0) :: l'')
      else
        let (m', l'') := cons_row m l' in (m', n :: l'')
  end.

(** poly.py:124-129, outer loop over i. After row i, position i is never touched again.
    [k] counts the remaining rows (N - i). *)
Fixpoint cons_rows (k : nat) (l : poly) : poly :=
  match k with
  | O => l
  | Datatypes.S k' =>
      match l with
      | [] => []
      | m :: l' => let (m', l'') := cons_row m l' in m' :: cons_rows k' l''
      end
  end.

(** poly.py:116-120: deleting, from the back, every zero monomial. *)
Definition remove_zeros (p : poly) : poly := filter (fun m => negb (m_is_zero m)) p.

(** poly.py:133-148: insertion sort. [sink m r] moves monos[i] = m down through the already
    sorted prefix, given in reverse order [r], past every strictly greater element. *)
Fixpoint sink (m : mono) (r : poly) : poly :=
  match r with
  | [] => [m]
  | n :: r' => if m_gtb n m then n :: sink m r' else m :: r
  end.
Definition psort (p : poly) : poly := rev (fold_left (fun r m => sink m r) p []).

(** poly.py:122-131 *)
Definition consolidate (p : poly) : poly :=
  psort (remove_zeros (cons_rows (length p) p)).

(** poly.py:101-114, with a list distinct from [p]'s own (see PolyAliasModel.v) *)
Definition add_monomials (p : poly) (l : list mono) : poly :=
  consolidate (fold_left add_monomial l p).

(** poly.py:48-74. A triple is the list of its entries: the coefficient (float(...) of a
    number) and the exponents. [TripleBadLen] is an entry whose length is not 3. *)
Inductive triple : Type :=
| Triple (c : S) (a b : pyint)
| TripleBadLen.

Definition pset (l : option (list triple)) : res poly :=
  match l with
  | None => Ok []
  | Some l =>
      do p <- fold_res (fun p t =>
                match t with
                | TripleBadLen => Err MultiIndexError
                | Triple c a b =>
                    do al <- mi_set (Some [a; b]); Ok (add_monomial p (Mono al c))
                end) l [];
      Ok (consolidate p)
  end.

(** Polynomial(...) for well-formed triples: poly.py:61-74. *)
Definition mkpoly (l : list (S * nat * nat)) : poly :=
  consolidate (fold_left add_monomial
                 (map (fun t => match t with (c, a, b) => Mono (MI a b) c end) l) []).

(** poly.py:76-87 *)
Definition pcopy (p : poly) : poly := add_monomials [] p.

(** poly.py:150-169 *)
Definition add_monomial_with_idx (p : poly) (c : S) (k : nat) : poly :=
  consolidate (add_monomial p (Mono (mi_of_idx k) c)).

(** poly.py:171-199 *)
Definition add_monomials_with_idxs (p : poly) (cs : list S) (ks : list nat) : res poly :=
  if Nat.eqb (length cs) (length ks)
  then Ok (consolidate (fold_left (fun p ck => add_monomial_with_idx p (fst ck) (snd ck))
                                  (combine cs ks) p))
  else Err PolynomialError.

(** poly.py:201-211: consolidates self, then tests for emptiness.
    Returns the new state of self and the answer. *)
Definition p_is_zero (p : poly) : poly * bool :=
  let p' := consolidate p in (p', match p' with [] => true | _ => false end).

(** poly.py:452-472, scalar arguments *)
Definition peval (p : poly) (x y : S) : S :=
  fold_left (fun v m => sadd S v (m_eval m x y)) p (szero S).

(** poly.py:504-509,522-523: self + other for two Polynomials *)
Definition padd (p q : poly) : poly :=
  consolidate (fold_left add_monomial q (fold_left add_monomial p [])).

(** poly.py:510-517,522-523: self + scalar; multi-index 0 is (0,0) *)
Definition padd_scal (p : poly) (c : S) : poly :=
  consolidate (add_monomial (fold_left add_monomial p []) (Mono (mi_of_idx 0) c)).

(** poly.py:541-564: self += other, other a different object (see PolyAliasModel.v) *)
Definition piadd (p q : poly) : poly := consolidate (fold_left add_monomial q p).
Definition piadd_scal (p : poly) (c : S) : poly :=
  consolidate (add_monomial p (Mono (mi_of_idx 0) c)).

(** poly.py:575-581 *)
Definition pmul (p q : poly) : poly :=
  consolidate (fold_left (fun r m => fold_left (fun r n => add_monomial r (m_mul m n)) q r) p []).

(** poly.py:582-586: no consolidation and no sorting *)
Definition pscale (p : poly) (c : S) : poly :=
  fold_left (fun r m => add_monomial r (m_scale m c)) p [].

(** poly.py:612-623: self * (1 / other); Python raises on division by zero *)
Definition pdiv_scal (p : poly) (c : S) (c_is_zero : bool) : res poly :=
  if c_is_zero then Err ZeroDivisionError else Ok (pscale p (sdiv S (sone S) c)).

(** poly.py:625-627 *)
Definition pneg (p : poly) : poly := pscale p (sofZ S (-1)).

(** poly.py:629-641 *)
Definition psub (p q : poly) : poly := padd p (pscale q (sofZ S (-1))).
Definition psub_scal (p : poly) (c : S) : poly := padd_scal p (smul S (sofZ S (-1)) c).

(** poly.py:643-655 with a scalar on the left: other + (-1 * self), through __radd__ (525-539) *)
Definition prsub_scal (c : S) (p : poly) : poly := padd_scal (pscale p (sofZ S (-1))) c.

(** poly.py:260-264: [new *= self] rebinds new to new * self *)
Definition pone : poly := mkpoly [(sone S, 0, 0)].
Fixpoint ppow_nat (p : poly) (n : nat) : poly :=
  match n with O => pone | Datatypes.S n' => pmul (ppow_nat p n') p end.

(** poly.py:245-264,657-668: the exponent must be a nonnegative integer *)
Definition ppow (p : poly) (n : pyint) : res poly :=
  match n with
  | PNotInt => Err ValueError
  | PInt z => if Z.ltb z 0 then Err ValueError else Ok (ppow_nat p (Z.to_nat z))
  end.

(** poly.py:266-287 *)
Definition pcompose (p q1 q2 : poly) : poly :=
  fold_left (fun new m =>
    let temp := ppow_nat q1 (mx (malpha m)) in
    let temp := pmul temp (ppow_nat q2 (my (malpha m))) in
    piadd new (pscale temp (mcoef m))) p [].

(** poly.py:289-309: no consolidation *)
Definition ppartial (p : poly) (v : pyvar) : res poly :=
  fold_res (fun new m => do dm <- m_partial_deriv m v; Ok (add_monomial new dm)) p [].

(** The two admissible variables, without the exception wrapper *)
Definition m_dx (m : mono) : mono :=
  match mx (malpha m) with
  | O => Mono (MI 0 0) (szero S)
  | Datatypes.S a => Mono (MI a (my (malpha m)))
                          (smul S (mcoef m) (sofZ S (Z.of_nat (mx (malpha m)))))
  end.
Definition m_dy (m : mono) : mono :=
  match my (malpha m) with
  | O => Mono (MI 0 0) (szero S)
  | Datatypes.S b => Mono (MI (mx (malpha m)) b)
                          (smul S (mcoef m) (sofZ S (Z.of_nat (my (malpha m)))))
  end.
Definition pdx (p : poly) : poly := fold_left (fun new m => add_monomial new (m_dx m)) p [].
Definition pdy (p : poly) : poly := fold_left (fun new m => add_monomial new (m_dy m)) p [].

(** poly.py:311-323 *)
Definition pgrad (p : poly) : poly * poly := (pdx p, pdy p).

(** poly.py:325-337 *)
Definition plaplacian (p : poly) : poly := padd (pdx (pdx p)) (pdy (pdy p)).

(** poly.py:351-353: x^2 + y^2 from the indices 3 and 5 *)
Definition p_r2 : poly :=
  consolidate (add_monomial_with_idx (add_monomial_with_idx [] (sone S) 3) (sone S) 5).

(** poly.py:371-375, loop over k = 1..N; [n] iterations remain, [k] is the current k. *)
Fixpoint antilap_loop (n k : nat) (ord : nat) (pk lk : poly) (scale : S) (acc : poly) : poly :=
  match n with
  | O => acc
  | Datatypes.S n' =>
      let pk := pmul pk p_r2 in
      let lk := plaplacian lk in
      (* scale *= -0.25 / ((k + 1) * (order + 1 - k)) *)
      let scale := smul S scale
                     (sdiv S (sdiv S (sofZ S (-1)) (sofZ S 4))
                             (sofZ S (Z.of_nat ((k + 1) * (ord + 1 - k))))) in
      let acc := piadd acc (pscale (pmul pk lk) scale) in
      antilap_loop n' (Datatypes.S k) ord pk lk scale acc
  end.

(** poly.py:356-378, one monomial *)
Definition antilap_mono (m : mono) : poly :=
  let ord := morder (malpha m) in
  let pk := pcopy p_r2 in
  let lk := add_monomial [] m in
  let scale := sdiv S (sdiv S (sone S) (sofZ S 4)) (sofZ S (Z.of_nat (1 + ord))) in
  antilap_loop (ord / 2) 1 ord pk lk scale (pscale (pmul pk lk) scale).

(** poly.py:339-380 *)
Definition panti_laplacian (p : poly) : poly :=
  fold_left (fun new m => piadd new (antilap_mono m)) p [].

(** poly.py:474-492. Sorts both operands in place when the lengths agree; the first two
    components are their new states. *)
Definition peq (p q : poly) : poly * poly * bool :=
  if Nat.eqb (length p) (length q)
  then let p' := psort p in let q' := psort q in
       (p', q', forallb (fun mn => m_eqb (fst mn) (snd mn)) (combine p' q'))
  else (p, q, false).
Definition peqb (p q : poly) : bool := snd (peq p q).

(** The operand of a binary operator: a Polynomial, an int/float, or anything else. *)
Inductive pyobj : Type := OPoly (p : poly) | OScal (c : S) | OOther.

(** poly.py:494-523 *)
Definition py_add (p : poly) (o : pyobj) : res poly :=
  match o with OPoly q => Ok (padd p q) | OScal c => Ok (padd_scal p c) | OOther => Err TypeError end.
(** poly.py:525-539 *)
Definition py_radd (p : poly) (o : pyobj) : res poly :=
  match o with OScal c => Ok (padd_scal p c) | _ => Err TypeError end.
(** poly.py:566-591, 593-610 *)
Definition py_mul (p : poly) (o : pyobj) : res poly :=
  match o with OPoly q => Ok (pmul p q) | OScal c => Ok (pscale p c) | OOther => Err TypeError end.
(** poly.py:629-641 *)
Definition py_sub (p : poly) (o : pyobj) : res poly :=
  match o with OPoly q => Ok (psub p q) | OScal c => Ok (psub_scal p c) | OOther => Err TypeError end.

End WithScalars.

Arguments Mono {S} malpha mcoef.
Arguments malpha {S} m.
Arguments mcoef {S} m.

(* ------------------------------------------------------------------ *)
(** * The two scalar instances *)

Definition Rltb (x y : R) : bool := if Rlt_dec x y then true else false.

(** Exact real arithmetic: the instance the theorems are about. *)
Definition RS : scal :=
  {| car := R; szero := 0%R; sone := 1%R; sadd := Rplus; smul := Rmult; sdiv := Rdiv;
     sabs := Rabs; sltb := Rltb; sofZ := IZR |}.

Definition Qltb (x y : Q) : bool := negb (Qle_bool y x).

(** Exact rational arithmetic: the executable instance. *)
Definition QS : scal :=
  {| car := Q; szero := 0%Q; sone := 1%Q;
     sadd := fun x y => Qred (x + y); smul := fun x y => Qred (x * y);
     sdiv := fun x y => Qred (x / y);
     sabs := Qabs.Qabs; sltb := Qltb; sofZ := inject_Z |}.
