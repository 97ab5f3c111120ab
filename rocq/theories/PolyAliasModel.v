(** Aliasing and array evaluation of polynomials: what PolyModel.v abstracts away.
    - in-place addition as iteration over a live list (poly.py:541-564, 101-114);
    - evaluation over numpy arrays with broadcasting (poly.py:452-472, monomial.py:127-156);
    - the heap of Monomial objects shared between Polynomial objects. *)
From Coq Require Import List ZArith Lia.
From Verif Require Import PyBase PolyModel.
Import ListNotations.
Open Scope nat_scope.

Section WithScalars.
Variable S : scal.

(* ------------------------------------------------------------------ *)
(** * In-place addition over live lists *)

(** Polynomial objects, by identity; the value is the list [monos]. *)
Definition pstore : Type := nat -> poly S.
Definition pupd (st : pstore) (o : nat) (p : poly S) : pstore :=
  fun o' => if Nat.eqb o' o then p else st o'.

(** poly.py:550-553: [for m in other.monos: self.add_monomial(m)], then consolidate.
    The Python list iterator reads position [i] of the list as it is now. *)
Fixpoint iadd_live (fuel : nat) (st : pstore) (self other : nat) (i : nat) : res pstore :=
  match fuel with
  | O => Err OutOfFuel
  | Datatypes.S fuel' =>
      match nth_error (st other) i with
      | None => Ok (pupd st self (consolidate S (st self)))
      | Some m => iadd_live fuel' (pupd st self (add_monomial S (st self) m)) self other (Datatypes.S i)
      end
  end.

(** The same loop, stopped after [n] iterations: the contents of [self]. *)
Fixpoint iadd_steps (n : nat) (st : pstore) (self other : nat) (i : nat) : pstore :=
  match n with
  | O => st
  | Datatypes.S n' =>
      match nth_error (st other) i with
      | None => st
      | Some m => iadd_steps n' (pupd st self (add_monomial S (st self) m)) self other (Datatypes.S i)
      end
  end.

(* ------------------------------------------------------------------ *)
(** * Array evaluation *)

(** A numpy array: shape and entries (the entry function is only read at indices within the
    shape). A Python float is [FScal]. *)
Record narr : Type := NArr { nshape : list nat; nat_at : list nat -> S }.
Inductive floatlike : Type := FScal (c : S) | FArr (a : narr).

(** numpy broadcasting of an operand of shape [t] into an in-place target of shape [s]:
    trailing dimensions must be equal or 1, and [t] has no extra dimensions. Shapes are
    compared from the right, so both are given reversed. *)
Fixpoint bcast_ok (s t : list nat) : bool :=
  match s, t with
  | _, [] => true
  | [], _ :: _ => false
  | n :: s', k :: t' => ((Nat.eqb k n || Nat.eqb k 1) && bcast_ok s' t')%bool
  end.
Fixpoint bcast_idx (t idx : list nat) : list nat :=
  match t, idx with
  | k :: t', i :: idx' => (if Nat.eqb k 1 then 0 else i) :: bcast_idx t' idx'
  | _, _ => []
  end.

(** [target op= operand]; numpy raises ValueError when the operand does not fit. *)
Definition inplace (op : S -> S -> S) (a : narr) (b : floatlike) : res narr :=
  match b with
  | FScal c => Ok (NArr (nshape a) (fun i => op (nat_at a i) c))
  | FArr b =>
      if bcast_ok (rev (nshape a)) (rev (nshape b))
      then Ok (NArr (nshape a)
                    (fun i => op (nat_at a i) (nat_at b (rev (bcast_idx (rev (nshape b)) (rev i))))))
      else Err BroadcastError
  end.

Definition fl_pow (a : floatlike) (n : nat) : floatlike :=
  match a with
  | FScal c => FScal (spow S c n)
  | FArr a => FArr (NArr (nshape a) (fun i => spow S (nat_at a i) n))
  end.

(** [val *= w] where val is a Python float or an array: a float is rebound to val * w. *)
Definition fl_imul (v w : floatlike) : res floatlike :=
  match v, w with
  | FArr a, _ => do a <- inplace (smul S) a w; Ok (FArr a)
  | FScal c, FScal d => Ok (FScal (smul S c d))
  | FScal c, FArr b => Ok (FArr (NArr (nshape b) (fun i => smul S c (nat_at b i))))
  end.

(** monomial.py:143-156 *)
Definition m_eval_arr (m : mono S) (x y : floatlike) : res floatlike :=
  let ones := match x, y with
              | FArr a, _ => FArr (NArr (nshape a) (fun _ => sone S))
              | _, FArr b => FArr (NArr (nshape b) (fun _ => sone S))
              | _, _ => FScal (sone S)
              end in
  let val := match ones with
             | FScal c => FScal (smul S (mcoef m) c)
             | FArr a => FArr (NArr (nshape a) (fun i => smul S (mcoef m) (nat_at a i)))
             end in
  do val <- (if Nat.ltb 0 (mx (malpha m)) then fl_imul val (fl_pow x (mx (malpha m))) else Ok val);
  if Nat.ltb 0 (my (malpha m)) then fl_imul val (fl_pow y (my (malpha m))) else Ok val.

(** poly.py:469-472: val is np.zeros(np.shape(x)), an array even for scalar x (shape ()). *)
Definition peval_arr (p : poly S) (x y : floatlike) : res narr :=
  let shape := match x with FScal _ => [] | FArr a => nshape a end in
  fold_res (fun val m => do w <- m_eval_arr m x y; inplace (sadd S) val w) p
           (NArr shape (fun _ => szero S)).

(* ------------------------------------------------------------------ *)
(** * Heap of Monomial objects *)

(** Monomial objects by address. MultiIndex objects are immutable in all library code, so
    they are kept inside the Monomial. A Polynomial's [monos] is a list of addresses. *)
Definition heap : Type := list (mono S).
Definition addr : Type := nat.
Definition get (h : heap) (a : addr) : mono S := nth a h (Mono (MI 0 0) (szero S)).
Definition alloc (h : heap) (m : mono S) : heap * addr := (h ++ [m], length h).
Definition hpoly : Type := list addr.

(** poly.py:89-99 *)
Definition h_add_monomial (h : heap) (p : hpoly) (a : addr) : hpoly :=
  if m_is_zero S (get h a) then p else p ++ [a].

(** poly.py:122-129: [monos[i] += monos[j]] and [monos[j] *= 0] store new Monomial objects. *)
Fixpoint h_cons_row (h : heap) (a : addr) (l : hpoly) : heap * addr * hpoly :=
  match l with
  | [] => (h, a, [])
  | b :: l' =>
      if mi_eqb (malpha (get h a)) (malpha (get h b)) then
        let (h, a') := alloc h (Mono (malpha (get h a)) (sadd S (mcoef (get h a)) (mcoef (get h b)))) in
        let (h, b') := alloc h (m_scale S (get h b) (sofZ S 0)) in
        let '(h, a'', l'') := h_cons_row h a' l' in (h, a'', b' :: l'')
      else
        let '(h, a'', l'') := h_cons_row h a l' in (h, a'', b :: l'')
  end.
Fixpoint h_cons_rows (k : nat) (h : heap) (l : hpoly) : heap * hpoly :=
  match k with
  | O => (h, l)
  | Datatypes.S k' =>
      match l with
      | [] => (h, [])
      | a :: l' =>
          let '(h, a', l'') := h_cons_row h a l' in
          let (h, r) := h_cons_rows k' h l'' in (h, a' :: r)
      end
  end.
Fixpoint h_sink (h : heap) (a : addr) (r : hpoly) : hpoly :=
  match r with
  | [] => [a]
  | b :: r' => if m_gtb S (get h b) (get h a) then b :: h_sink h a r' else a :: r
  end.
Definition h_consolidate (h : heap) (p : hpoly) : heap * hpoly :=
  let (h, l) := h_cons_rows (length p) h p in
  let l := filter (fun a => negb (m_is_zero S (get h a))) l in
  (h, rev (fold_left (fun r a => h_sink h a r) l [])).

(** poly.py:76-87,494-523: the operands' Monomial objects are shared with the result. *)
Definition h_copy (h : heap) (p : hpoly) : heap * hpoly :=
  h_consolidate h (fold_left (h_add_monomial h) p []).
Definition h_padd (h : heap) (p q : hpoly) : heap * hpoly :=
  h_consolidate h (fold_left (h_add_monomial h) q (fold_left (h_add_monomial h) p [])).
(** poly.py:541-553, [other] a different Polynomial object *)
Definition h_piadd (h : heap) (p q : hpoly) : heap * hpoly :=
  h_consolidate h (fold_left (h_add_monomial h) q p).

(** Loops that allocate one Monomial per step and append it when it is not zero. *)
Definition h_push (st : heap * hpoly) (m : mono S) : heap * hpoly :=
  let (h, p) := st in let (h', a) := alloc h m in (h', h_add_monomial h' p a).
(** poly.py:575-581 *)
Definition h_pmul (h : heap) (p q : hpoly) : heap * hpoly :=
  let (h, r) := fold_left (fun st a => fold_left (fun st b =>
                  h_push st (m_mul S (get (fst st) a) (get (fst st) b))) q st) p (h, []) in
  h_consolidate h r.
(** poly.py:582-586: other * m.copy() allocates the copy and the product *)
Definition h_pscale (h : heap) (p : hpoly) (c : S) : heap * hpoly :=
  fold_left (fun st a =>
    let (h1, a1) := alloc (fst st) (get (fst st) a) in
    h_push (h1, snd st) (m_scale S (get h1 a1) c)) p (h, []).
(** poly.py:289-309 *)
Definition h_pdx (h : heap) (p : hpoly) : heap * hpoly :=
  fold_left (fun st a => h_push st (m_dx S (get (fst st) a))) p (h, []).
Definition h_pdy (h : heap) (p : hpoly) : heap * hpoly :=
  fold_left (fun st a => h_push st (m_dy S (get (fst st) a))) p (h, []).
(** poly.py:325-337 *)
Definition h_plap (h : heap) (p : hpoly) : heap * hpoly :=
  let (h, gx) := h_pdx h p in let (h, gy) := h_pdy h p in
  let (h, gxx) := h_pdx h gx in let (h, gyy) := h_pdy h gy in
  h_padd h gxx gyy.
Definition h_psub (h : heap) (p q : hpoly) : heap * hpoly :=
  let (h, nq) := h_pscale h q (sofZ S (-1)) in h_padd h p nq.
(** poly.py:260-264 *)
Definition h_one (h : heap) : heap * hpoly :=
  let (h, r) := h_push (h, []) (Mono (MI 0 0) (sone S)) in h_consolidate h r.
Fixpoint h_pow (h : heap) (p : hpoly) (n : nat) : heap * hpoly :=
  match n with
  | O => h_one h
  | Datatypes.S n' => let (h, r) := h_pow h p n' in h_pmul h r p
  end.
(** poly.py:266-287 *)
Definition h_compose (h : heap) (p q1 q2 : hpoly) : heap * hpoly :=
  fold_left (fun st a =>
    let (h, new) := (st : heap * hpoly) in
    let m := get h a in
    let (h, t1) := h_pow h q1 (mx (malpha m)) in
    let (h, t2) := h_pow h q2 (my (malpha m)) in
    let (h, t) := h_pmul h t1 t2 in
    let (h, t) := h_pscale h t (mcoef m) in
    h_piadd h new t) p (h, []).

(** Programs over Polynomial objects. Objects are numbered in order of creation; every command
    but [CIadd] and [CSetCoef] creates a new object. *)
Inductive pcmd : Type :=
| CCopy (o : nat) | CAdd (o1 o2 : nat) | CSub (o1 o2 : nat) | CMul (o1 o2 : nat)
| CScale (o : nat) (c : S) | CNeg (o : nat) | CPow (o : nat) (n : nat)
| CCompose (o o1 o2 : nat) | CDx (o : nat) | CDy (o : nat) | CLap (o : nat)
| CIadd (o1 o2 : nat)                    (* o1 += o2 *)
| CSetCoef (o i : nat) (c : S).          (* o.monos[i].set_coef(c), monomial.py:84-93 *)

Record pstate : Type := PState { ps_heap : heap; ps_objs : list hpoly }.

Definition look (st : pstate) (o : nat) : res hpoly :=
  match nth_error (ps_objs st) o with Some p => Ok p | None => Err KeyError end.
Definition newobj (st : pstate) (r : heap * hpoly) : pstate :=
  PState (fst r) (ps_objs st ++ [snd r]).
Fixpoint set_nth {A} (l : list A) (n : nat) (x : A) : list A :=
  match l, n with
  | [], _ => []
  | _ :: l', O => x :: l'
  | a :: l', Datatypes.S n' => a :: set_nth l' n' x
  end.

Definition exec (st : pstate) (c : pcmd) : res pstate :=
  let h := ps_heap st in
  match c with
  | CCopy o => do p <- look st o; Ok (newobj st (h_copy h p))
  | CAdd o1 o2 => do p <- look st o1; do q <- look st o2; Ok (newobj st (h_padd h p q))
  | CSub o1 o2 => do p <- look st o1; do q <- look st o2; Ok (newobj st (h_psub h p q))
  | CMul o1 o2 => do p <- look st o1; do q <- look st o2; Ok (newobj st (h_pmul h p q))
  | CScale o c => do p <- look st o; Ok (newobj st (h_pscale h p c))
  | CNeg o => do p <- look st o; Ok (newobj st (h_pscale h p (sofZ S (-1))))
  | CPow o n => do p <- look st o; Ok (newobj st (h_pow h p n))
  | CCompose o o1 o2 =>
      do p <- look st o; do q1 <- look st o1; do q2 <- look st o2;
      Ok (newobj st (h_compose h p q1 q2))
  | CDx o => do p <- look st o; Ok (newobj st (h_pdx h p))
  | CDy o => do p <- look st o; Ok (newobj st (h_pdy h p))
  | CLap o => do p <- look st o; Ok (newobj st (h_plap h p))
  | CIadd o1 o2 =>
      do p <- look st o1; do q <- look st o2;
      if Nat.eqb o1 o2 then Err OutOfFuel (* does not return: see [iadd_live] *)
      else let (h', r) := h_piadd h p q in Ok (PState h' (set_nth (ps_objs st) o1 r))
  | CSetCoef o i c =>
      do p <- look st o;
      match nth_error p i with
      | None => Err IndexError
      | Some a => Ok (PState (set_nth h a (Mono (malpha (get h a)) c)) (ps_objs st))
      end
  end.
Definition exec_all (st : pstate) (cs : list pcmd) : res pstate := fold_res exec cs st.

(** The polynomial an object denotes. *)
Definition denote (st : pstate) (o : nat) : res (poly S) :=
  do p <- look st o; Ok (map (get (ps_heap st)) p).

End WithScalars.
Arguments NArr {S} nshape nat_at.
Arguments FScal {S} c.
Arguments FArr {S} a.
Arguments nshape {S} n.
Arguments nat_at {S} n _.
