(** Model of puncturedfem/locfun/trace.py. A trace holds the edges as they are when it is built;
    attributes that are not assigned yet are [None]. *)
From Coq Require Import List ZArith Reals Bool.
From Verif Require Import PyBase PolyModel EdgeModel ContourModel.
Import List ListNotations.
Open Scope R_scope.

(** trace.py:50-57 *)
Record trace : Type := Trace { tr_edges : list edge; tr_npts : option Z; tr_idx : option (list (Z * Z)); tr_vals : option (list R); tr_wnd : option (list R); tr_wtd : option (list R); tr_funcs : option (list (R -> R -> R)) }.

(** trace.py:518-529 *)
Definition edges_param (es : list edge) : bool := forallb e_param es.
(** trace.py:531-539 *)
Definition find_num_pts (t : trace) : res trace :=
  if edges_param (tr_edges t) then Ok (Trace (tr_edges t) (Some (fold_left (fun s e => s + (e_npts e - 1)) (tr_edges t) 0)%Z) (tr_idx t) (tr_vals t) (tr_wnd t) (tr_wtd t) (tr_funcs t))
  else Err ValueError.
(** trace.py:549-554 *)
Fixpoint sampled_indices (start : Z) (es : list edge) : list (Z * Z) :=
  match es with
  | [] => []
  | e :: es => let stop := (start + e_npts e - 1)%Z in (start, stop) :: sampled_indices stop es
  end.
(** trace.py:541-554 *)
Definition find_edge_sampled_indices (t : trace) : res trace :=
  if edges_param (tr_edges t) then Ok (Trace (tr_edges t) (tr_npts t) (Some (sampled_indices 0 (tr_edges t))) (tr_vals t) (tr_wnd t) (tr_wtd t) (tr_funcs t))
  else Err ValueError.

(** Values for one edge: int or float, one-dimensional array, anything else *)
Inductive tval : Type := VScal (c : R) | VArr (l : list R) | VOther.
(** Values for a whole trace *)
Inductive tvals : Type := One (v : tval) | Many (l : list tval).

(** a[s:e] = v in numpy: a scalar is spread like an array of length one *)
Definition put_slice (l : list R) (s e : Z) (v : tval) : res (list R) :=
  match v with VScal c => set_slice l s e [c] | VArr x => set_slice l s e x | VOther => Err TypeError end.

(** trace.py:268-276 *)
Definition validate_on_edge (v : tval) (n : Z) : res unit :=
  match v with
  | VScal _ => Ok tt
  | VArr l => if Z.eqb (Z.of_nat (List.length l)) n then Ok tt else Err ValueError
  | VOther => Err ValueError
  end.
(** trace.py:248-266, 327-348 and 369-390: the same steps for the three arrays *)
Definition set_on_edge (t : trace) (a : list R) (k : Z) (v : tval) : res (list R) :=
  if orb (Z.ltb k 0) (Z.leb (Z.of_nat (List.length (tr_edges t))) k) then Err ValueError else
  do e <- geti (tr_edges t) (Z.to_nat k);
  do _ <- validate_on_edge v (e_npts e - 1);
  do idx <- attr (tr_idx t);
  do se <- geti idx (Z.to_nat k);
  put_slice a (fst se) (snd se) v.
(** trace.py:297-325 *)
Definition convert_values (t : trace) (v : tvals) : res (list tval) :=
  match v with
  | Many l => if forallb (fun x => match x with VArr _ => true | _ => false end) l then Ok l else Err ValueError
  | One (VScal c) => Ok (map (fun _ => VScal c) (tr_edges t))
  | One (VArr l) =>
      do n <- attr (tr_npts t);
      if Z.eqb (Z.of_nat (List.length l)) n then
        do idx <- attr (tr_idx t); Ok (map (fun se : Z * Z => VArr (slice l (fst se) (snd se))) idx)
      else Err ValueError
  | One VOther => Err ValueError
  end.
(** trace.py:278-295, 350-367 and 392-409 *)
Definition tfill (t : trace) (v : tvals) : res (list R) :=
  do vs <- convert_values t v;
  do n <- attr (tr_npts t);
  fold_res (fun a k => do x <- geti vs k; set_on_edge t a (Z.of_nat k) x) (seq 0 (List.length (tr_edges t))) (repeat 0 (Z.to_nat n)).
Definition with_vals (t : trace) (a : list R) : trace := Trace (tr_edges t) (tr_npts t) (tr_idx t) (Some a) (tr_wnd t) (tr_wtd t) (tr_funcs t).
Definition with_wnd (t : trace) (a : list R) : trace := Trace (tr_edges t) (tr_npts t) (tr_idx t) (tr_vals t) (Some a) (tr_wtd t) (tr_funcs t).
Definition with_wtd (t : trace) (a : list R) : trace := Trace (tr_edges t) (tr_npts t) (tr_idx t) (tr_vals t) (tr_wnd t) (Some a) (tr_funcs t).
Definition set_trace_values (t : trace) (v : tvals) : res trace := do a <- tfill t v; Ok (with_vals t a).
Definition set_wnd (t : trace) (v : tvals) : res trace := do a <- tfill t v; Ok (with_wnd t a).
Definition set_wtd (t : trace) (v : tvals) : res trace := do a <- tfill t v; Ok (with_wtd t a).
(** trace.py:248-266 as a method *)
Definition set_trace_values_on_edge (t : trace) (k : Z) (v : tval) : res trace :=
  if orb (Z.ltb k 0) (Z.leb (Z.of_nat (List.length (tr_edges t))) k) then Err ValueError else
  do e <- geti (tr_edges t) (Z.to_nat k); do _ <- validate_on_edge v (e_npts e - 1); do _ <- attr (tr_idx t);
  do a <- attr (tr_vals t); do a <- set_on_edge t a k v; Ok (with_vals t a).

(** Arguments of set_funcs: a polynomial, a callable with two parameters, anything else *)
Inductive fval : Type := FPoly (p : poly RS) | FFun (f : R -> R -> R) | FBad.
Inductive fvals : Type := FOne (f : fval) | FMany (l : list fval).
Definition fcall (f : fval) : R -> R -> R := match f with FPoly p => peval RS p | FFun f => f | FBad => fun _ _ => 0 end.
Definition with_funcs (t : trace) (l : list (R -> R -> R)) : trace := Trace (tr_edges t) (tr_npts t) (tr_idx t) (tr_vals t) (tr_wnd t) (tr_wtd t) (Some l).
(** trace.py:556-574 *)
Definition find_values (t : trace) : res trace :=
  match tr_funcs t with
  | None => Err ValueError
  | Some fs =>
      if edges_param (tr_edges t) then
        do t <- find_num_pts t; do t <- find_edge_sampled_indices t; do n <- attr (tr_npts t);
        do a <- fold_res (fun a k => do idx <- attr (tr_idx t); do se <- geti idx k; do e <- geti (tr_edges t) k; do f <- geti fs k; do v <- evaluate_function f true e; put_slice a (fst se) (snd se) (VArr v))
          (seq 0 (List.length (tr_edges t))) (repeat 0 (Z.to_nat n));
        Ok (with_vals t a)
      else Err ValueError
  end.
(** trace.py:451-470. The stored list is the caller's list; the model keeps its value. *)
Definition store_funcs (t : trace) (l : list fval) (compute_vals : bool) : res trace :=
  if forallb (fun f => match f with FBad => false | _ => true end) l then
    if Nat.eqb (List.length l) (List.length (tr_edges t)) then
      let t := with_funcs t (map fcall l) in
      if andb compute_vals (edges_param (tr_edges t)) then find_values t else Ok t
    else Err ValueError
  else Err ValueError.
(** trace.py:430-471 *)
Definition set_funcs (t : trace) (fs : fvals) (compute_vals : bool) : res trace :=
  match fs with
  | FOne FBad => Err ValueError
  | FOne f => store_funcs t (map (fun _ => f) (tr_edges t)) compute_vals
  | FMany l => store_funcs t l compute_vals
  end.
(** trace.py:411-428 and 473-497; [poly] marks the second method, which also evaluates *)
Definition set_func_on_edge (t : trace) (k : pyint) (f : R -> R -> R) (poly compute_vals : bool) : res trace :=
  match k with
  | PNotInt => Err ValueError
  | PInt k =>
      if orb (Z.ltb k 0) (Z.leb (Z.of_nat (List.length (tr_edges t))) k) then Err ValueError else
      do fs <- attr (tr_funcs t);
      if Nat.ltb (Z.to_nat k) (List.length fs) then
        let t := with_funcs t (firstn (Z.to_nat k) fs ++ f :: skipn (S (Z.to_nat k)) fs) in
        if andb poly (andb compute_vals (edges_param (tr_edges t))) then find_values t else Ok t
      else Err IndexError
  end.
(** trace.py:499-516. Polynomial has no attribute [eval]. *)
Definition set_funcs_from_polys (t : trace) (fs : fvals) : res trace :=
  match fs with
  | FOne (FPoly _) => Err AttributeError
  | FOne _ => Err ValueError
  | FMany l =>
      if forallb (fun f => match f with FPoly _ => true | _ => false end) l then
        match l with [] => set_funcs t (FMany []) true | _ => Err AttributeError end
      else Err ValueError
  end.

(** trace.py:59-97. [None] for [es] stands for an argument that is no cell and no list of edges. *)
Definition mk_trace (es : option (list edge)) (custom : bool) (fs : option fvals) (v : option tvals) : res trace :=
  match es with
  | None => Err ValueError
  | Some es =>
      let t := Trace es None None None None None None in
      do t <- (if edges_param es then do t <- find_num_pts t; find_edge_sampled_indices t else Ok t);
      if custom then Ok t else
      match v, fs with
      | Some v, _ => set_trace_values t v
      | None, Some fs => set_funcs t fs true
      | None, None => Ok (with_funcs t (map (fun _ => fun _ _ => 0) es))
      end
  end.

(** trace.py:99-127 *)
Definition both (a b : option (list R)) : option (list R * list R) := match a, b with Some a, Some b => Some (a, b) | _, _ => None end.
Definition tr_add (s o : trace) : res trace :=
  if Nat.eqb (List.length (tr_edges s)) (List.length (tr_edges o)) then
    do n <- mk_trace (Some (tr_edges s)) true None None;
    do a <- attr (tr_vals s); do b <- attr (tr_vals o); do c <- np_add a b; do n <- set_trace_values n (One (VArr c));
    do n <- match both (tr_wnd s) (tr_wnd o) with None => Ok n | Some ab => do c <- np_add (fst ab) (snd ab); set_wnd n (One (VArr c)) end;
    match both (tr_wtd s) (tr_wtd o) with None => Ok n | Some ab => do c <- np_add (fst ab) (snd ab); set_wtd n (One (VArr c)) end
  else Err ValueError.
(** trace.py:129-151 and 169-193: [f] multiplies or divides by the scalar *)
Definition tr_map (f : R -> R) (s : trace) : res trace :=
  do n <- mk_trace (Some (tr_edges s)) true None None;
  do a <- attr (tr_vals s); do n <- set_trace_values n (One (VArr (map f a)));
  do n <- match tr_wnd s with None => Ok n | Some a => set_wnd n (One (VArr (map f a))) end;
  match tr_wtd s with None => Ok n | Some a => set_wtd n (One (VArr (map f a))) end.
(** A scalar operand: int or float, or anything else *)
Inductive snum : Type := SNum (c : R) | SBad.
Definition tr_mul (s : trace) (c : snum) : res trace := match c with SNum c => tr_map (fun x => x * c) s | SBad => Err ValueError end.
Definition tr_div (s : trace) (c : snum) : res trace :=
  match c with SNum c => if Req_EM_T c 0 then Err ValueError else tr_map (fun x => x / c) s | SBad => Err ValueError end.
(** trace.py:195-209 *)
Definition tr_sub (s o : trace) : res trace := do m <- tr_mul o (SNum (-1)); tr_add s m.
