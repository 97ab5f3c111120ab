(** Model of puncturedfem/plot/trace_plot.py. Drawing itself (matplotlib) is not modelled. *)
From Coq Require Import List ZArith Reals Bool String.
From Verif Require Import PyBase PolyModel BaryModel QuadModel EdgeModel ContourModel CellModel TraceModel LocalModel.
Import List ListNotations.
Open Scope R_scope.

(** An entry of the list of traces (trace_plot.py:27), and the argument *)
Inductive tlike : Type := TLArr (l : list R) | TLTrace (t : trace) | TLBad.
Inductive tlikes : Type := TLOne (f : tlike) | TLList (l : list tlike).
(** Format, legend: a value of the right type or another *)
Inductive fmts : Type := FStr (s : string) | FList (l : list string) | FBad.
Inductive legend : Type := LTuple (l : list string) | LBad.

(** quad_dict[e.quad_type]; [qd] is the pair (trap, kress) *)
Definition quad_of (qd : quad * quad) (e : edge) : res quad :=
  if String.eqb (e_qtype e) "trap" then Ok (fst qd) else if String.eqb (e_qtype e) "kress" then Ok (snd qd) else Err KeyError.
(** l[a:b] = v. The bounds are clipped, negative bounds count from the end. The array assigned does
    not have length one: a quadrature has at least nine nodes. *)
Definition pyidx (n i : Z) : Z := if Z.ltb i 0 then Z.max 0 (i + n) else Z.min i n.
Definition put (l : list R) (a b : Z) (v : list R) : res (list R) :=
  let n := Z.of_nat (List.length l) in let a := pyidx n a in let b := pyidx n b in
  if Z.eqb (Z.of_nat (List.length v)) (Z.max 0 (b - a)) then Ok (firstn (Z.to_nat a) l ++ v ++ skipn (Z.to_nat a + List.length v) l) else Err BroadcastError.
(** trace_plot.py:298-310 *)
Definition find_t (H : heap) (c : cell) (qd : quad * quad) : res (list R) :=
  do n <- attr (c_npts c);
  do es <- kedges H c;
  do (t, t0, i) <- fold_res (fun (s : list R * R * Z) e =>
    let '(t, t0, i) := s in
    do q <- quad_of qd e;
    do t <- put t i (i + e_npts e - 1) (map (Rplus t0) (removelast (q_t q)));
    Ok (t, t0 + 2 * PI, (i + e_npts e - 1)%Z)) es (repeat 0 (Z.to_nat n), 0, 0%Z);
  Ok t.

(** numpy.linspace(0, b, n) *)
Definition np_linspace (b : R) (n : Z) : res (list R) :=
  if Z.ltb n 0 then Err ValueError else if Z.eqb n 0 then Ok [] else Ok (linspace 0 b (Z.to_nat (n - 1))).
(** range(a, b) *)
Definition zrange (a b : Z) : list Z := map (fun i => a + Z.of_nat i)%Z (seq 0 (Z.to_nat (b - a))).
(** trace_plot.py:312-354. A label is the coefficient of pi that it shows. *)
Definition find_ticks (num_edges max_num_ticks : Z) : res (list R * list Z) :=
  let interval := 2 * PI * IZR num_edges in
  let num := Z.min (num_edges + 1) max_num_ticks in
  if Z.eqb (num - 1) 0 then Err ZeroDivisionError else
  let r := (num_edges / (num - 1))%Z in
  if Z.eqb (num_edges mod (num - 1)) 0 then
    do ticks <- np_linspace interval num;
    Ok (ticks, 0%Z :: map (fun k => 2 * k * r)%Z (zrange 1 num))
  else if Z.ltb num 0 then Err ValueError else
    do ticks <- np_linspace (2 * PI * IZR r * IZR (num - 1)) (num - 1);
    Ok (ticks ++ [interval], 0%Z :: map (fun k => 2 * k * r)%Z (zrange 1 (num - 1)) ++ [2 * num_edges]%Z).

(** trace_plot.py:167-181 for one entry, with the list as it is afterwards *)
Definition add_trace (n : Z) (l : list (list R)) (f : tlike) : list (list R) * res unit :=
  match f with
  | TLBad => (l, Err TypeError)
  | TLArr v => if Z.eqb (Z.of_nat (List.length v)) n then (l ++ [v], Ok tt) else (l, Err ValueError)
  | TLTrace t =>
      match tr_vals t with
      | None => (l, Err AttributeError)
      | Some v => let l := l ++ [v] in if Z.eqb (Z.of_nat (List.length v)) n then (l ++ [v], Ok tt) else (l, Err ValueError)
      end
  end.
Fixpoint add_traces (n : Z) (l : list (list R)) (fs : list tlike) : list (list R) * res unit :=
  match fs with
  | [] => (l, Ok tt)
  | f :: fs => match add_trace n l f with (l, Ok _) => add_traces n l fs | (l, Err e) => (l, Err e) end
  end.
(** trace_plot.py:154-181 *)
Definition set_traces (n : Z) (fs : tlikes) : list (list R) * res unit := add_traces n [] (match fs with TLOne f => [f] | TLList l => l end).
(** trace_plot.py:183-196 and 263-273 *)
Definition set_format (ts : list (list R)) (f : fmts) : res fmts :=
  match f with
  | FStr s => Ok f
  | FList l => if Nat.eqb (List.length l) (List.length ts) then Ok f else Err ValueError
  | FBad => Err TypeError
  end.
(** trace_plot.py:198-209 and 253-261 *)
Definition set_legend (ts : list (list R)) (g : legend) : res legend :=
  match g with
  | LTuple [] => Ok g
  | LTuple l => if Nat.eqb (List.length l) (List.length ts) then Ok g else Err ValueError
  | LBad => Err TypeError
  end.

(** trace_plot.py:60-70. Title, scale and grid are kept as they are given. *)
Record tplot : Type := TPlot { tp_npts : Z; tp_t : list R; tp_ticks : list R; tp_labels : list Z; tp_traces : list (list R); tp_fmt : fmts; tp_legend : legend; tp_log : bool }.
(** trace_plot.py:120-128. The arguments title and show_grid only reach matplotlib. *)
Definition mk_tplot (fs : tlikes) (H : heap) (c : cell) (qd : quad * quad) (fmt : fmts) (leg : legend) (log_scale : bool) (max_num_ticks : Z) : res tplot :=
  do n <- attr (c_npts c);
  do t <- find_t H c qd;
  do (ticks, labels) <- find_ticks (Z.of_nat (c_nedges c)) max_num_ticks;
  let (ts, r) := set_traces n fs in
  do _ <- r;
  do fmt <- set_format ts fmt;
  do leg <- set_legend ts leg;
  Ok (TPlot n t ticks labels ts fmt leg log_scale).
(** The setters called on a plot, with the plot as it is afterwards *)
Inductive call : Type := SetTraces (fs : tlikes) | SetFormat (f : fmts) | SetLegend (g : legend) | SetLog (b : bool).
Definition run_call (p : tplot) (k : call) : tplot * res unit :=
  match k with
  | SetTraces fs => let (ts, r) := set_traces (tp_npts p) fs in (TPlot (tp_npts p) (tp_t p) (tp_ticks p) (tp_labels p) ts (tp_fmt p) (tp_legend p) (tp_log p), r)
  | SetFormat f =>
      match set_format (tp_traces p) f with
      | Ok f => (TPlot (tp_npts p) (tp_t p) (tp_ticks p) (tp_labels p) (tp_traces p) f (tp_legend p) (tp_log p), Ok tt)
      | Err e => (p, Err e)
      end
  | SetLegend g =>
      match set_legend (tp_traces p) g with
      | Ok g => (TPlot (tp_npts p) (tp_t p) (tp_ticks p) (tp_labels p) (tp_traces p) (tp_fmt p) g (tp_log p), Ok tt)
      | Err e => (p, Err e)
      end
  | SetLog b => (TPlot (tp_npts p) (tp_t p) (tp_ticks p) (tp_labels p) (tp_traces p) (tp_fmt p) (tp_legend p) b, Ok tt)
  end.
(** trace_plot.py:130-152 and 356-392: the curves with their formats and the tick marks. Arrays of
    different lengths, and ticks without labels, are refused by matplotlib. *)
Definition draw_trace (t : list R) (v : list R) (f : string) : res (list (R * R) * string) :=
  if Nat.eqb (List.length t) (List.length v) then Ok (combine t v, f) else Err ValueError.
Definition draw_traces (p : tplot) : res (list (list (R * R) * string) * list (R * Z)) :=
  do curves <- map_res (fun x => draw_trace (tp_t p) (fst x) (snd x))
    (match tp_fmt p with FStr s => map (fun v => (v, s)) (tp_traces p) | FList l => combine (tp_traces p) l | FBad => [] end);
  if Nat.eqb (List.length (tp_ticks p)) (List.length (tp_labels p)) then Ok (curves, combine (tp_ticks p) (tp_labels p)) else Err ValueError.
