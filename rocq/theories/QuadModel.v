(** Model of puncturedfem/mesh/quad.py over real numbers. *)
From Coq Require Import List ZArith Reals String.
From Verif Require Import PyBase PolyModel.
Import ListNotations.
Open Scope R_scope.

(** numpy.linspace(a, b, m + 1) *)
Definition linspace (a b : R) (m : nat) : list R :=
  map (fun i => a + INR i * ((b - a) / INR m)) (seq 0 (S m)).

(** quad.py:92-97. The attribute N (quad.py:94) is declared and never assigned. *)
Record quad : Type := Quad_ { q_type : string; q_n : nat; q_h : R; q_t : list R; q_wgt : list R }.

(** quad.py:126-134; the warning for n > 128 has no effect on the value *)
Definition set_n (n : pyint) : res nat :=
  match n with
  | PNotInt => Err TypeError
  | PInt z => if Z.ltb z 4 then Err ValueError else Ok (Z.to_nat z)
  end.

(** quad.py:160-163, for one uniform parameter *)
Definition kress_s (t : R) : R := t / PI - 1.
Definition kress_c (p : nat) (t : R) : R :=
  let s := kress_s t in let s2 := s * s in (1 / 2 - 1 / INR p) * s * s2 + s / INR p + 1 / 2.
Definition kress_den (p : nat) (t : R) : R := let c := kress_c p t in c ^ p + (1 - c) ^ p.
(** quad.py:166 *)
Definition kress_node (p : nat) (t : R) : R := 2 * PI * (kress_c p t) ^ p / kress_den p t.
(** quad.py:167 *)
Definition kress_wgt (p : nat) (t : R) : R :=
  let s := kress_s t in let c := kress_c p t in
  (3 * (INR p - 2) * (s * s) + 2) * (c * (1 - c)) ^ (p - 1) / (kress_den p t) ^ 2.

(** quad.py:177-180, for one node *)
Fixpoint mart_sum (m : nat) (t : R) : R :=
  match m with O => 0 | S m' => mart_sum m' t + cos (INR m * t) / INR m end.
Definition mart_wgt (n : nat) (t : R) : R := mart_sum n t * (1 / 2 / INR n).
(** quad.py:182-183 *)
Definition mart_node (t : R) : R := (2 * sin (t / 2)) * (2 * sin (t / 2)).

(** quad.py:99-124. At line 119 the second test compares the builtin [type] with a string, so
    it is always false. [p] is an integer. *)
Definition mk_quad (qtype : string) (n : pyint) (p : Z) : res quad :=
  do n <- set_n n;
  let h := PI / INR n in
  let t := linspace 0 (2 * PI) (2 * n) in
  if String.eqb qtype "kress" then
    if Z.ltb p 2 then Err ValueError
    else let p := Z.to_nat p in Ok (Quad_ qtype n h (map (kress_node p) t) (map (kress_wgt p) t))
  else if String.eqb qtype "mart" then Ok (Quad_ qtype n h (map mart_node t) (map (mart_wgt n) t))
  else Ok (Quad_ qtype n h t (map (fun _ => 1) t)).

(** quad.py:44-67 *)
Definition get_quad_dict (n : pyint) (p : Z) : res (quad * quad) :=
  do a <- mk_quad "trap" n 7; do b <- mk_quad "kress" n p; Ok (a, b).
