(** Model of puncturedfem/solver/globkey.py and puncturedfem/solver/globfunsp.py. Edge spaces enter
    through their numbers of edge functions. *)
From Coq Require Import List ZArith Reals Bool String.
From Verif Require Import PyBase PolyModel EdgeModel ContourModel CellModel MeshModel.
Import List ListNotations.

(** globkey.py:33-39. [None] marks an attribute that is not assigned yet. *)
Record gkey : Type := Key { g_type : string; g_vert : Z; g_edge : Z; g_espace : Z; g_bubb : Z; g_glob : option Z; g_bdry : option bool }.

Definition as_int (p : pyint) : res Z := match p with PInt z => Ok z | PNotInt => Err TypeError end.
(** globkey.py:41-69 and the setters 71-146 *)
Definition mk_key (ty : string) (edge vert bubb espace : pyint) : res gkey :=
  do _ <- (if orb (String.eqb ty "vert") (orb (String.eqb ty "edge") (String.eqb ty "bubb")) then Ok tt else Err ValueError);
  do v <- as_int vert; do e <- as_int edge; do s <- as_int espace; do b <- as_int bubb;
  let only (t : string) (z : Z) := if String.eqb ty t then z else (-1)%Z in
  Ok (Key ty (only "vert"%string v) (only "edge"%string e) (only "edge"%string s) (only "bubb"%string b) None None).
(** globkey.py:148-161 *)
Definition set_glob_idx (k : gkey) (i : Z) : res gkey :=
  if Z.ltb i 0 then Err ValueError else Ok (Key (g_type k) (g_vert k) (g_edge k) (g_espace k) (g_bubb k) (Some i) (g_bdry k)).
Definition set_bdry (k : gkey) (b : bool) : gkey := Key (g_type k) (g_vert k) (g_edge k) (g_espace k) (g_bubb k) (g_glob k) (Some b).

(** globfunsp.py:47-56; [p_sizes] are the numbers of edge functions of the edge spaces *)
Record gspace : Type := Space { p_mesh : mesh; p_deg : Z; p_sizes : list Z; p_nvert : Z; p_nedge : Z; p_nbubb : Z; p_num : Z; p_cumsum : list Z; p_dofs : list (list gkey) }.

(** globfunsp.py:115-133 *)
Definition set_deg (d : pyint) : res Z := do z <- as_int d; if Z.ltb z 1 then Err ValueError else Ok z.
(** globfunsp.py:226-231 *)
Definition cumsum (sizes : list Z) : list Z := fold_left (fun l n => l ++ [last l 0 + n]%Z) sizes [0%Z].
(** globfunsp.py:58-87, 206-231, for edge spaces of the given sizes *)
Definition mk_space (m : mesh) (deg : pyint) (sizes : list Z) : res gspace :=
  do d <- set_deg deg;
  let nv := m_nverts m in let ne := fold_left Z.add sizes 0%Z in let nb := (m_ncells m * (d * (d - 1) / 2))%Z in
  Ok (Space m d sizes nv ne nb (nv + ne + nb) (cumsum sizes) (repeat [] (Z.to_nat (m_ncells m)))).

(** globfunsp.py:235-275. The three tests follow each other; without a match [idx] is unbound. *)
Definition in_range (i lo hi : Z) : bool := andb (Z.leb lo i) (Z.ltb i hi).
Definition get_global_idx (p : gspace) (k : gkey) (abs : Z) : res Z :=
  let vs := p_nbubb p in let es := (p_nbubb p + p_nvert p)%Z in
  let per := (p_deg p * (p_deg p - 1) / 2)%Z in
  if String.eqb (g_type k) "bubb" then
    let i := (0 + per * abs + g_bubb k)%Z in if in_range i 0 vs then Ok i else Err IndexError
  else if String.eqb (g_type k) "vert" then
    do r <- index_of (g_vert k) (m_verts (p_mesh p)) 0;
    let i := (vs + r)%Z in if in_range i vs es then Ok i else Err IndexError
  else if String.eqb (g_type k) "edge" then
    do c <- pyget (p_cumsum p) (g_edge k);
    let i := (p_nbubb p + p_nvert p + c + g_espace k)%Z in if in_range i es (p_num p) then Ok i else Err IndexError
  else Err UnboundLocalError.

(** globfunsp.py:277-292 *)
Definition fun_is_on_boundary (H : heap) (p : gspace) (k : gkey) : res bool :=
  if String.eqb (g_type k) "bubb" then Ok false
  else if String.eqb (g_type k) "vert" then vert_is_on_boundary H (p_mesh p) (g_vert k)
  else if String.eqb (g_type k) "edge" then edge_is_on_boundary H (p_mesh p) (g_edge k)
  else Err ValueError.

Definition with_dofs (p : gspace) (l : list (list gkey)) : gspace := Space (p_mesh p) (p_deg p) (p_sizes p) (p_nvert p) (p_nedge p) (p_nbubb p) (p_num p) (p_cumsum p) l.
(** globfunsp.py:197-201 for the keys of the basis. The dictionary entry and the key of the basis
    function are the same object, so the boundary mark set afterwards is seen through both; the
    result is the list of keys as they are at the end. Edge keys are shared between the two cells
    of the edge; both assign the same values. *)
Definition number_key (H : heap) (p : gspace) (abs : Z) (k : gkey) : res gkey :=
  do g <- get_global_idx p k abs; do k <- set_glob_idx k g; do b <- fun_is_on_boundary H p k; Ok (set_bdry k b).
Definition register (H : heap) (p : gspace) (abs : nat) (keys : list gkey) : res (gspace * list gkey) :=
  do ks <- map_res (number_key H p (Z.of_nat abs)) keys;
  match nth_error (p_dofs p) abs with
  | None => match keys with [] => Ok (p, ks) | _ => Err IndexError end
  | Some l => Ok (with_dofs p (hset (p_dofs p) abs (l ++ ks)), ks)
  end.
