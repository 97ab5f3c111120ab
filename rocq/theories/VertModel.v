(** Model of puncturedfem/mesh/vert.py over real numbers. *)
From Coq Require Import List ZArith Reals.
From Verif Require Import PyBase PolyModel BaryModel.
Import ListNotations.
Open Scope R_scope.

(** vert.py:15-48, 69-87. Coordinates are floats, modelled as reals; ints are converted. The
    TypeErrors for other coordinate types and for non-integer indices have no counterpart: the
    fields are typed. *)
Record vert : Type := Vert { vx : R; vy : R; vidx : Z }.
Definition mkvert (x y : R) : vert := Vert x y (-1).

(** vert.py:89-100 *)
Definition coord (v : vert) : pt := (vx v, vy v).

(** Operands of the arithmetic methods *)
Inductive vop : Type := VVert (v : vert) | VNum (c : R) | VOther.

(** vert.py:234-243 *)
Definition vnorm (v : vert) : R := sqrt (vx v ^ 2 + vy v ^ 2).

(** vert.py:137-151 *)
Definition vadd (v : vert) (o : vop) : res vert :=
  match o with VVert w => Ok (mkvert (vx v + vx w) (vy v + vy w)) | _ => Err TypeError end.
(** vert.py:153-167 *)
Definition vsub (v : vert) (o : vop) : res vert :=
  match o with VVert w => Ok (mkvert (vx v - vx w) (vy v - vy w)) | _ => Err TypeError end.
(** vert.py:169-188; __rmul__ 190-209 has the same body *)
Definition vmul (v : vert) (o : vop) : res vert :=
  match o with
  | VNum c => Ok (mkvert (vx v * c) (vy v * c))
  | VVert w => Ok (mkvert (vx v * vx w) (vy v * vy w))
  | VOther => Err TypeError
  end.
(** vert.py:211-232 *)
Definition vdiv (v : vert) (o : vop) : res vert :=
  match o with
  | VNum c => if Req_EM_T c 0 then Err ZeroDivisionError else Ok (mkvert (vx v / c) (vy v / c))
  | VVert w => if Req_EM_T (vx w) 0 then Err ZeroDivisionError
               else if Req_EM_T (vy w) 0 then Err ZeroDivisionError
               else Ok (mkvert (vx v / vx w) (vy v / vy w))
  | VOther => Err TypeError
  end.
(** vert.py:121-135. Against a non-Vert Python falls back to identity: False. *)
Definition veqb (v : vert) (o : vop) : bool :=
  match o with
  | VVert w => Rltb (vnorm (mkvert (vx v - vx w) (vy v - vy w))) (1 / 1000000000000)
  | _ => false
  end.
