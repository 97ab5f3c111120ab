(** Property C12, arrays of different shapes. *)
From Coq Require Import List ZArith Reals Lra Lia.
From Verif Require Import PyBase PolyModel PolySpec PolyProofs PolyAliasModel PolyAliasSpec PolyAliasProofs
  BcastProofs PolyProps.
Import ListNotations.
Open Scope R_scope.

(** y may have any shape that numpy stretches to the shape of x: the result has the shape of x,
    and at index i it is the value at x_i and the entry of y that is stretched over i. *)
Theorem C12_broadcast p (x y : narr RS) : stretches (nshape y) (nshape x) ->
  exists r, peval_arr RS p (FArr x) (FArr y) = Ok r /\ nshape r = nshape x /\
    forall i, in_shape (nshape x) i -> nat_at r i = peval RS p (nat_at x i) (nat_at y (pull (nshape y) i)).
Proof. exact (peval_fits RS p x y). Qed.
Print Assumptions C12_broadcast.

(** Every other shape of y is refused, unless no monomial of p contains y: then y is never
    read. So x and y are not interchangeable: x may not be the array that is stretched. *)
Theorem C12_broadcast_refused p (x y : narr RS) : ~ stretches (nshape y) (nshape x) ->
  (peval_arr RS p (FArr x) (FArr y) = Err BroadcastError <-> exists m, In m p /\ my (malpha m) <> 0%nat) /\
  ((forall m, In m p -> my (malpha m) = 0%nat) ->
   exists r, peval_arr RS p (FArr x) (FArr y) = Ok r /\ nshape r = nshape x /\
     forall i c, in_shape (nshape x) i -> nat_at r i = peval RS p (nat_at x i) c).
Proof.
  intros N. split; [|exact (peval_flat RS p x y)]. split; [|exact (peval_misfit RS p x y N)].
  intros E. assert (D : (forall m, In m p -> my (malpha m) = 0%nat) \/ exists m, In m p /\ my (malpha m) <> 0%nat).
  { clear E. induction p as [|m p IH]; [left; intros m []|]. destruct (Nat.eq_dec (my (malpha m)) 0) as [E0|E0].
    - destruct IH as [IH|(m' & M & Hm)].
      + left. intros m' [<-|M]; [exact E0|exact (IH m' M)].
      + right. exists m'. split; [right; exact M|exact Hm].
    - right. exists m. split; [left; reflexivity|exact E0]. }
  destruct D as [D|D]; [|exact D]. destruct (peval_flat RS p x y D) as (r & E' & _). congruence.
Qed.
Print Assumptions C12_broadcast_refused.

(** A 2 x 3 array x of column numbers and one row of three numbers y: the row is used for both
    rows of x. Exchanging the two arguments is refused. *)
Definition cols : narr RS := NArr (S:=RS) [2%nat; 3%nat] (fun i => match i with [_; j] => INR j | _ => 0 end).
Definition row : narr RS := NArr (S:=RS) [3%nat] (fun i => match i with [j] => 1 + INR j | _ => 0 end).
Definition colm : narr RS := NArr (S:=RS) [2%nat; 1%nat] (fun i => match i with [j; _] => 1 + INR j | _ => 0 end).

Example C12_broadcast_example :
  (exists r, peval_arr RS ex_p (FArr cols) (FArr row) = Ok r /\ nshape r = [2%nat; 3%nat] /\
     nat_at r [1%nat; 2%nat] = 3 * 2 - 2 * 2 * 3 + 9 / 2) /\
  (exists r, peval_arr RS ex_p (FArr cols) (FArr colm) = Ok r /\ nshape r = [2%nat; 3%nat] /\
     nat_at r [1%nat; 2%nat] = 3 * 2 - 2 * 2 * 2 + 4 / 2) /\
  peval_arr RS ex_p (FArr row) (FArr cols) = Err BroadcastError.
Proof.
  split; [|split].
  - destruct (C12_broadcast ex_p cols row) as (r & E & Es & V).
    { exists [2%nat], [3%nat]. split; [reflexivity|]. repeat constructor. }
    exists r. split; [exact E|]. split; [exact Es|]. rewrite V by (repeat constructor). rewrite peval_value. cbn. lra.
  - destruct (C12_broadcast ex_p cols colm) as (r & E & Es & V).
    { exists [], [2%nat; 3%nat]. split; [reflexivity|]. constructor; [left; reflexivity|]. constructor; [right; reflexivity|constructor]. }
    exists r. split; [exact E|]. split; [exact Es|]. rewrite V by (repeat constructor). rewrite peval_value. cbn. lra.
  - apply C12_broadcast_refused.
    + intros H. apply stretches_length in H. cbn in H. lia.
    + exists (rmon (-2) 1 1). split; [right; left; reflexivity|cbn; lia].
Qed.
