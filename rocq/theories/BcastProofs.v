(** Evaluation of polynomials on arrays of different shapes. *)
From Coq Require Import List ZArith Lia Arith Bool.
From Verif Require Import PyBase PolyModel PolyAliasModel PolyAliasSpec PolyAliasProofs.
Import ListNotations.
Open Scope nat_scope.

(** Vocabulary: shape [t] stretches to shape [s] when, aligned at the last axis, each axis of
    [t] has the length of that axis of [s] or length 1; [pull t i] is the entry of the
    stretched array that is read at index [i]. *)
Definition stretches (t s : list nat) : Prop :=
  exists lead tl, s = lead ++ tl /\ Forall2 (fun n k => k = n \/ k = 1) tl t.
Definition pull (t i : list nat) : list nat :=
  map (fun p => if Nat.eqb (fst p) 1 then 0 else snd p) (combine t (skipn (length i - length t) i)).

Lemma F2_length {A B} (P : A -> B -> Prop) l l' : Forall2 P l l' -> length l = length l'.
Proof. induction 1; cbn; congruence. Qed.

Lemma bcast_ok_iff : forall s t, bcast_ok s t = true <->
  exists hd lead, s = hd ++ lead /\ Forall2 (fun n k => k = n \/ k = 1) hd t.
Proof.
  induction s as [|n s IH]; intros [|k t]; cbn [bcast_ok].
  - split; [intros _; exists [], []; split; [reflexivity|constructor]|reflexivity].
  - split; [discriminate|]. intros (hd & lead & E & F). inversion F; subst. discriminate.
  - split; [intros _|reflexivity]. exists [], (n :: s). split; [reflexivity|constructor].
  - rewrite andb_true_iff, orb_true_iff, !Nat.eqb_eq, IH. split.
    + intros (H & hd & lead & -> & F). exists (n :: hd), lead. split; [reflexivity|]. constructor; assumption.
    + intros (hd & lead & E & F). inversion F as [|a b u v H F' Eu Ev]; subst. cbn in E. injection E as -> ->.
      split; [assumption|]. exists u, lead. auto.
Qed.

Lemma bcast_rev s t : bcast_ok (rev s) (rev t) = true <-> stretches t s.
Proof.
  rewrite bcast_ok_iff. unfold stretches. split.
  - intros (hd & lead & E & F). exists (rev lead), (rev hd). split.
    + rewrite <- rev_app_distr, <- E, rev_involutive. reflexivity.
    + rewrite <- (rev_involutive t). apply Forall2_rev, F.
  - intros (lead & tl & -> & F). exists (rev tl), (rev lead). split.
    + apply rev_app_distr.
    + apply Forall2_rev, F.
Qed.

Lemma bcast_idx_map : forall t i, bcast_idx t i =
  map (fun p => if Nat.eqb (fst p) 1 then 0 else snd p) (combine t i).
Proof. induction t as [|k t IH]; intros [|j i]; cbn; [reflexivity..|]. rewrite IH. reflexivity. Qed.

Lemma combine_app {A B} : forall (a a' : list A) (b b' : list B), length a = length b ->
  combine (a ++ a') (b ++ b') = combine a b ++ combine a' b'.
Proof.
  induction a as [|x a IH]; intros a' [|y b] b' H; cbn in *; try discriminate; [reflexivity|].
  rewrite IH by lia. reflexivity.
Qed.

Lemma combine_rev {A B} : forall (a : list A) (b : list B), length a = length b ->
  combine (rev a) (rev b) = rev (combine a b).
Proof.
  induction a as [|x a IH]; intros [|y b] H; cbn in *; try discriminate; [reflexivity|].
  rewrite combine_app by (rewrite !rev_length; lia). rewrite IH by lia. reflexivity.
Qed.

Lemma combine_long {A B} : forall (a : list A) (b b' : list B), length a = length b ->
  combine a (b ++ b') = combine a b.
Proof.
  induction a as [|x a IH]; intros [|y b] b' H; cbn in *; try discriminate; [reflexivity|].
  rewrite IH by lia. reflexivity.
Qed.

Lemma pull_rev t i : length t <= length i -> rev (bcast_idx (rev t) (rev i)) = pull t i.
Proof.
  intros L. rewrite bcast_idx_map, <- map_rev. unfold pull. f_equal.
  set (k := length i - length t). rewrite <- (firstn_skipn k i) at 1. rewrite rev_app_distr.
  assert (length t = length (skipn k i)) as E by (rewrite skipn_length; unfold k; lia).
  rewrite combine_long by (rewrite !rev_length; exact E). rewrite combine_rev by exact E. apply rev_involutive.
Qed.

Lemma stretches_length t s : stretches t s -> length t <= length s.
Proof.
  intros (lead & tl & -> & F). apply F2_length in F. rewrite app_length. lia.
Qed.
Lemma in_shape_length s i : in_shape s i -> length i = length s.
Proof. apply F2_length. Qed.

Section WithScalars.
Variable S : scal.
Notation mono := (mono S).
Notation narr := (narr S).

Lemma inplace_fits op (a b : narr) : stretches (nshape b) (nshape a) ->
  exists r, inplace S op a (FArr b) = Ok r /\ nshape r = nshape a /\
    forall i, in_shape (nshape a) i -> nat_at r i = op (nat_at a i) (nat_at b (pull (nshape b) i)).
Proof.
  intros H. cbn [inplace]. rewrite (proj2 (bcast_rev (nshape a) (nshape b)) H). eexists. split; [reflexivity|].
  split; [reflexivity|]. intros i Hi. cbn [nat_at]. rewrite pull_rev; [reflexivity|].
  rewrite (in_shape_length _ _ Hi). apply stretches_length, H.
Qed.

Lemma inplace_misfit op (a b : narr) : ~ stretches (nshape b) (nshape a) ->
  inplace S op a (FArr b) = Err BroadcastError.
Proof.
  intros H. cbn [inplace]. destruct (bcast_ok _ _) eqn:E; [|reflexivity].
  destruct (H (proj1 (bcast_rev (nshape a) (nshape b)) E)).
Qed.

(** The x factor of a monomial: the same shape, the value with y replaced by 1. *)
Definition xpart (m : mono) (x : narr) : res (floatlike S) :=
  let v0 := FArr (NArr (nshape x) (fun _ => smul S (mcoef m) (sone S))) in
  if Nat.ltb 0 (mx (malpha m)) then fl_imul S v0 (fl_pow S (FArr x) (mx (malpha m))) else Ok v0.

Lemma xpart_ok m (x : narr) : exists v, xpart m x = Ok (FArr v) /\ nshape v = nshape x /\
  forall i, in_shape (nshape x) i -> nat_at v i =
    if Nat.ltb 0 (mx (malpha m)) then smul S (smul S (mcoef m) (sone S)) (spow S (nat_at x i) (mx (malpha m)))
    else smul S (mcoef m) (sone S).
Proof.
  unfold xpart. cbv zeta. set (v0 := NArr (nshape x) (fun _ => smul S (mcoef m) (sone S))).
  destruct (Nat.ltb 0 (mx (malpha m))).
  - destruct (fl_imul_arr S v0 (fl_pow S (FArr x) (mx (malpha m)))) as (r & E & Es & Ev); [reflexivity|].
    exists r. split; [exact E|]. split; [exact Es|]. intros i Hi. rewrite Ev by exact Hi. reflexivity.
  - exists v0. auto.
Qed.

Lemma m_eval_arr_x m (x y : narr) : m_eval_arr S m (FArr x) (FArr y) =
  (do v <- xpart m x; if Nat.ltb 0 (my (malpha m)) then fl_imul S v (fl_pow S (FArr y) (my (malpha m))) else Ok v).
Proof. reflexivity. Qed.

Lemma m_eval_fits m (x y : narr) : stretches (nshape y) (nshape x) ->
  exists r, m_eval_arr S m (FArr x) (FArr y) = Ok (FArr r) /\ nshape r = nshape x /\
    forall i, in_shape (nshape x) i -> nat_at r i = m_eval S m (nat_at x i) (nat_at y (pull (nshape y) i)).
Proof.
  intros H. rewrite m_eval_arr_x. destruct (xpart_ok m x) as (v & E & Es & Ev). rewrite E. cbn [bind].
  unfold m_eval. destruct (Nat.ltb 0 (my (malpha m))).
  - cbn [fl_pow fl_imul].
    destruct (inplace_fits (smul S) v (NArr (nshape y) (fun i => spow S (nat_at y i) (my (malpha m))))) as (r & E' & Es' & Ev').
    + cbn [nshape]. rewrite Es. exact H.
    + rewrite E'. cbn [bind]. exists r. split; [reflexivity|]. split; [congruence|]. intros i Hi.
      rewrite Ev' by (rewrite Es; exact Hi). rewrite Ev by exact Hi. reflexivity.
  - exists v. auto.
Qed.

(** A monomial without y never looks at y. *)
Lemma m_eval_flat m (x y : narr) : my (malpha m) = 0 ->
  exists r, m_eval_arr S m (FArr x) (FArr y) = Ok (FArr r) /\ nshape r = nshape x /\
    forall i c, in_shape (nshape x) i -> nat_at r i = m_eval S m (nat_at x i) c.
Proof.
  intros H. rewrite m_eval_arr_x. destruct (xpart_ok m x) as (v & E & Es & Ev). rewrite E. cbn [bind].
  unfold m_eval. rewrite H. cbn [Nat.ltb Nat.leb]. exists v. split; [reflexivity|]. auto.
Qed.

Lemma m_eval_misfit m (x y : narr) : my (malpha m) <> 0 -> ~ stretches (nshape y) (nshape x) ->
  m_eval_arr S m (FArr x) (FArr y) = Err BroadcastError.
Proof.
  intros H N. rewrite m_eval_arr_x. destruct (xpart_ok m x) as (v & E & Es & Ev). rewrite E. cbn [bind].
  destruct (Nat.ltb_spec 0 (my (malpha m))) as [_|L]; [|lia]. cbn [fl_pow fl_imul].
  rewrite inplace_misfit; [reflexivity|]. cbn [nshape]. rewrite Es. exact N.
Qed.

(** Summation of terms that are each an array of the shape of x. *)
Lemma sum_ok (x : narr) (y : floatlike S) (val : mono -> list nat -> S) : forall p (v : narr) (s : list nat -> S),
  (forall m, In m p -> exists r, m_eval_arr S m (FArr x) y = Ok (FArr r) /\ nshape r = nshape x /\
     forall i, in_shape (nshape x) i -> nat_at r i = val m i) ->
  nshape v = nshape x -> (forall i, in_shape (nshape x) i -> nat_at v i = s i) ->
  exists r, fold_res (fun val m => do w <- m_eval_arr S m (FArr x) y; inplace S (sadd S) val w) p v = Ok r /\
    nshape r = nshape x /\
    forall i, in_shape (nshape x) i -> nat_at r i = fold_left (fun v m => sadd S v (val m i)) p (s i).
Proof.
  induction p as [|m p IH]; intros v s H Hs Hv; cbn [fold_res fold_left].
  - exists v. auto.
  - destruct (H m (or_introl eq_refl)) as (w & E & Es & Ev). rewrite E. cbn [bind].
    destruct (inplace_conf S (sadd S) v (FArr w)) as (v' & E' & Es' & Ev'); [cbn; congruence|].
    rewrite E'. cbn [bind].
    destruct (IH v' (fun i => sadd S (s i) (val m i))) as (r & R1 & R2 & R3).
    + intros m' M. apply H. right. exact M.
    + congruence.
    + intros i Hi. rewrite Ev' by (rewrite Hs; exact Hi). rewrite Hv by exact Hi.
      cbn [fl_at]. rewrite Ev by exact Hi. reflexivity.
    + exists r. auto.
Qed.

Lemma peval_fits p (x y : narr) : stretches (nshape y) (nshape x) ->
  exists r, peval_arr S p (FArr x) (FArr y) = Ok r /\ nshape r = nshape x /\
    forall i, in_shape (nshape x) i -> nat_at r i = peval S p (nat_at x i) (nat_at y (pull (nshape y) i)).
Proof.
  intros H. unfold peval_arr, peval.
  destruct (sum_ok x (FArr y) (fun m i => m_eval S m (nat_at x i) (nat_at y (pull (nshape y) i))) p
    (NArr (nshape x) (fun _ => szero S)) (fun _ => szero S)) as (r & R1 & R2 & R3).
  - intros m _. apply m_eval_fits, H.
  - reflexivity.
  - reflexivity.
  - exists r. auto.
Qed.

Lemma peval_flat p (x y : narr) : (forall m, In m p -> my (malpha m) = 0) ->
  exists r, peval_arr S p (FArr x) (FArr y) = Ok r /\ nshape r = nshape x /\
    forall i c, in_shape (nshape x) i -> nat_at r i = peval S p (nat_at x i) c.
Proof.
  intros H. unfold peval_arr, peval.
  assert (G : forall c, exists r, fold_res (fun val m => do w <- m_eval_arr S m (FArr x) (FArr y); inplace S (sadd S) val w) p
      (NArr (nshape x) (fun _ => szero S)) = Ok r /\ nshape r = nshape x /\
      forall i, in_shape (nshape x) i -> nat_at r i = fold_left (fun v m => sadd S v (m_eval S m (nat_at x i) c)) p (szero S)).
  { intros c. apply (sum_ok x (FArr y) (fun m i => m_eval S m (nat_at x i) c) p _ (fun _ => szero S)); [|reflexivity..].
    intros m M. destruct (m_eval_flat m x y (H m M)) as (r & E & Es & Ev). exists r. auto. }
  destruct (G (szero S)) as (r & E & Es & _). exists r. split; [exact E|]. split; [exact Es|].
  intros i c Hi. destruct (G c) as (r' & E' & _ & Ev). assert (r' = r) as -> by congruence. apply Ev, Hi.
Qed.

Lemma peval_misfit p (x y : narr) : ~ stretches (nshape y) (nshape x) ->
  (exists m, In m p /\ my (malpha m) <> 0) -> peval_arr S p (FArr x) (FArr y) = Err BroadcastError.
Proof.
  intros N (m & M & Hm). unfold peval_arr.
  assert (G : forall v, nshape v = nshape x ->
    fold_res (fun val m => do w <- m_eval_arr S m (FArr x) (FArr y); inplace S (sadd S) val w) p v = Err BroadcastError).
  { induction p as [|m' p IH]; intros v Hv; [contradiction|]. cbn [fold_res].
    destruct (Nat.eq_dec (my (malpha m')) 0) as [E0|E0].
    - destruct (m_eval_flat m' x y E0) as (r & E & Es & _). rewrite E. cbn [bind].
      destruct (inplace_conf S (sadd S) v (FArr r)) as (v' & E' & Es' & _); [cbn; congruence|].
      rewrite E'. cbn [bind]. apply IH; [|congruence]. destruct M as [->|M]; [contradiction|exact M].
    - rewrite (m_eval_misfit m' x y E0 N). reflexivity. }
  apply G. reflexivity.
Qed.
End WithScalars.
