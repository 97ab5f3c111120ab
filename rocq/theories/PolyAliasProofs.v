(** Proofs about in-place addition, array evaluation and sharing of monomials. *)
From Coq Require Import List ZArith Lia Arith Bool.
From Verif Require Import PyBase PolyModel PolyAliasModel PolyAliasSpec.
Import ListNotations.
Open Scope nat_scope.

Section WithScalars.
Variable S : scal.
Notation poly := (poly S).
Notation mono := (mono S).
Notation heap := (heap S).

(* ---------------------------------------------------------------- *)
(** ** In-place addition *)

Lemma pupd_same st o p : pupd S st o p o = p.
Proof. unfold pupd. rewrite Nat.eqb_refl. reflexivity. Qed.
Lemma pupd_other st o p o' : o' <> o -> pupd S st o p o' = st o'.
Proof. intros H. unfold pupd. destruct (Nat.eqb_spec o' o); [contradiction|reflexivity]. Qed.

Lemma skipn_nth_error {A} (l : list A) i x : nth_error l i = Some x ->
  skipn i l = x :: skipn (Datatypes.S i) l.
Proof.
  revert i. induction l as [|y l IH]; intros [|i] H; try discriminate.
  - inversion H. reflexivity.
  - apply IH, H.
Qed.

Lemma skipn_nth_none {A} (l : list A) i : nth_error l i = None -> skipn i l = [].
Proof. intros H. apply nth_error_None in H. apply skipn_all2, H. Qed.

Lemma iadd_live_distinct fuel st self other i : self <> other ->
  length (st other) - i < fuel ->
  exists st', iadd_live S fuel st self other i = Ok st' /\
    st' self = consolidate S (fold_left (add_monomial S) (skipn i (st other)) (st self)) /\
    forall o, o <> self -> st' o = st o.
Proof.
  intros Hne. revert st i. induction fuel as [|fuel IH]; intros st i Hf; [lia|].
  cbn [iadd_live]. destruct (nth_error (st other) i) as [m|] eqn:E.
  - assert (Hi : i < length (st other)) by (apply nth_error_Some; congruence).
    destruct (IH (pupd S st self (add_monomial S (st self) m)) (Datatypes.S i)) as (st' & E' & E1 & E2).
    + rewrite pupd_other by congruence. lia.
    + exists st'. split; [exact E'|]. split.
      * rewrite E1, pupd_same, pupd_other by congruence.
        rewrite (skipn_nth_error _ _ _ E). reflexivity.
      * intros o Ho. rewrite E2 by exact Ho. apply pupd_other, Ho.
  - eexists. split; [reflexivity|]. split.
    + rewrite pupd_same, (skipn_nth_none _ _ E). reflexivity.
    + intros o Ho. apply pupd_other, Ho.
Qed.

Lemma iadd_distinct st self other : self <> other ->
  exists st', iadd_live S (Datatypes.S (length (st other))) st self other 0 = Ok st' /\
    st' self = piadd S (st self) (st other) /\ forall o, o <> self -> st' o = st o.
Proof.
  intros H. destruct (iadd_live_distinct (Datatypes.S (length (st other))) st self other 0 H) as (st' & E1 & E2 & E3);
    [lia|]. exists st'. auto.
Qed.

(** Aliased: every iteration appends a monomial, so the index never reaches the end. *)
Lemma iadd_self_diverges fuel st o i :
  (forall m, In m (st o) -> m_is_zero S m = false) -> i < length (st o) ->
  iadd_live S fuel st o o i = Err OutOfFuel.
Proof.
  revert st i. induction fuel as [|fuel IH]; intros st i Hz Hi; [reflexivity|].
  cbn [iadd_live]. destruct (nth_error (st o) i) as [m|] eqn:E.
  - assert (Hm : m_is_zero S m = false) by (apply Hz; eapply nth_error_In; exact E).
    apply IH; rewrite pupd_same; unfold add_monomial; rewrite Hm.
    + intros n Hn. apply in_app_or in Hn. destruct Hn as [Hn|[<-|[]]]; [apply Hz, Hn|exact Hm].
    + rewrite app_length. cbn. lia.
  - apply nth_error_None in E. lia.
Qed.

(** The list grows by one element per iteration. *)
Lemma iadd_self_grows n st o i :
  (forall m, In m (st o) -> m_is_zero S m = false) -> i < length (st o) ->
  length (iadd_steps S n st o o i o) = length (st o) + n.
Proof.
  revert st i. induction n as [|n IH]; intros st i Hz Hi; [cbn; lia|].
  cbn [iadd_steps]. destruct (nth_error (st o) i) as [m|] eqn:E.
  - assert (Hm : m_is_zero S m = false) by (apply Hz; eapply nth_error_In; exact E).
    rewrite IH; rewrite pupd_same; unfold add_monomial; rewrite Hm.
    + rewrite app_length. cbn. lia.
    + intros k Hn. apply in_app_or in Hn. destruct Hn as [Hn|[<-|[]]]; [apply Hz, Hn|exact Hm].
    + rewrite app_length. cbn. lia.
  - apply nth_error_None in E. lia.
Qed.

(* ---------------------------------------------------------------- *)
(** ** Array evaluation *)

Lemma bcast_ok_refl s : bcast_ok s s = true.
Proof. induction s as [|n s IH]; cbn; [reflexivity|]. rewrite Nat.eqb_refl, IH. reflexivity. Qed.

Lemma bcast_idx_same s i : Forall2 (fun k n => k < n) i s -> bcast_idx s i = i.
Proof.
  induction 1 as [|k n i s Hk Hi IH]; cbn; [reflexivity|]. rewrite IH.
  destruct (Nat.eqb_spec n 1); [|reflexivity]. f_equal. lia.
Qed.

Lemma Forall2_rev {A B} (P : A -> B -> Prop) l l' : Forall2 P l l' -> Forall2 P (rev l) (rev l').
Proof.
  induction 1 as [|a b l l' H H' IH]; cbn; [constructor|].
  apply Forall2_app; [exact IH|]. constructor; [exact H|constructor].
Qed.

Lemma inplace_conf op a b : conforms (nshape a) b ->
  exists r, inplace S op a b = Ok r /\ nshape r = nshape a /\
    forall i, in_shape (nshape a) i -> nat_at r i = op (nat_at a i) (fl_at b i).
Proof.
  intros H. destruct b as [c|b]; cbn [inplace].
  - eexists. split; [reflexivity|]. split; [reflexivity|]. intros i _. reflexivity.
  - cbn [conforms] in H. rewrite H, bcast_ok_refl. eexists. split; [reflexivity|].
    split; [reflexivity|]. intros i Hi. cbn [nat_at fl_at].
    rewrite bcast_idx_same by (apply Forall2_rev, Hi). rewrite rev_involutive. reflexivity.
Qed.

Lemma conforms_pow s f n : conforms s f -> conforms s (fl_pow S f n).
Proof. destruct f; exact (fun H => H). Qed.
Lemma fl_at_pow f n i : fl_at (fl_pow S f n) i = spow S (fl_at f i) n.
Proof. destruct f; reflexivity. Qed.

Lemma fl_imul_arr a w : conforms (nshape a) w ->
  exists r, fl_imul S (FArr a) w = Ok (FArr r) /\ nshape r = nshape a /\
    forall i, in_shape (nshape a) i -> nat_at r i = smul S (nat_at a i) (fl_at w i).
Proof.
  intros H. destruct (inplace_conf (smul S) a w H) as (r & E & Es & Ev).
  exists r. cbn [fl_imul]. rewrite E. auto.
Qed.

(** A monomial on an array x and any conforming y, entry by entry. *)
Lemma m_eval_arr_ok m (x : narr S) y : conforms (nshape x) y ->
  exists r, m_eval_arr S m (FArr x) y = Ok (FArr r) /\ nshape r = nshape x /\
    forall i, in_shape (nshape x) i -> nat_at r i = m_eval S m (nat_at x i) (fl_at y i).
Proof.
  intros Hy. unfold m_eval_arr. set (v0 := NArr (nshape x) (fun _ => smul S (mcoef m) (sone S))).
  assert (H1 : exists v1, (if Nat.ltb 0 (mx (malpha m)) then fl_imul S (FArr v0) (fl_pow S (FArr x) (mx (malpha m)))
                else Ok (FArr v0)) = Ok (FArr v1) /\ nshape v1 = nshape x /\
     forall i, in_shape (nshape x) i -> nat_at v1 i =
       if Nat.ltb 0 (mx (malpha m)) then smul S (smul S (mcoef m) (sone S)) (spow S (nat_at x i) (mx (malpha m)))
       else smul S (mcoef m) (sone S)).
  { destruct (Nat.ltb 0 (mx (malpha m))).
    - destruct (fl_imul_arr v0 (fl_pow S (FArr x) (mx (malpha m)))) as (r & E & Es & Ev); [reflexivity|].
      exists r. split; [exact E|]. split; [exact Es|]. intros i Hi. rewrite Ev by exact Hi. reflexivity.
    - exists v0. auto. }
  destruct H1 as (v1 & E1 & S1 & A1). cbn [nat_at nshape] in *.
  change (FArr (NArr (nshape x) (fun _ => smul S (mcoef m) (sone S)))) with (FArr v0).
  rewrite E1. cbn [bind]. unfold m_eval.
  destruct (Nat.ltb 0 (my (malpha m))).
  - destruct (fl_imul_arr v1 (fl_pow S y (my (malpha m)))) as (r & E & Es & Ev).
    + rewrite S1. apply conforms_pow, Hy.
    + exists r. split; [exact E|]. split; [congruence|]. intros i Hi.
      rewrite Ev by (rewrite S1; exact Hi). rewrite A1 by exact Hi. rewrite fl_at_pow. reflexivity.
  - exists v1. auto.
Qed.

Lemma peval_arr_ok p (x : narr S) y : conforms (nshape x) y ->
  exists r, peval_arr S p (FArr x) y = Ok r /\ nshape r = nshape x /\
    forall i, in_shape (nshape x) i -> nat_at r i = peval S p (nat_at x i) (fl_at y i).
Proof.
  intros Hy. unfold peval_arr, peval. set (z := NArr (nshape x) (fun _ => szero S)).
  assert (G : forall p (v : narr S) (s : list nat -> S), nshape v = nshape x ->
    (forall i, in_shape (nshape x) i -> nat_at v i = s i) ->
    exists r, fold_res (fun val m => do w <- m_eval_arr S m (FArr x) y; inplace S (sadd S) val w) p v = Ok r /\
      nshape r = nshape x /\
      forall i, in_shape (nshape x) i ->
        nat_at r i = fold_left (fun v m => sadd S v (m_eval S m (nat_at x i) (fl_at y i))) p (s i)).
  { clear p. induction p as [|m p IH]; intros v s Hs Hv; cbn [fold_res fold_left].
    - exists v. auto.
    - destruct (m_eval_arr_ok m x y Hy) as (w & E & Es & Ev). rewrite E. cbn [bind].
      destruct (inplace_conf (sadd S) v (FArr w)) as (v' & E' & Es' & Ev'); [cbn; congruence|].
      rewrite E'. cbn [bind].
      destruct (IH v' (fun i => sadd S (s i) (m_eval S m (nat_at x i) (fl_at y i)))) as (r & R1 & R2 & R3).
      + congruence.
      + intros i Hi. rewrite Ev' by (rewrite Hs; exact Hi). rewrite Hv by exact Hi.
        cbn [fl_at]. rewrite Ev by exact Hi. reflexivity.
      + exists r. auto. }
  destruct (G p z (fun _ => szero S)) as (r & R1 & R2 & R3); [reflexivity|reflexivity|].
  exists r. auto.
Qed.

(** Scalars in both arguments give a zero-dimensional array holding the value. *)
Lemma peval_arr_scalars p c d : exists r, peval_arr S p (FScal c) (FScal d) = Ok r /\
  nshape r = [] /\ nat_at r [] = peval S p c d.
Proof.
  unfold peval_arr, peval.
  assert (G : forall p (v : narr S), nshape v = [] ->
    exists r, fold_res (fun val m => do w <- m_eval_arr S m (FScal c) (FScal d); inplace S (sadd S) val w) p v = Ok r /\
      nshape r = [] /\ nat_at r [] = fold_left (fun v m => sadd S v (m_eval S m c d)) p (nat_at v [])).
  { clear p. induction p as [|m p IH]; intros v Hs; cbn [fold_res fold_left].
    - exists v. auto.
    - assert (E : m_eval_arr S m (FScal c) (FScal d) = Ok (FScal (m_eval S m c d))).
      { unfold m_eval_arr, m_eval. destruct (Nat.ltb 0 (mx (malpha m))), (Nat.ltb 0 (my (malpha m))); reflexivity. }
      rewrite E. cbn [bind inplace].
      destruct (IH (NArr (nshape v) (fun i => sadd S (nat_at v i) (m_eval S m c d)))) as (r & R1 & R2 & R3);
        [exact Hs|]. exists r. auto. }
  apply G. reflexivity.
Qed.

(** Scalar x with an array y of any shape other than (): numpy refuses. *)
Lemma peval_arr_scalar_x p c (y : narr S) : p <> [] -> nshape y <> [] ->
  exists e, peval_arr S p (FScal c) (FArr y) = Err e.
Proof.
  intros Hp Hy. destruct p as [|m p]; [contradiction|]. unfold peval_arr. cbn [fold_res].
  assert (E : exists w, m_eval_arr S m (FScal c) (FArr y) = Ok (FArr w) /\ nshape w = nshape y).
  { unfold m_eval_arr. cbv zeta. cbn [fl_pow nshape nat_at].
    set (v0 := NArr (nshape y) (fun _ => smul S (mcoef m) (sone S))). assert (exists v1, (if Nat.ltb 0 (mx (malpha m))
      then fl_imul S (FArr v0) (FScal (spow S c (mx (malpha m)))) else Ok (FArr v0)) = Ok (FArr v1)
      /\ nshape v1 = nshape y) as (v1 & E1 & S1).
    { destruct (Nat.ltb 0 (mx (malpha m))); cbn [fl_imul inplace bind]; eexists; split; reflexivity. }
    rewrite E1. cbn [bind]. destruct (Nat.ltb 0 (my (malpha m))).
    - destruct (fl_imul_arr v1 (FArr (NArr (nshape y) (fun i => spow S (nat_at y i) (my (malpha m)))))) as (r & E & Es & _).
      + cbn. congruence.
      + exists r. split; [exact E|congruence].
    - exists v1. auto. }
  destruct E as (w & E & Es). rewrite E. cbn [bind inplace nshape rev].
  destruct (rev (nshape w)) as [|n t] eqn:R.
  - exfalso. apply Hy. rewrite <- Es, <- (rev_involutive (nshape w)), R. reflexivity.
  - cbn [bcast_ok]. exists BroadcastError. reflexivity.
Qed.

(* ---------------------------------------------------------------- *)
(** ** The heap refines the pure model *)

Definition ext (h h' : heap) : Prop := exists t, h' = h ++ t.
Definition den (h : heap) (p : hpoly) : poly := map (get S h) p.
Definition refines (h : heap) (r : heap * hpoly) (q : poly) : Prop :=
  ext h (fst r) /\ valid (fst r) (snd r) /\ den (fst r) (snd r) = q.

Lemma den_cons h a p : den h (a :: p) = get S h a :: den h p.
Proof. reflexivity. Qed.

Lemma ext_refl h : ext h h.
Proof. exists []. rewrite app_nil_r. reflexivity. Qed.
Lemma ext_trans h h' h'' : ext h h' -> ext h' h'' -> ext h h''.
Proof. intros [t ->] [t' ->]. exists (t ++ t'). rewrite app_assoc. reflexivity. Qed.
Lemma ext_app h t : ext h (h ++ t).
Proof. exists t. reflexivity. Qed.

Lemma ext_length h h' : ext h h' -> length h <= length h'.
Proof. intros [t ->]. rewrite app_length. lia. Qed.
Lemma get_ext h h' a : ext h h' -> a < length h -> get S h' a = get S h a.
Proof. intros [t ->] Ha. unfold get. apply app_nth1, Ha. Qed.
Lemma get_new h m t : get S (h ++ m :: t) (length h) = m.
Proof. unfold get. rewrite app_nth2, Nat.sub_diag by lia. reflexivity. Qed.
Lemma valid_ext h h' p : ext h h' -> valid h p -> valid h' p.
Proof.
  intros He Hp. apply ext_length in He. eapply Forall_impl; [|exact Hp]. intros a Ha. cbn in *. lia.
Qed.
Lemma den_ext h h' p : ext h h' -> valid h p -> den h' p = den h p.
Proof.
  intros He Hp. induction Hp as [|a p Ha Hp IH]; [reflexivity|]. unfold den in *. cbn [map].
  rewrite IH, (get_ext h h' a He Ha). reflexivity.
Qed.
Lemma valid_app (h : heap) p q : valid h p -> valid h q -> valid h (p ++ q).
Proof. intros. apply Forall_app. auto. Qed.
Lemma valid_rev (h : heap) p : valid h p -> valid h (rev p).
Proof. intros H. apply Forall_rev, H. Qed.
Lemma den_rev h p : den h (rev p) = rev (den h p).
Proof. unfold den. apply map_rev. Qed.

Lemma h_add_monomial_ok (h : heap) p a : valid h p -> a < length h ->
  valid h (h_add_monomial S h p a) /\ den h (h_add_monomial S h p a) = add_monomial S (den h p) (get S h a).
Proof.
  intros Hp Ha. unfold h_add_monomial, add_monomial. destruct (m_is_zero S (get S h a)).
  - auto.
  - split; [apply valid_app; [exact Hp|constructor; [exact Ha|constructor]]|].
    unfold den. rewrite map_app. reflexivity.
Qed.

Lemma h_add_monomials_ok (h : heap) q : forall p, valid h p -> valid h q ->
  valid h (fold_left (h_add_monomial S h) q p) /\
  den h (fold_left (h_add_monomial S h) q p) = fold_left (add_monomial S) (den h q) (den h p).
Proof.
  induction q as [|a q IH]; intros p Hp Hq; rewrite ?den_cons; cbn [fold_left]; [auto|].
  inversion Hq as [|? ? Ha Hq']; subst. destruct (h_add_monomial_ok h p a Hp Ha) as [V D].
  destruct (IH _ V Hq') as [V' D']. split; [exact V'|]. fold (den h q). rewrite D', D. reflexivity.
Qed.

Lemma h_cons_row_ok l : forall (h : heap) a, valid h l -> a < length h ->
  let '(h', a', l') := h_cons_row S h a l in
  ext h h' /\ a' < length h' /\ valid h' l' /\
  (get S h' a', den h' l') = cons_row S (get S h a) (den h l).
Proof.
  induction l as [|b l IH]; intros h a Hl Ha.
  - cbn. split; [apply ext_refl|]. split; [exact Ha|]. split; [constructor|reflexivity].
  - inversion Hl as [|? ? Hb Hl']; subst. rewrite ?den_cons; cbn [h_cons_row cons_row].
    destruct (mi_eqb (malpha (get S h a)) (malpha (get S h b))) eqn:E.
    + unfold alloc.
      set (m1 := Mono (malpha (get S h a)) (sadd S (mcoef (get S h a)) (mcoef (get S h b)))).
      set (h1 := h ++ [m1]).
      assert (Eh1 : ext h h1) by apply ext_app.
      assert (Gb : get S h1 b = get S h b) by (apply get_ext; assumption). rewrite Gb.
      set (m2 := m_scale S (get S h b) (sofZ S 0)).
      set (h2 := h1 ++ [m2]).
      assert (Eh2 : ext h h2) by (eapply ext_trans; [exact Eh1|apply ext_app]).
      assert (L1 : length h1 = Datatypes.S (length h)) by (unfold h1; rewrite app_length; cbn; lia).
      assert (L2 : length h2 = Datatypes.S (length h1)) by (unfold h2; rewrite app_length; cbn; lia).
      specialize (IH h2 (length h) (valid_ext _ _ _ Eh2 Hl') ltac:(lia)).
      destruct (h_cons_row S h2 (length h) l) as [[h3 a3] l3].
      destruct IH as (E3 & A3 & V3 & D3).
      assert (G1 : get S h2 (length h) = m1).
      { unfold h2, h1. rewrite <- app_assoc. cbn [app]. apply get_new. }
      assert (G2 : get S h3 (length h1) = m2).
      { rewrite (get_ext h2 h3) by (try exact E3; lia). apply get_new. }
      split; [eapply ext_trans; eassumption|]. split; [exact A3|]. split.
      * constructor; [apply ext_length in E3; lia|exact V3].
      * rewrite G1 in D3. fold (den h l). rewrite (den_ext h h2 l Eh2 Hl') in D3.
        rewrite ?den_cons. fold (den h3 l3). rewrite G2. rewrite <- D3. reflexivity.
    + specialize (IH h a Hl' Ha). destruct (h_cons_row S h a l) as [[h3 a3] l3].
      destruct IH as (E3 & A3 & V3 & D3).
      split; [exact E3|]. split; [exact A3|]. split.
      * constructor; [apply ext_length in E3; lia|exact V3].
      * fold (den h l). rewrite <- D3. rewrite ?den_cons. rewrite (get_ext h h3 b E3 Hb). reflexivity.
Qed.

Lemma h_cons_rows_ok k : forall (h : heap) l, valid h l ->
  refines h (h_cons_rows S k h l) (cons_rows S k (den h l)).
Proof.
  induction k as [|k IH]; intros h l Hl.
  - split; [apply ext_refl|]. split; [exact Hl|reflexivity].
  - destruct l as [|a l].
    + split; [apply ext_refl|]. split; [constructor|reflexivity].
    + inversion Hl as [|? ? Ha Hl']; subst. rewrite ?den_cons; cbn [h_cons_rows cons_rows].
      pose proof (h_cons_row_ok l h a Hl' Ha) as R. fold (den h l).
      destruct (h_cons_row S h a l) as [[h1 a1] l1]. destruct R as (E1 & A1 & V1 & D1).
      rewrite <- D1. specialize (IH h1 l1 V1). destruct (h_cons_rows S k h1 l1) as [h2 l2].
      destruct IH as (E2 & V2 & D2). cbn [fst snd] in *.
      split; [eapply ext_trans; eassumption|]. split.
      * constructor; cbn [fst snd]; [apply ext_length in E2; lia|exact V2].
      * cbn [fst snd]; rewrite ?den_cons. fold (den h2 l2). rewrite D2, (get_ext h1 h2 a1 E2 A1). reflexivity.
Qed.

Lemma h_sink_ok (h : heap) a r : valid h r -> a < length h ->
  valid h (h_sink S h a r) /\ den h (h_sink S h a r) = sink S (get S h a) (den h r).
Proof.
  intros Hr Ha. induction Hr as [|b r Hb Hr IH]; rewrite ?den_cons; cbn [h_sink sink].
  - split; [constructor; [exact Ha|constructor]|reflexivity].
  - destruct (m_gtb S (get S h b) (get S h a)).
    + destruct IH as [V D]. split; [constructor; assumption|]. rewrite ?den_cons.
      fold (den h (h_sink S h a r)). rewrite D. reflexivity.
    + split; [repeat (constructor; try assumption)|reflexivity].
Qed.

Lemma h_sort_ok (h : heap) l : forall r, valid h l -> valid h r ->
  valid h (fold_left (fun r a => h_sink S h a r) l r) /\
  den h (fold_left (fun r a => h_sink S h a r) l r) = fold_left (fun r m => sink S m r) (den h l) (den h r).
Proof.
  induction l as [|a l IH]; intros r Hl Hr; rewrite ?den_cons; cbn [fold_left]; [auto|].
  inversion Hl as [|? ? Ha Hl']; subst. destruct (h_sink_ok h a r Hr Ha) as [V D].
  destruct (IH _ Hl' V) as [V' D']. split; [exact V'|]. rewrite D', D. reflexivity.
Qed.

Lemma den_filter h f l : den h (filter (fun a => f (get S h a)) l) = filter f (den h l).
Proof.
  induction l as [|a l IH]; [reflexivity|]. rewrite ?den_cons; cbn [filter]. destruct (f (get S h a)); rewrite ?den_cons;
    fold (den h l); fold (den h (filter (fun a => f (get S h a)) l)); rewrite IH; reflexivity.
Qed.

Lemma h_consolidate_ok (h : heap) p : valid h p -> refines h (h_consolidate S h p) (consolidate S (den h p)).
Proof.
  intros Hp. unfold h_consolidate, consolidate. unfold den at 1. rewrite map_length. fold (den h p).
  pose proof (h_cons_rows_ok (length p) h p Hp) as R.
  destruct (h_cons_rows S (length p) h p) as [h1 l1]. destruct R as (E & V & D). cbn [fst snd] in *.
  set (l2 := filter _ l1).
  assert (V2 : valid h1 l2).
  { apply Forall_forall. intros a Ha. unfold l2 in Ha. apply filter_In in Ha.
    unfold valid in V. rewrite Forall_forall in V. apply V, Ha. }
  destruct (h_sort_ok h1 l2 [] V2 ltac:(constructor)) as [V3 D3].
  split; [exact E|]. cbn [fst snd]. split; [apply valid_rev, V3|].
  rewrite den_rev, D3. unfold psort. f_equal. unfold remove_zeros. rewrite <- D.
  unfold l2. rewrite (den_filter h1 (fun m => negb (m_is_zero S m))). reflexivity.
Qed.

Lemma h_copy_ok (h : heap) p : valid h p -> refines h (h_copy S h p) (pcopy S (den h p)).
Proof.
  intros Hp. unfold h_copy, pcopy, add_monomials.
  destruct (h_add_monomials_ok h p [] ltac:(constructor) Hp) as [V D].
  change (@nil mono) with (den h []). rewrite <- D. apply h_consolidate_ok, V.
Qed.
Lemma h_padd_ok (h : heap) p q : valid h p -> valid h q -> refines h (h_padd S h p q) (padd S (den h p) (den h q)).
Proof.
  intros Hp Hq. unfold h_padd, padd.
  destruct (h_add_monomials_ok h p [] ltac:(constructor) Hp) as [V D].
  destruct (h_add_monomials_ok h q _ V Hq) as [V' D'].
  change (@nil mono) with (den h []). rewrite <- D, <- D'. apply h_consolidate_ok, V'.
Qed.
Lemma h_piadd_ok (h : heap) p q : valid h p -> valid h q -> refines h (h_piadd S h p q) (piadd S (den h p) (den h q)).
Proof.
  intros Hp Hq. unfold h_piadd, piadd.
  destruct (h_add_monomials_ok h q p Hp Hq) as [V' D']. rewrite <- D'. apply h_consolidate_ok, V'.
Qed.

Lemma refines_push h st acc m : refines h st acc -> refines h (h_push S st m) (add_monomial S acc m).
Proof.
  destruct st as [h1 p]. intros (E & V & D). cbn [fst snd] in *. unfold h_push, alloc.
  set (h2 := h1 ++ [m]). assert (E2 : ext h1 h2) by apply ext_app.
  assert (L : length h1 < length h2) by (unfold h2; rewrite app_length; cbn; lia).
  destruct (h_add_monomial_ok h2 p (length h1) (valid_ext _ _ _ E2 V) L) as [V2 D2].
  split; [eapply ext_trans; eassumption|]. cbn [fst snd]. split; [exact V2|].
  rewrite D2, (den_ext h1 h2 p E2 V), D. unfold h2. rewrite get_new. reflexivity.
Qed.

Lemma refines_fold h (f : heap * hpoly -> addr -> heap * hpoly) (g : poly -> mono -> poly) p :
  valid h p ->
  (forall st acc a, a < length h -> refines h st acc -> refines h (f st a) (g acc (get S h a))) ->
  forall st acc, refines h st acc -> refines h (fold_left f p st) (fold_left g (den h p) acc).
Proof.
  intros Hp Hf. induction Hp as [|a p Ha Hp IH]; intros st acc Hst; [exact Hst|].
  rewrite ?den_cons; cbn [fold_left]. apply IH, Hf; assumption.
Qed.

Lemma refines_nil h : refines h (h, []) [].
Proof. split; [apply ext_refl|]. split; [constructor|reflexivity]. Qed.

Lemma refines_get h st acc a : refines h st acc -> a < length h -> get S (fst st) a = get S h a.
Proof. intros (E & _ & _) Ha. apply get_ext; assumption. Qed.

Lemma refines_trans h r q r' q' : refines h r q -> refines (fst r) r' q' -> refines h r' q'.
Proof.
  intros (E & V & D) (E' & V' & D'). split; [eapply ext_trans; eassumption|]. split; assumption.
Qed.

Lemma h_pmul_ok (h : heap) p q : valid h p -> valid h q -> refines h (h_pmul S h p q) (pmul S (den h p) (den h q)).
Proof.
  intros Hp Hq. unfold h_pmul, pmul.
  assert (R : refines h (fold_left (fun st a => fold_left (fun st b =>
                  h_push S st (m_mul S (get S (fst st) a) (get S (fst st) b))) q st) p (h, []))
     (fold_left (fun r m => fold_left (fun r n => add_monomial S r (m_mul S m n)) (den h q) r) (den h p) [])).
  { apply (refines_fold h _ _ p Hp); [|apply refines_nil].
    intros st acc a Ha Hst. apply (refines_fold h _ (fun r n => add_monomial S r (m_mul S (get S h a) n)) q Hq); [|exact Hst].
    intros st' acc' b Hb Hst'. rewrite (refines_get h st' acc' a Hst' Ha), (refines_get h st' acc' b Hst' Hb).
    apply refines_push, Hst'. }
  match goal with |- context [fold_left ?f p (h, [])] => destruct (fold_left f p (h, [])) as [h1 r] end. pose proof R as (E & V & D). cbn [fst snd] in *.
  eapply refines_trans; [exact R|]. cbn [fst]. rewrite <- D. apply h_consolidate_ok, V.
Qed.

Lemma h_pscale_ok (h : heap) p c : valid h p -> refines h (h_pscale S h p c) (pscale S (den h p) c).
Proof.
  intros Hp. unfold h_pscale, pscale.
  apply (refines_fold h _ (fun r m => add_monomial S r (m_scale S m c)) p Hp); [|apply refines_nil].
  intros st acc a Ha Hst. unfold alloc. destruct st as [h1 r]. cbn [fst snd].
  pose proof Hst as (E & V & D). cbn [fst snd] in *.
  rewrite get_new. rewrite (get_ext h h1 a E Ha).
  apply refines_push. split; [eapply ext_trans; [exact E|apply ext_app]|]. cbn [fst snd].
  split; [eapply valid_ext; [apply ext_app|exact V]|].
  rewrite (den_ext h1 _ r (ext_app _ _) V). exact D.
Qed.

Lemma h_pdx_ok (h : heap) p : valid h p -> refines h (h_pdx S h p) (pdx S (den h p)).
Proof.
  intros Hp. apply (refines_fold h _ (fun r m => add_monomial S r (m_dx S m)) p Hp); [|apply refines_nil].
  intros st acc a Ha Hst. rewrite (refines_get h st acc a Hst Ha). apply refines_push, Hst.
Qed.
Lemma h_pdy_ok (h : heap) p : valid h p -> refines h (h_pdy S h p) (pdy S (den h p)).
Proof.
  intros Hp. apply (refines_fold h _ (fun r m => add_monomial S r (m_dy S m)) p Hp); [|apply refines_nil].
  intros st acc a Ha Hst. rewrite (refines_get h st acc a Hst Ha). apply refines_push, Hst.
Qed.

Lemma h_plap_ok (h : heap) p : valid h p -> refines h (h_plap S h p) (plaplacian S (den h p)).
Proof.
  intros Hp. unfold h_plap, plaplacian.
  pose proof (h_pdx_ok h p Hp) as R1. destruct (h_pdx S h p) as [h1 gx]. destruct R1 as (E1 & V1 & D1). cbn [fst snd] in *.
  pose proof (h_pdy_ok h1 p (valid_ext _ _ _ E1 Hp)) as R2. destruct (h_pdy S h1 p) as [h2 gy].
  destruct R2 as (E2 & V2 & D2). cbn [fst snd] in *.
  pose proof (h_pdx_ok h2 gx (valid_ext _ _ _ E2 V1)) as R3. destruct (h_pdx S h2 gx) as [h3 gxx].
  destruct R3 as (E3 & V3 & D3). cbn [fst snd] in *.
  pose proof (h_pdy_ok h3 gy (valid_ext _ _ _ E3 V2)) as R4. destruct (h_pdy S h3 gy) as [h4 gyy].
  destruct R4 as (E4 & V4 & D4). cbn [fst snd] in *.
  pose proof (h_padd_ok h4 gxx gyy (valid_ext _ _ _ E4 V3) V4) as R5.
  rewrite (den_ext h1 h2 gx E2 V1), D1 in D3. rewrite (den_ext h2 h3 gy E3 V2), D2 in D4.
  rewrite (den_ext h h1 p E1 Hp) in D4.
  rewrite (den_ext h3 h4 gxx E4 V3), D3, D4 in R5.
  destruct R5 as (E5 & V5 & D5). split; [|split; assumption].
  repeat (eapply ext_trans; [eassumption|]). apply ext_refl.
Qed.

Lemma h_psub_ok (h : heap) p q : valid h p -> valid h q -> refines h (h_psub S h p q) (psub S (den h p) (den h q)).
Proof.
  intros Hp Hq. unfold h_psub, psub.
  pose proof (h_pscale_ok h q (sofZ S (-1)) Hq) as R1. destruct (h_pscale S h q (sofZ S (-1))) as [h1 nq].
  destruct R1 as (E1 & V1 & D1). cbn [fst snd] in *.
  pose proof (h_padd_ok h1 p nq (valid_ext _ _ _ E1 Hp) V1) as (E2 & V2 & D2).
  split; [eapply ext_trans; eassumption|]. split; [exact V2|].
  rewrite D2, D1, (den_ext h h1 p E1 Hp). reflexivity.
Qed.

Lemma h_one_ok (h : heap) : refines h (h_one S h) (pone S).
Proof.
  unfold h_one. pose proof (refines_push h (h, []) [] (Mono (MI 0 0) (sone S)) (refines_nil h)) as R.
  destruct (h_push S (h, []) _) as [h1 r]. pose proof R as (E & V & D). cbn [fst snd] in *.
  eapply refines_trans; [exact R|]. cbn [fst].
  replace (pone S) with (consolidate S (den h1 r)) by (rewrite D; reflexivity).
  apply h_consolidate_ok, V.
Qed.

Lemma h_pow_ok (h : heap) p n : valid h p -> refines h (h_pow S h p n) (ppow_nat S (den h p) n).
Proof.
  intros Hp. induction n as [|n IH]; cbn [h_pow ppow_nat]; [apply h_one_ok|].
  destruct (h_pow S h p n) as [h1 r]. pose proof IH as (E & V & D). cbn [fst snd] in *.
  eapply refines_trans; [exact IH|]. cbn [fst]. rewrite <- D, <- (den_ext h h1 p E Hp).
  apply h_pmul_ok; [exact V|]. eapply valid_ext; eassumption.
Qed.

Lemma h_compose_ok (h : heap) p q1 q2 : valid h p -> valid h q1 -> valid h q2 ->
  refines h (h_compose S h p q1 q2) (pcompose S (den h p) (den h q1) (den h q2)).
Proof.
  intros Hp H1 H2. unfold h_compose, pcompose.
  apply (refines_fold h _ (fun new m => piadd S new (pscale S (pmul S (ppow_nat S (den h q1) (mx (malpha m)))
     (ppow_nat S (den h q2) (my (malpha m)))) (mcoef m))) p Hp); [|apply refines_nil].
  intros [h0 new] acc a Ha (E0 & V0 & D0). cbn [fst snd] in *.
  rewrite (get_ext h h0 a E0 Ha). set (m := get S h a).
  pose proof (h_pow_ok h0 q1 (mx (malpha m)) (valid_ext _ _ _ E0 H1)) as R1.
  destruct (h_pow S h0 q1 (mx (malpha m))) as [h1 t1]. destruct R1 as (E1 & V1 & D1). cbn [fst snd] in *.
  assert (E01 : ext h h1) by (eapply ext_trans; eassumption).
  pose proof (h_pow_ok h1 q2 (my (malpha m)) (valid_ext _ _ _ E01 H2)) as R2.
  destruct (h_pow S h1 q2 (my (malpha m))) as [h2 t2]. destruct R2 as (E2 & V2 & D2). cbn [fst snd] in *.
  pose proof (h_pmul_ok h2 t1 t2 (valid_ext _ _ _ E2 V1) V2) as R3.
  destruct (h_pmul S h2 t1 t2) as [h3 t3]. destruct R3 as (E3 & V3 & D3). cbn [fst snd] in *.
  pose proof (h_pscale_ok h3 t3 (mcoef m) V3) as R4.
  destruct (h_pscale S h3 t3 (mcoef m)) as [h4 t4]. destruct R4 as (E4 & V4 & D4). cbn [fst snd] in *.
  assert (E04 : ext h0 h4) by (repeat (eapply ext_trans; [eassumption|]); apply ext_refl).
  pose proof (h_piadd_ok h4 new t4 (valid_ext _ _ _ E04 V0) V4) as (E5 & V5 & D5).
  split; [|split; [exact V5|]].
  - eapply ext_trans; [exact E0|]. eapply ext_trans; [exact E04|exact E5].
  - rewrite D5, D4, D3, D2, (den_ext h1 h2 t1 E2 V1), D1, (den_ext h0 h4 new E04 V0), D0.
    rewrite (den_ext h h0 q1 E0 H1), (den_ext h h1 q2 E01 H2). reflexivity.
Qed.

(* ---------------------------------------------------------------- *)
(** ** Programs *)

Lemma look_valid st o p : wf st -> look S st o = Ok p -> valid (ps_heap S st) p.
Proof.
  intros Hw H. unfold look in H. destruct (nth_error (ps_objs S st) o) eqn:E; inversion H; subst.
  apply nth_error_In in E. unfold wf in Hw. rewrite Forall_forall in Hw. apply Hw, E.
Qed.
Lemma denote_look st o p : look S st o = Ok p -> denote S st o = Ok (den (ps_heap S st) p).
Proof. intros H. unfold denote. rewrite H. reflexivity. Qed.

Lemma nth_error_set_nth_same {A} (l : list A) n x : n < length l -> nth_error (set_nth l n x) n = Some x.
Proof.
  revert n. induction l as [|a l IH]; intros [|n] H; cbn in *; try lia; [reflexivity|]. apply IH. lia.
Qed.
Lemma nth_error_set_nth_other {A} (l : list A) n k x : k <> n -> nth_error (set_nth l n x) k = nth_error l k.
Proof.
  revert n k. induction l as [|a l IH]; intros [|n] [|k] H; cbn; try reflexivity; try lia. apply IH. lia.
Qed.
Lemma Forall_set_nth {A} (P : A -> Prop) l n x : Forall P l -> P x -> Forall P (set_nth l n x).
Proof.
  intros Hl Hx. revert n. induction Hl as [|a l Ha Hl IH]; intros [|n]; cbn; constructor; auto.
Qed.

Lemma new_ok st r q : wf st -> refines (ps_heap S st) r q ->
  wf (newobj S st r) /\ denote S (newobj S st r) (length (ps_objs S st)) = Ok q /\
  forall o p, look S st o = Ok p -> denote S (newobj S st r) o = denote S st o.
Proof.
  intros Hw (E & V & D). destruct r as [h' p']. cbn [fst snd] in *. split; [|split].
  - apply Forall_app. split; [|constructor; [exact V|constructor]].
    eapply Forall_impl; [|exact Hw]. intros a Ha. eapply valid_ext; eassumption.
  - unfold denote, look, newobj. cbn [ps_objs ps_heap fst snd].
    rewrite nth_error_app2, Nat.sub_diag by lia. cbn. f_equal. exact D.
  - intros o p Ho. pose proof (look_valid st o p Hw Ho) as Vp.
    rewrite (denote_look st o p Ho). unfold denote, newobj, look in *.
    cbn [ps_objs ps_heap fst snd]. destruct (nth_error (ps_objs S st) o) eqn:En; inversion Ho; subst.
    rewrite nth_error_app1 by (apply nth_error_Some; congruence). rewrite En. cbn [bind].
    f_equal. apply den_ext; assumption.
Qed.

Lemma exec_ok st c st' : wf st -> arithmetic c -> exec S st c = Ok st' ->
  wf st' /\ denote S st' (target st c) = pure_result st c /\
  (exists q, pure_result st c = Ok q) /\
  forall o, o <> target st c -> forall p, look S st o = Ok p -> denote S st' o = denote S st o.
Proof.
  intros Hw Ha He.
  destruct c; cbn [exec target pure_result arithmetic] in *; try contradiction; cbv zeta in He;
  repeat match type of He with context [look S st ?o] =>
      let E := fresh "E" in let p := fresh "p" in
      destruct (look S st o) as [p|] eqn:E; cbn [bind] in He; [|discriminate];
      pose proof (look_valid st o p Hw E); rewrite ?(denote_look st o p E) end;
  try match type of He with Ok (newobj S st ?r) = Ok st' =>
      inversion He; subst st'; clear He;
      match goal with |- context [bind _ _] => cbn [bind] | _ => idtac end;
      match goal with |- context [Ok ?q] =>
        assert (R : refines (ps_heap S st) r q) by
          first [ apply h_copy_ok; assumption | apply h_padd_ok; assumption | apply h_psub_ok; assumption
                | apply h_pmul_ok; assumption | apply h_pscale_ok; assumption | apply h_pow_ok; assumption
                | apply h_compose_ok; assumption | apply h_pdx_ok; assumption | apply h_pdy_ok; assumption
                | apply h_plap_ok; assumption ];
        destruct (new_ok st r q Hw R) as (W & D & F);
        split; [exact W|]; split; [exact D|]; split; [eexists; reflexivity|]; intros; eapply F; eassumption
      end
    end.
  (* += *)
  destruct (Nat.eqb_spec o1 o2); [discriminate|].
  pose proof (h_piadd_ok (ps_heap S st) p p0 ltac:(assumption) ltac:(assumption)) as R.
  destruct (h_piadd S (ps_heap S st) p p0) as [h' r]. destruct R as (Ee & V & D). cbn [fst snd] in *.
  inversion He; subst st'; clear He. cbn [bind].
  assert (L1 : o1 < length (ps_objs S st)).
  { unfold look in E. destruct (nth_error (ps_objs S st) o1) eqn:En; [|discriminate].
    apply nth_error_Some. congruence. }
  split; [|split; [|split]].
  - apply Forall_set_nth; [|exact V]. eapply Forall_impl; [|exact Hw].
    intros a Hv. eapply valid_ext; eassumption.
  - unfold denote, look. cbn [ps_objs ps_heap]. rewrite nth_error_set_nth_same by exact L1. cbn [bind].
    f_equal. exact D.
  - eexists; reflexivity.
  - intros o Ho q Hq. rewrite (denote_look st o q Hq). pose proof (look_valid st o q Hw Hq) as Vq.
    unfold denote, look in *. cbn [ps_objs ps_heap]. rewrite nth_error_set_nth_other by exact Ho.
    destruct (nth_error (ps_objs S st) o) eqn:En; inversion Hq; subst. cbn [bind]. f_equal.
    apply den_ext; assumption.
Qed.

(** A whole program without set_coef leaves alone every object it does not update with [+=]. *)
Lemma exec_all_frame cs : forall st st', wf st -> Forall arithmetic cs -> exec_all S st cs = Ok st' ->
  forall o p, look S st o = Ok p -> (forall o2, ~ In (CIadd S o o2) cs) ->
  denote S st' o = denote S st o.
Proof.
  induction cs as [|c cs IH]; intros st st' Hw Hc He o p Ho Hn.
  - inversion He. reflexivity.
  - cbn [exec_all fold_res] in He. destruct (exec S st c) as [st1|] eqn:E1; [|discriminate]. cbn [bind] in He.
    inversion Hc as [|? ? Ha Hc']; subst.
    destruct (exec_ok st c st1 Hw Ha E1) as (W1 & _ & _ & F1).
    assert (Hlt : o < length (ps_objs S st)).
    { unfold look in Ho. destruct (nth_error (ps_objs S st) o) eqn:En; [|discriminate].
      apply nth_error_Some. congruence. }
    assert (Hne : o <> target st c).
    { destruct c; cbn [target]; try lia. intros ->. apply (Hn o2). left. reflexivity. }
    rewrite <- (F1 o Hne p Ho).
    assert (Ho1 : exists p1, look S st1 o = Ok p1).
    { pose proof (F1 o Hne p Ho) as D1. rewrite (denote_look st o p Ho) in D1. unfold denote in D1.
      destruct (look S st1 o) as [p1|]; [eauto|discriminate]. }
    destruct Ho1 as [p1 Ho1].
    apply (IH st1 st' W1 Hc' He o p1 Ho1). intros o2 Hin. apply (Hn o2). right. exact Hin.
Qed.
End WithScalars.
