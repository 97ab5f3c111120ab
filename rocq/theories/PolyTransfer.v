(** Runs of the model on rationals determine its runs on reals: every polynomial function
    commutes with the embedding of Q into R. Used to obtain concrete facts about the real
    instance from [vm_compute] on the rational instance. *)
From Coq Require Import List ZArith Reals QArith Qreals Qabs Lia Lra.
From Verif Require Import PyBase PolyModel.
Import ListNotations.
Open Scope R_scope.

Notation h := Q2R.

Lemma h_red q : h (Qred q) = h q.
Proof. apply Qeq_eqR, Qred_correct. Qed.
Lemma h_add x y : h (sadd QS x y) = sadd RS (h x) (h y).
Proof. cbn [sadd smul sdiv QS RS]. rewrite h_red. apply Q2R_plus. Qed.
Lemma h_mul x y : h (smul QS x y) = smul RS (h x) (h y).
Proof. cbn [sadd smul sdiv QS RS]. rewrite h_red. apply Q2R_mult. Qed.
Lemma h_div x y : ~ (y == 0)%Q -> h (sdiv QS x y) = sdiv RS (h x) (h y).
Proof. intros H. cbn [sadd smul sdiv QS RS]. rewrite h_red. apply Q2R_div, H. Qed.
Lemma h_ofZ z : h (sofZ QS z) = sofZ RS z.
Proof. cbn. unfold Q2R, inject_Z. cbn. field. Qed.
Lemma h_zero : h (szero QS) = szero RS. Proof. cbn. unfold Q2R. cbn. lra. Qed.
Lemma h_one : h (sone QS) = sone RS. Proof. cbn. unfold Q2R. cbn. lra. Qed.
Lemma h_abs x : h (sabs QS x) = sabs RS (h x).
Proof.
  cbn [sabs QS RS]. unfold Rabs. destruct (Rcase_abs (h x)) as [N|N].
  - rewrite (Qeq_eqR (Qabs x) (- x)); [apply Q2R_opp|]. apply Qabs_neg.
    apply Rle_Qle. unfold Q2R at 2. cbn. lra.
  - apply Qeq_eqR, Qabs_pos. apply Rle_Qle. unfold Q2R at 1. cbn. lra.
Qed.
Lemma h_ltb x y : sltb QS x y = sltb RS (h x) (h y).
Proof.
  cbn [sltb QS RS]. unfold Qltb, Rltb. destruct (Rlt_dec (h x) (h y)) as [L|L].
  - apply Bool.negb_true_iff. destruct (Qle_bool y x) eqn:E; [|reflexivity].
    apply Qle_bool_iff, Qle_Rle in E. lra.
  - apply Bool.negb_false_iff, Qle_bool_iff, Rle_Qle. lra.
Qed.
Lemma h_tol : h (stol QS) = stol RS.
Proof.
  unfold stol. rewrite h_div, h_one, h_ofZ; [reflexivity|]. cbn. intros H. discriminate H.
Qed.

Definition hm (m : mono QS) : mono RS := Mono (S:=RS) (malpha m) (h (mcoef m)).
Definition hp (p : poly QS) : poly RS := map hm p.

Lemma h_spow x n : h (spow QS x n) = spow RS (h x) n.
Proof. induction n as [|n IH]; [apply h_one|]. cbn [spow]. rewrite h_mul, IH. reflexivity. Qed.

Lemma t_is_zero m : m_is_zero QS m = m_is_zero RS (hm m).
Proof. unfold m_is_zero. rewrite h_ltb, h_abs, h_tol. reflexivity. Qed.

Lemma t_eval_mono m x y : h (m_eval QS m x y) = m_eval RS (hm m) (h x) (h y).
Proof.
  unfold m_eval. cbn [hm malpha mcoef].
  destruct (Nat.ltb 0 (mx (malpha m))), (Nat.ltb 0 (my (malpha m)));
    rewrite ?h_mul, ?h_spow, ?h_one; reflexivity.
Qed.

Lemma t_eval p x y : h (peval QS p x y) = peval RS (hp p) (h x) (h y).
Proof.
  unfold peval, hp. rewrite <- h_zero. generalize (szero QS).
  induction p as [|m p IH]; intros s; [reflexivity|].
  cbn [fold_left map]. rewrite IH, h_add, t_eval_mono. reflexivity.
Qed.

Lemma t_add_monomial p m : hp (add_monomial QS p m) = add_monomial RS (hp p) (hm m).
Proof.
  unfold add_monomial. rewrite <- t_is_zero. destruct (m_is_zero QS m); [reflexivity|].
  unfold hp. rewrite map_app. reflexivity.
Qed.

Lemma t_add_monomials l : forall p,
  hp (fold_left (add_monomial QS) l p) = fold_left (add_monomial RS) (hp l) (hp p).
Proof.
  induction l as [|m l IH]; intros p; [reflexivity|]. cbn [fold_left hp map].
  rewrite IH, t_add_monomial. reflexivity.
Qed.

Lemma t_scale m c : hm (m_scale QS m c) = m_scale RS (hm m) (h c).
Proof. unfold m_scale, hm. cbn [malpha mcoef]. rewrite h_mul. reflexivity. Qed.

Lemma t_cons_row l : forall m,
  cons_row RS (hm m) (hp l) = let (m', l') := cons_row QS m l in (hm m', hp l').
Proof.
  induction l as [|n l IH]; intros m; [reflexivity|].
  cbn [cons_row hp map]. cbn [hm malpha].
  destruct (mi_eqb (malpha m) (malpha n)).
  - assert (E : Mono (malpha m) (sadd RS (mcoef (hm m)) (mcoef (hm n)))
            = hm (Mono (malpha m) (sadd QS (mcoef m) (mcoef n)))).
    { unfold hm. cbn [malpha mcoef]. rewrite h_add. reflexivity. }
    cbn [hm mcoef malpha] in E. cbn [hm mcoef]. rewrite E.
    fold (hp l). rewrite IH. destruct (cons_row QS _ l) as [m' l'].
    cbn [hp map]. f_equal. f_equal. fold (hm n). rewrite <- h_ofZ. symmetry. apply t_scale.
  - fold (hm m). fold (hp l). rewrite IH. destruct (cons_row QS m l). reflexivity.
Qed.

Lemma t_cons_rows k : forall l, cons_rows RS k (hp l) = hp (cons_rows QS k l).
Proof.
  induction k as [|k IH]; intros l; [reflexivity|].
  destruct l as [|m l]; [reflexivity|]. cbn [cons_rows hp map]. fold (hp l).
  rewrite t_cons_row. destruct (cons_row QS m l) as [m' l']. rewrite IH. reflexivity.
Qed.

Lemma t_remove_zeros l : remove_zeros RS (hp l) = hp (remove_zeros QS l).
Proof.
  induction l as [|m l IH]; [reflexivity|]. unfold remove_zeros in *. cbn [filter hp map].
  rewrite <- t_is_zero. fold (hp l). rewrite IH. destruct (negb _); reflexivity.
Qed.

Lemma t_sink m l : sink RS (hm m) (hp l) = hp (sink QS m l).
Proof.
  induction l as [|n l IH]; [reflexivity|]. cbn [sink hp map]. fold (hp l).
  change (m_gtb RS (hm n) (hm m)) with (m_gtb QS n m). rewrite IH.
  destruct (m_gtb QS n m); reflexivity.
Qed.

Lemma t_sort l : psort RS (hp l) = hp (psort QS l).
Proof.
  unfold psort. unfold hp at 2. rewrite map_rev. fold (hp (fold_left (fun r m => sink QS m r) l [])).
  f_equal. change (@nil (mono RS)) with (hp []). generalize (@nil (mono QS)).
  induction l as [|m l IH]; intros r; [reflexivity|]. cbn [fold_left hp map].
  rewrite <- IH. fold (hp l). fold (hp r). rewrite t_sink. reflexivity.
Qed.

Lemma t_consolidate l : consolidate RS (hp l) = hp (consolidate QS l).
Proof.
  unfold consolidate. replace (length (hp l)) with (length l) by (unfold hp; rewrite map_length; reflexivity).
  rewrite t_cons_rows, t_remove_zeros, t_sort. reflexivity.
Qed.

Lemma t_padd p q : padd RS (hp p) (hp q) = hp (padd QS p q).
Proof.
  unfold padd. rewrite <- t_consolidate, t_add_monomials, t_add_monomials. reflexivity.
Qed.
Lemma t_piadd p q : piadd RS (hp p) (hp q) = hp (piadd QS p q).
Proof. unfold piadd. rewrite <- t_consolidate, t_add_monomials. reflexivity. Qed.
Lemma t_pcopy p : pcopy RS (hp p) = hp (pcopy QS p).
Proof. unfold pcopy, add_monomials. rewrite <- t_consolidate, t_add_monomials. reflexivity. Qed.

Lemma t_add_with_idx p c k :
  add_monomial_with_idx RS (hp p) (h c) k = hp (add_monomial_with_idx QS p c k).
Proof. unfold add_monomial_with_idx. rewrite <- t_consolidate, t_add_monomial. reflexivity. Qed.

Lemma t_m_mul m n : hm (m_mul QS m n) = m_mul RS (hm m) (hm n).
Proof. unfold m_mul, hm. cbn [malpha mcoef]. rewrite h_mul. reflexivity. Qed.

Lemma t_pmul p q : pmul RS (hp p) (hp q) = hp (pmul QS p q).
Proof.
  unfold pmul. rewrite <- t_consolidate. f_equal.
  change (@nil (mono RS)) with (hp []). generalize (@nil (mono QS)).
  induction p as [|m p IH]; intros r; [reflexivity|].
  cbn [fold_left hp map]. fold (hp p). rewrite <- IH. f_equal.
  clear IH. fold (hp r). fold (hp q). revert r.
  induction q as [|n q IHq]; intros r; [reflexivity|].
  cbn [fold_left hp map]. fold (hp q). fold (hp r). rewrite <- IHq, t_add_monomial, t_m_mul. reflexivity.
Qed.

Lemma t_pscale p c : pscale RS (hp p) (h c) = hp (pscale QS p c).
Proof.
  unfold pscale. change (@nil (mono RS)) with (hp []). generalize (@nil (mono QS)).
  induction p as [|m p IH]; intros r; [reflexivity|].
  cbn [fold_left hp map]. fold (hp p). fold (hp r). rewrite <- IH, t_add_monomial, t_scale. reflexivity.
Qed.

Lemma t_pneg p : pneg RS (hp p) = hp (pneg QS p).
Proof. unfold pneg. rewrite <- t_pscale, h_ofZ. reflexivity. Qed.
Lemma t_psub p q : psub RS (hp p) (hp q) = hp (psub QS p q).
Proof. unfold psub. rewrite <- t_padd, <- t_pscale, h_ofZ. reflexivity. Qed.

Definition ht (l : list (Q * nat * nat)) : list (R * nat * nat) :=
  map (fun t => match t with (c, a, b) => (h c, a, b) end) l.
Lemma t_mkpoly l : mkpoly RS (ht l) = hp (mkpoly QS l).
Proof.
  unfold mkpoly. rewrite <- t_consolidate, t_add_monomials. f_equal. f_equal.
  unfold ht, hp. rewrite !map_map. apply map_ext. intros [[c a] b]. reflexivity.
Qed.

Lemma t_pone : pone RS = hp (pone QS).
Proof. unfold pone. rewrite <- t_mkpoly. unfold ht. cbn [map]. rewrite h_one. reflexivity. Qed.
Lemma t_ppow p n : ppow_nat RS (hp p) n = hp (ppow_nat QS p n).
Proof. induction n as [|n IH]; [apply t_pone|]. cbn [ppow_nat]. rewrite IH, t_pmul. reflexivity. Qed.

Lemma t_pcompose p q1 q2 : pcompose RS (hp p) (hp q1) (hp q2) = hp (pcompose QS p q1 q2).
Proof.
  unfold pcompose. change (@nil (mono RS)) with (hp []). generalize (@nil (mono QS)).
  induction p as [|m p IH]; intros r; [reflexivity|].
  cbn [fold_left hp map]. fold (hp p). rewrite <- IH. f_equal.
  cbn [hm malpha mcoef]. fold (hp r). rewrite !t_ppow, t_pmul, t_pscale, t_piadd. reflexivity.
Qed.

Lemma t_m_dx m : hm (m_dx QS m) = m_dx RS (hm m).
Proof.
  unfold m_dx, hm. cbn [malpha]. destruct (mx (malpha m)); cbn [malpha mcoef];
    rewrite ?h_zero, ?h_mul, ?h_ofZ; reflexivity.
Qed.
Lemma t_m_dy m : hm (m_dy QS m) = m_dy RS (hm m).
Proof.
  unfold m_dy, hm. cbn [malpha]. destruct (my (malpha m)); cbn [malpha mcoef];
    rewrite ?h_zero, ?h_mul, ?h_ofZ; reflexivity.
Qed.
Lemma t_pdx p : pdx RS (hp p) = hp (pdx QS p).
Proof.
  unfold pdx. change (@nil (mono RS)) with (hp []). generalize (@nil (mono QS)).
  induction p as [|m p IH]; intros r; [reflexivity|].
  cbn [fold_left hp map]. fold (hp p). fold (hp r). rewrite <- IH, t_add_monomial, t_m_dx. reflexivity.
Qed.
Lemma t_pdy p : pdy RS (hp p) = hp (pdy QS p).
Proof.
  unfold pdy. change (@nil (mono RS)) with (hp []). generalize (@nil (mono QS)).
  induction p as [|m p IH]; intros r; [reflexivity|].
  cbn [fold_left hp map]. fold (hp p). fold (hp r). rewrite <- IH, t_add_monomial, t_m_dy. reflexivity.
Qed.
Lemma t_plaplacian p : plaplacian RS (hp p) = hp (plaplacian QS p).
Proof. unfold plaplacian. rewrite !t_pdx, !t_pdy, t_padd. reflexivity. Qed.

Lemma t_p_r2 : p_r2 RS = hp (p_r2 QS).
Proof.
  unfold p_r2. rewrite <- t_consolidate, <- !t_add_with_idx, !h_one. reflexivity.
Qed.

Lemma ofZ_nonzero z : z <> 0%Z -> ~ (sofZ QS z == 0)%Q.
Proof. intros H E. apply H. cbn in E. unfold Qeq, inject_Z in E. cbn in E. lia. Qed.

Lemma t_antilap_loop n : forall k ord pk lk s acc, (ord + 1 >= k + n)%nat ->
  antilap_loop RS n k ord (hp pk) (hp lk) (h s) (hp acc) = hp (antilap_loop QS n k ord pk lk s acc).
Proof.
  induction n as [|n IH]; intros k ord pk lk s acc Hk; [reflexivity|].
  cbn [antilap_loop]. rewrite <- IH by lia.
  rewrite t_p_r2, t_pmul, t_plaplacian, t_pmul.
  assert (Hnz : ((k + 1) * (ord + 1 - k) <> 0)%nat) by nia.
  assert (E : smul RS (h s) (sdiv RS (sdiv RS (sofZ RS (-1)) (sofZ RS 4))
                (sofZ RS (Z.of_nat ((k + 1) * (ord + 1 - k)))))
           = h (smul QS s (sdiv QS (sdiv QS (sofZ QS (-1)) (sofZ QS 4))
                (sofZ QS (Z.of_nat ((k + 1) * (ord + 1 - k))))))).
  { rewrite h_mul, h_div, h_div, !h_ofZ; [reflexivity| |];
      apply ofZ_nonzero; lia. }
  rewrite E, t_pscale, t_piadd. reflexivity.
Qed.

Lemma t_antilap_mono m : antilap_mono RS (hm m) = hp (antilap_mono QS m).
Proof.
  unfold antilap_mono. change (malpha (hm m)) with (malpha m). set (o := morder (malpha m)).
  assert (E : sdiv RS (sdiv RS (sone RS) (sofZ RS 4)) (sofZ RS (Z.of_nat (1 + o)))
              = h (sdiv QS (sdiv QS (sone QS) (sofZ QS 4)) (sofZ QS (Z.of_nat (1 + o))))).
  { rewrite h_div, h_div, !h_ofZ, h_one; [reflexivity| |]; apply ofZ_nonzero; lia. }
  rewrite E. change (@nil (mono RS)) with (hp []).
  rewrite <- t_add_monomial, t_p_r2, t_pcopy, t_pmul, t_pscale.
  apply t_antilap_loop. assert (o / 2 <= o)%nat by (apply Nat.div_le_upper_bound; lia). lia.
Qed.

Lemma t_panti_laplacian p : panti_laplacian RS (hp p) = hp (panti_laplacian QS p).
Proof.
  unfold panti_laplacian. change (@nil (mono RS)) with (hp []). generalize (@nil (mono QS)).
  induction p as [|m p IH]; intros r; [reflexivity|].
  cbn [fold_left hp map]. fold (hp p). fold (hp r).
  rewrite <- IH, t_antilap_mono, t_piadd. reflexivity.
Qed.

Lemma t_m_eqb m n : m_eqb RS (hm m) (hm n) = m_eqb QS m n.
Proof.
  unfold m_eqb. cbn [hm malpha mcoef]. destruct (Nat.eqb _ _); [|reflexivity].
  rewrite h_ltb, h_abs, h_add, h_mul, h_ofZ, h_tol. reflexivity.
Qed.

Lemma t_peqb p q : peqb RS (hp p) (hp q) = peqb QS p q.
Proof.
  unfold peqb, peq. unfold hp at 1 2. rewrite !map_length. destruct (Nat.eqb _ _); [|reflexivity].
  cbn [snd]. rewrite !t_sort. generalize (psort QS q). generalize (psort QS p).
  intros l. induction l as [|m l IH]; intros [|n l']; try reflexivity.
  cbn [hp map combine forallb fst snd]. rewrite t_m_eqb. fold (hp l). fold (hp l').
  rewrite <- IH. reflexivity.
Qed.
