(** C71: the text of a polynomial determines it. *)
From Coq Require Import List String Ascii Arith Lia Reals Lra Permutation Sorted Decimal DecimalString DecimalNat DecimalFacts.
From Verif Require Import PyBase PolyModel PolySpec PolyProofs PrintModel PrintSpec.
Import ListNotations.
Open Scope string_scope.

Lemma app_assoc_s a b c : (a ++ b) ++ c = a ++ (b ++ c).
Proof. induction a as [|x a IH]; [reflexivity|]. cbn. rewrite IH. reflexivity. Qed.
Lemma app_nil_s a : a ++ "" = a.
Proof. induction a as [|x a IH]; [reflexivity|]. cbn. rewrite IH. reflexivity. Qed.
Lemma length_app_s a b : String.length (a ++ b) = (String.length a + String.length b)%nat.
Proof. induction a as [|x a IH]; [reflexivity|]. cbn. rewrite IH. reflexivity. Qed.
Lemma drop_app w s : drop w (w ++ s) = Some s.
Proof. induction w as [|a w IH]; [reflexivity|]. cbn. rewrite Ascii.eqb_refl. exact IH. Qed.

(** A text without a closing parenthesis *)
Fixpoint open_text (s : string) : Prop := match s with "" => True | String a s => a <> ")"%char /\ open_text s end.
Lemma until_app t s : open_text t -> until_close (t ++ ")" ++ s) = Some (t, s).
Proof. induction t as [|a t IH]; intros H; [reflexivity|]. cbn in *. destruct H as [N H]. apply Ascii.eqb_neq in N. rewrite N. cbn in IH. rewrite IH by exact H. reflexivity. Qed.

Definition ends_number (s : string) : Prop := match s with "" => True | String a _ => digit a = None end.
Lemma number_uint d : forall acc s, ends_number s -> number acc (NilEmpty.string_of_uint d ++ s) = (Nat.of_uint_acc d acc, s).
Proof.
  induction d; intros acc s H; cbn [NilEmpty.string_of_uint append Nat.of_uint_acc]; [destruct s as [|a s]; [reflexivity|]; cbn [number]; cbn in H; rewrite H; reflexivity|..];
    cbn [number]; (match goal with |- context [digit ?a] => let v := eval vm_compute in (digit a) in change (digit a) with v end); cbv beta iota; rewrite IHd by exact H; rewrite Nat.tail_mul_spec; f_equal; f_equal; lia.
Qed.
Lemma number_dec n s : ends_number s -> number 0 (dec n ++ s) = (n, s).
Proof.
  intros H. unfold dec, NilZero.string_of_uint. destruct (Nat.to_uint n) eqn:E; [apply (f_equal Nat.of_uint) in E as E0; rewrite Unsigned.of_to in E0; subst n; discriminate E|..]; rewrite number_uint by exact H; change (Nat.of_uint_acc ?d 0) with (Nat.of_uint d); rewrite <- E, Unsigned.of_to; reflexivity.
Qed.

Lemma power_app v n s : (v = "x" \/ v = "y") -> power v (power_repr v n ++ s) = Some (n, s).
Proof.
  intros V. unfold power_repr. destruct n as [|[|n]].
  - destruct V as [-> | ->]; reflexivity.
  - destruct V as [-> | ->]; reflexivity.
  - cbn [Nat.ltb Nat.leb]. unfold power. rewrite app_assoc_s, drop_app, app_assoc_s, drop_app, app_assoc_s, number_dec by reflexivity. rewrite drop_app. reflexivity.
Qed.
(** A number whose text has no closing parenthesis and can be read back, as the text of a float *)
Definition printable {C : Type} (show : C -> string) (parse : string -> option C) (c : C) : Prop := parse (show c) = Some c /\ open_text (show c).
Section Reading.
Variable sc : scal.
Variables (show : sc -> string) (parse : string -> option sc).
Definition plain (m : mono sc) : sc * nat * nat := (mcoef m, mx (malpha m), my (malpha m)).
Lemma term_app m s : printable show parse (mcoef m) -> term parse (mono_repr sc show m ++ s) = Some (plain m, s).
Proof.
  intros [Hp Ho]. unfold mono_repr, term. rewrite app_assoc_s, drop_app, app_assoc_s. change (") " ++ ?a) with (")" ++ (" " ++ a)). rewrite (app_assoc_s ")"), until_app by exact Ho. rewrite Hp, app_assoc_s, drop_app, app_assoc_s, power_app, power_app by auto. reflexivity.
Qed.
Fixpoint text (p : poly sc) : string := match p with [] => "" | m :: p => mono_repr sc show m ++ text p end.
Lemma fold_text p : forall acc, fold_left (fun msg m => msg ++ mono_repr sc show m) p acc = acc ++ text p.
Proof. induction p as [|m p IH]; intros acc; cbn [fold_left text]; [symmetry; apply app_nil_s|]. rewrite IH. apply app_assoc_s. Qed.
Lemma mono_long m : (7 <= String.length (mono_repr sc show m))%nat.
Proof. unfold mono_repr, power_repr. rewrite !length_app_s. cbn [String.length]. destruct (Nat.ltb 1 (mx (malpha m))), (Nat.ltb 1 (my (malpha m))); rewrite ?length_app_s; cbn [String.length]; lia. Qed.
Lemma terms_text p : (forall m, In m p -> printable show parse (mcoef m)) -> forall k, (String.length (text p) <= k)%nat -> terms parse k (text p) = Some (map plain p).
Proof.
  induction p as [|m p IH]; intros H k Hk; [destruct k; reflexivity|]. cbn [text map] in *. rewrite length_app_s in Hk. pose proof (mono_long m) as L. destruct k as [|k]; [lia|]. assert (E : exists a r, mono_repr sc show m ++ text p = String a r) by (unfold mono_repr; do 2 eexists; reflexivity).
  destruct E as (a & r & E). cbn [terms]. rewrite E. rewrite <- E. rewrite term_app by (apply H; left; reflexivity). unfold plain at 1. rewrite IH; [reflexivity|intros n I; apply H; right; exact I|lia].
Qed.

(** Reading the text gives the terms of the object as it is after printing. *)
Theorem C71_read p : (forall m, In m (fst (poly_repr sc show p)) -> printable show parse (mcoef m)) ->
  read parse (snd (poly_repr sc show p)) = Some (map plain (fst (poly_repr sc show p))).
Proof.
  unfold poly_repr. cbv zeta. cbn [fst snd]. destruct (psort sc p) as [|m l]; intros H; [reflexivity|]. rewrite fold_text. cbn [append]. unfold read. destruct (String.eqb_spec (text (m :: l)) "+ (0) ") as [E|_]; [|apply terms_text; [exact H|lia]].
  apply (f_equal String.length) in E. cbn [text] in E. rewrite length_app_s in E. pose proof (mono_long m). cbn [String.length] in E. lia.
Qed.
End Reading.
Print Assumptions C71_read.

Section Real.
Variables (show : RS -> string) (parse : string -> option RS).
Definition all_printable (p : rpoly) : Prop := forall m, In m p -> printable show parse (mcoef m).
Lemma read_sorted p : all_printable p -> read parse (snd (poly_repr RS show p)) = Some (map (plain RS) (psort RS p)).
Proof. intros H. apply (C71_read RS show parse p). intros m I. apply H. cbn [poly_repr fst] in I. exact (Permutation_in _ (Permutation_sym (psort_perm p)) I). Qed.
Lemma plain_inj (p q : rpoly) : map (plain RS) p = map (plain RS) q -> p = q.
Proof.
  revert q. induction p as [|m p IH]; intros [|n q] E; try discriminate; [reflexivity|]. cbn [map] in E. injection E as E1 E2 E3 E4. rewrite (IH q E4). f_equal. destruct m as [[a b] c], n as [[a' b'] c']. cbn in *. subst. reflexivity.
Qed.

(** Polynomials with the same text have the same terms, so the same coefficients and values. *)
Theorem C71_alike p q : all_printable p -> all_printable q -> snd (poly_repr RS show p) = snd (poly_repr RS show q) ->
  Permutation p q /\ (forall a b, coef p a b = coef q a b) /\ forall x y, value p x y = value q x y.
Proof.
  intros Hp Hq E. pose proof (read_sorted p Hp) as Rp. rewrite E, (read_sorted q Hq) in Rp. injection Rp as Rp. apply plain_inj in Rp. assert (P : Permutation p q) by (eapply Permutation_trans; [apply psort_perm|]; rewrite <- Rp; symmetry; apply psort_perm).
  split; [exact P|]. assert (C : forall a b, coef p a b = coef q a b) by (intros a b; apply coef_perm, P). split; [exact C|]. intros x y. apply value_coef_ext, C.
Qed.
(** Those that the library builds have the same text exactly when they have the same coefficients. *)
Theorem C71_same p q : canonical p -> canonical q -> all_printable p -> all_printable q ->
  (snd (poly_repr RS show p) = snd (poly_repr RS show q) <-> forall a b, coef p a b = coef q a b).
Proof.
  intros Cp Cq Hp Hq. split; [intros E; apply (C71_alike p q Hp Hq E)|]. intros E. rewrite (canonical_ext p q Cp Cq E). reflexivity.
Qed.
End Real.
Print Assumptions C71_alike.
Print Assumptions C71_same.

Lemma sort_fixed l : StronglySorted (fun m n => (ix m <= ix n)%nat) l -> forall r : rpoly, (forall a b, In a r -> In b l -> (ix a <= ix b)%nat) -> fold_left (fun r m => sink RS m r) l r = (List.rev l ++ r)%list.
Proof.
  induction 1 as [|m l Hl IH Hm]; intros r Hr; [reflexivity|]. cbn [fold_left List.rev]. rewrite <- app_assoc. cbn [app]. replace (sink RS m r) with (m :: r).
  - apply IH. intros a b [<-|Ia] Ib; [apply (proj1 (Forall_forall _ _) Hm), Ib|apply Hr; [exact Ia|right; exact Ib]].
  - destruct r as [|n r]; [reflexivity|]. cbn [sink]. unfold m_gtb. destruct (Nat.ltb_spec (midx (malpha m)) (midx (malpha n))) as [L|_]; [|reflexivity]. pose proof (Hr n m (or_introl eq_refl) (or_introl eq_refl)) as Q. unfold ix in Q. lia.
Qed.
Lemma psort_twice p : psort RS (psort RS p) = psort RS p.
Proof. unfold psort at 1. rewrite sort_fixed by (apply psort_sorted || intros a b []). rewrite List.app_nil_r. apply List.rev_involutive. Qed.

Lemma StronglySorted_impl {A} (P Q : A -> A -> Prop) l : (forall a b, P a b -> Q a b) -> StronglySorted P l -> StronglySorted Q l.
Proof. intros H. induction 1 as [|a l Hl IH Ha]; constructor; [exact IH|]. eapply Forall_impl; [|exact Ha]. intros b. apply H. Qed.
(** Printing only reorders the terms of the object; a second time the text is the same. The terms are
    in the order of their exponents. Objects that
    the library builds do not change. *)
Theorem C71_effect show p : let (p', s) := poly_str RS show p in
  Permutation p p' /\ StronglySorted (fun m n => ~ exp_lt (malpha n) (malpha m)) p' /\ (forall x y, value p' x y = value p x y) /\ poly_str RS show p' = (p', s) /\ (canonical p -> p' = p).
Proof.
  unfold poly_str, poly_repr. cbv zeta. split; [apply psort_perm|]. split; [eapply StronglySorted_impl; [|apply psort_sorted]; intros a b L X; apply midx_lt_iff in X; unfold ix in L; lia|]. split; [intros x y; apply value_coef_ext; intros a b; symmetry; apply coef_perm, psort_perm|]. split; [|apply psort_canonical]. rewrite psort_twice. reflexivity.
Qed.
Print Assumptions C71_effect.

(** ** Examples *)
Definition ex_show (c : RS) : string := if Req_EM_T c 2 then "2.0" else "-1.5".
Definition ex_parse (s : string) : option RS := if String.eqb s "2.0" then Some 2%R else if String.eqb s "-1.5" then Some (-3 / 2)%R else None.
Definition ex_poly : rpoly := [rmon 2 3 12; rmon (-3 / 2) 1 0; rmon 2 0 0].
Lemma ex_printable : all_printable ex_show ex_parse ex_poly.
Proof.
  intros m I. assert (Q : (mcoef m : R) = 2%R \/ (mcoef m : R) = (-3 / 2)%R) by (destruct I as [<-|[<-|[<-|[]]]]; cbn; auto). unfold printable, ex_show. destruct (Req_EM_T (mcoef m) 2) as [E|N].
  - split; [cbn; congruence|cbn; repeat split; discriminate].
  - destruct Q as [Q|Q]; [contradiction|]. split; [cbn; congruence|cbn; repeat split; discriminate].
Qed.
Example C71_example : snd (poly_repr RS ex_show ex_poly) = "+ (2.0)   + (-1.5) x  + (2.0) x^3 y^12 " /\
  read ex_parse "+ (2.0)   + (-1.5) x  + (2.0) x^3 y^12 " = Some [(2, 0%nat, 0%nat); (-3 / 2, 1%nat, 0%nat); (2, 3%nat, 12%nat)]%R.
Proof.
  assert (E : snd (poly_repr RS ex_show ex_poly) = "+ (2.0)   + (-1.5) x  + (2.0) x^3 y^12 ").
  { assert (S2 : ex_show 2%R = "2.0") by (unfold ex_show; destruct (Req_EM_T 2 2); [reflexivity|contradiction]). assert (S3 : ex_show (-3 / 2)%R = "-1.5") by (unfold ex_show; destruct (Req_EM_T (-3 / 2) 2); [lra|reflexivity]).
    change (snd (poly_repr RS ex_show ex_poly)) with ((("" ++ ("+ (" ++ ex_show 2%R ++ ")   ")) ++ ("+ (" ++ ex_show (-3 / 2)%R ++ ") x  ")) ++ ("+ (" ++ ex_show 2%R ++ ") x^3 y^12 ")). rewrite S2, S3. reflexivity. }
  split; [exact E|]. rewrite <- E. rewrite (read_sorted ex_show ex_parse ex_poly ex_printable). reflexivity.
Qed.
Example C71_zero_example show : snd (poly_repr RS show []) = "+ (0) ".
Proof. reflexivity. Qed.
