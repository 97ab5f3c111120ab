From Coq Require Import List ZArith Reals Lia Lra Bool.
From Verif Require Import PyBase PolyModel EdgeModel EdgeSpec ContourModel CellModel CellSpec CellProofs ContourProofs TraceModel TraceSpec.
Import List ListNotations.
Open Scope R_scope.

Lemma list_ext {A} (a : list A) : forall b, (forall c, nth_error a c = nth_error b c) -> a = b.
Proof. induction a as [|x a IH]; intros [|y b] H; [reflexivity|discriminate (H 0%nat)|discriminate (H 0%nat)|]. pose proof (H 0%nat) as E. injection E as ->. f_equal. apply IH. intros c. exact (H (S c)). Qed.
Lemma Forall2_nth_intro {A B} (P : A -> B -> Prop) l : forall l', List.length l = List.length l' -> (forall i a b, nth_error l i = Some a -> nth_error l' i = Some b -> P a b) -> Forall2 P l l'.
Proof. induction l as [|x l IH]; intros [|y l'] L H; try discriminate; constructor; [exact (H 0%nat x y eq_refl eq_refl)|]. apply IH; [cbn in L; lia|]. intros i a b. exact (H (S i) a b). Qed.
Definition sizes (es : list edge) : list Z := map open_num es.
Lemma ready_pos es : Forall sampleable es -> Forall (fun n => (0 <= n)%Z) (sizes es).
Proof. unfold sizes. induction 1 as [|e es [P N] F IH]; constructor; [unfold open_num; lia|exact IH]. Qed.
Lemma ready_param es : Forall sampleable es -> edges_param es = true.
Proof. intros F. apply forallb_forall. intros e I. rewrite Forall_forall in F. apply F, I. Qed.
Lemma well_ready es : Forall well_sampled es -> Forall sampleable es.
Proof. apply Forall_impl. intros e (P & _ & N & _). split; [exact P|lia]. Qed.

Lemma npts_total es : fold_left (fun s e => s + (e_npts e - 1))%Z es 0%Z = total (sizes es).
Proof.
  assert (G : forall es a, fold_left (fun s e => s + (e_npts e - 1))%Z es a = (a + total (sizes es))%Z).
  { clear. induction es as [|e es IH]; intros a; [unfold total; cbn; lia|]. cbn [fold_left sizes map]. rewrite IH. change (total (open_num e :: map open_num es)) with (open_num e + total (sizes es))%Z. unfold open_num. lia. }
  rewrite G. lia.
Qed.
Lemma idx_nth es : forall a k, (k < List.length es)%nat -> nth_error (sampled_indices a es) k = Some (a + total (firstn k (sizes es)), a + total (firstn (S k) (sizes es)))%Z.
Proof.
  induction es as [|e es IH]; intros a [|k] L; cbn [List.length] in L; try lia; cbn [sampled_indices nth_error sizes map].
  - do 2 f_equal; unfold total; cbn; [lia|unfold open_num; lia].
  - rewrite IH by lia. fold (sizes es). assert (T : forall l, total (open_num e :: l) = (e_npts e - 1 + total l)%Z) by reflexivity. rewrite !(firstn_cons _ (open_num e)), !T. f_equal. apply f_equal2; lia.
Qed.
Lemma idx_len es : forall a, List.length (sampled_indices a es) = List.length es.
Proof. induction es as [|e es IH]; intros a; [reflexivity|]. cbn. rewrite IH. reflexivity. Qed.

Definition sized (es : list edge) (o : option (list R)) : Prop := match o with Some a => Z.of_nat (List.length a) = total (sizes es) | None => True end.
Definition built (es : list edge) (t : trace) : Prop :=
  tr_edges t = es /\ tr_npts t = Some (total (sizes es)) /\ tr_idx t = Some (sampled_indices 0 es) /\ sized es (tr_vals t) /\ sized es (tr_wnd t) /\ sized es (tr_wtd t).

(** ** One block *)
Definition expand (e : edge) (x : tval) (b : list R) : Prop :=
  match x with VScal c => b = repeat c (Z.to_nat (open_num e)) | VArr l => Z.of_nat (List.length l) = open_num e /\ b = l | VOther => False end.
Lemma expand_len e x b : sampleable e -> expand e x b -> Z.of_nat (List.length b) = open_num e.
Proof. intros [_ N] X. unfold open_num in *. destruct x; cbn in X; [subst; rewrite repeat_length; unfold open_num; lia|destruct X as [L ->]; unfold open_num in L; exact L|contradiction]. Qed.
Lemma set_slice_fill {A} (p q r : list A) (c : A) a b : Z.to_nat a = List.length p -> Z.to_nat b = (List.length p + List.length q)%nat ->
  set_slice (p ++ q ++ r) a b [c] = Ok (p ++ repeat c (List.length q) ++ r).
Proof.
  intros Ha Hb. destruct (Nat.eq_dec (List.length q) 1) as [E|E]; [rewrite E; apply set_slice_block; auto|].
  unfold set_slice. rewrite Ha, Hb, !app_length, !Nat.min_l by lia. replace (List.length p + List.length q - List.length p)%nat with (List.length q) by lia. cbn [List.length]. rewrite (proj2 (Nat.eqb_neq 1 _)) by congruence.
  rewrite firstn_app, firstn_all, Nat.sub_diag, firstn_O, app_nil_r. rewrite app_assoc with (l := p) (m := q), skipn_app, skipn_all2 by (rewrite app_length; lia). rewrite app_length, Nat.sub_diag, skipn_O. reflexivity.
Qed.
Lemma put_block e x b (p z r : list R) s f : expand e x b -> sampleable e -> Z.of_nat (List.length z) = open_num e -> Z.to_nat s = List.length p -> Z.to_nat f = (List.length p + List.length z)%nat ->
  put_slice (p ++ z ++ r) s f x = Ok (p ++ b ++ r).
Proof.
  intros X R L Hs Hf. destruct x as [c|l|]; cbn [put_slice expand] in *; [subst b|destruct X as [Ll ->]|contradiction].
  - rewrite set_slice_fill by assumption. rewrite <- L, Nat2Z.id. reflexivity.
  - apply set_slice_block; auto. lia.
Qed.
Lemma validate_iff e x : (exists b, expand e x b) <-> validate_on_edge x (e_npts e - 1) = Ok tt.
Proof.
  destruct x as [c|l|]; cbn [expand validate_on_edge]; split; intros H; eauto; try discriminate; try (destruct H; contradiction).
  - destruct H as (b & L & _). unfold open_num in L. rewrite L, Z.eqb_refl. reflexivity.
  - destruct (Z.eqb_spec (Z.of_nat (List.length l)) (e_npts e - 1)); [exists l; split; [assumption|reflexivity]|discriminate].
Qed.
Lemma validate_err x n y : validate_on_edge x n = Err y -> y = ValueError.
Proof. destruct x; cbn; try congruence. destruct (Z.eqb _ _); congruence. Qed.

(** Blocks of the edges *)
Lemma off_len es bs : cut es bs -> forall k, Z.to_nat (total (firstn k (sizes es))) = List.length (concat (firstn k bs)).
Proof. intros C k. apply cut_nums in C. unfold sizes. rewrite (nums_off _ _ C), Nat2Z.id. reflexivity. Qed.
Lemma cut_total es bs : cut es bs -> Z.of_nat (List.length (concat bs)) = total (sizes es).
Proof. intros C. apply cut_nums in C. symmetry. exact (nums_all _ _ C). Qed.
Lemma cut_nth es bs k e : cut es bs -> nth_error es k = Some e -> exists b, nth_error bs k = Some b /\ Z.of_nat (List.length b) = open_num e.
Proof. intros C E. pose proof (Forall2_len _ _ _ C) as L. destruct (nth_error bs k) as [b|] eqn:B; [|apply nth_error_None in B; assert (k < List.length es)%nat by (apply nth_error_Some; congruence); lia]. exists b. split; [reflexivity|]. exact (Forall2_nth _ _ _ C _ _ _ E B). Qed.
Lemma place_nth es bs k b j : cut es bs -> nth_error bs k = Some b -> (j < List.length b)%nat -> nth_error (concat bs) (place es k j) = nth_error b j.
Proof.
  intros C B L. rewrite (concat_split bs k b B). unfold place. change (map open_num es) with (sizes es). rewrite (off_len es bs C k). rewrite nth_error_app2 by lia. replace (_ + j - _)%nat with j by lia. apply nth_error_app1, L.
Qed.
Lemma holds_blocks es bs (P : nat -> nat -> R -> Prop) : cut es bs -> (forall k b j x, nth_error bs k = Some b -> nth_error b j = Some x -> P k j x) -> holds es (concat bs) P.
Proof.
  intros C H. split; [apply cut_total, C|]. intros k e j E L. destruct (cut_nth es bs k e C E) as (b & B & Lb). assert (Lj : (j < List.length b)%nat) by lia. rewrite (place_nth es bs k b j C B Lj).
  destruct (nth_error b j) as [x|] eqn:X; [|apply nth_error_None in X; lia]. exists x. split; [reflexivity|]. exact (H k b j x B X).
Qed.

Lemma set_on_edge_ok es t k e x b (p z r : list R) : built es t -> nth_error es k = Some e -> sampleable e -> expand e x b -> Z.of_nat (List.length z) = open_num e ->
  List.length p = Z.to_nat (total (firstn k (sizes es))) -> Forall sampleable es -> set_on_edge t (p ++ z ++ r) (Z.of_nat k) x = Ok (p ++ b ++ r).
Proof.
  intros (Be & _ & Bi & _) E Re X L Lp F. assert (Lk : (k < List.length es)%nat) by (apply nth_error_Some; congruence). unfold set_on_edge. rewrite Be, Nat2Z.id.
  rewrite (proj2 (Z.ltb_ge _ _)) by lia. rewrite (proj2 (Z.leb_gt _ _)) by lia. cbn [orb]. unfold geti. rewrite E. cbn [bind]. rewrite (proj1 (validate_iff e x)) by eauto. cbn [bind]. rewrite Bi. cbn [attr bind]. rewrite idx_nth by exact Lk. cbn [bind fst snd].
  apply (put_block e); auto; rewrite Z.add_0_l. rewrite (firstn_snoc (sizes es) k (open_num e)) by (unfold sizes; rewrite nth_error_map, E; reflexivity). rewrite total_snoc, Z2Nat.inj_add; [rewrite <- Lp; lia| |lia].
  apply total_nonneg. apply Forall_forall. intros n I. pose proof (ready_pos es F) as Q. rewrite Forall_forall in Q. apply Q. rewrite <- (firstn_skipn k (sizes es)). apply in_or_app. left. exact I.
Qed.

Definition expands (es : list edge) (vs : list tval) (bs : list (list R)) : Prop :=
  List.length bs = List.length es /\ forall k e b, nth_error es k = Some e -> nth_error bs k = Some b -> exists x, nth_error vs k = Some x /\ expand e x b.
Lemma expands_cut es vs bs : Forall sampleable es -> expands es vs bs -> cut es bs.
Proof.
  intros F [L H]. unfold cut. revert bs vs L H. induction F as [|e es R F IH]; intros [|b bs] vs L H; try discriminate; constructor.
  - destruct (H 0%nat e b eq_refl eq_refl) as (x & _ & X). exact (expand_len e x b R X).
  - apply IH with (vs := tl vs); [cbn in L; lia|]. intros k e' b' E B. destruct (H (S k) e' b' E B) as (x & V & X). exists x. split; [|exact X]. destruct vs; [discriminate|exact V].
Qed.
Lemma tfill_ok es t v vs bs : Forall sampleable es -> built es t -> convert_values t v = Ok vs -> expands es vs bs -> tfill t v = Ok (concat bs).
Proof.
  intros F B Cv X. pose proof (expands_cut es vs bs F X) as C. destruct X as [L X]. unfold tfill. rewrite Cv. cbn [bind]. destruct B as (Be & Bn & Bi & Bv). rewrite Bn. cbn [attr bind]. rewrite Be, <- (cut_total es bs C), Nat2Z.id, <- L.
  apply fill_all. intros i b p z r Eb Lp Lz. assert (Li : (i < List.length bs)%nat) by (apply nth_error_Some; congruence). destruct (nth_error es i) as [e|] eqn:Ee; [|apply nth_error_None in Ee; lia].
  destruct (X i e b Ee Eb) as (x & Vx & Xx). unfold geti. rewrite Vx. cbn [bind]. assert (Re : sampleable e) by (rewrite Forall_forall in F; apply F; eapply nth_error_In; eauto).
  apply (set_on_edge_ok es t i e x b); auto; [exact (conj Be (conj Bn (conj Bi Bv)))|rewrite Lz; exact (expand_len e x b Re Xx)|rewrite (off_len es bs C i); exact Lp].
Qed.

(** ** The whole array *)
Definition says (es : list edge) (bs : list (list R)) (P : nat -> nat -> R -> Prop) : Prop := forall k b j x, nth_error bs k = Some b -> nth_error b j = Some x -> P k j x.
Lemma nth_repeat' {A} (c : A) n j x : nth_error (repeat c n) j = Some x -> x = c.
Proof. intros H. apply nth_error_In in H. exact (repeat_spec _ _ _ H). Qed.
Lemma idx_map {B} es (f : Z * Z -> B) k : nth_error (map f (sampled_indices 0 es)) k = if Nat.ltb k (List.length es) then Some (f (total (firstn k (sizes es)), total (firstn (S k) (sizes es)))) else None.
Proof.
  rewrite nth_error_map. destruct (Nat.ltb_spec k (List.length es)) as [L|L]; [rewrite idx_nth by exact L; reflexivity|]. rewrite (proj2 (nth_error_None _ _)); [reflexivity|]. rewrite idx_len. exact L.
Qed.
Lemma fits_blocks es t v : Forall sampleable es -> built es t -> fits es v -> exists vs bs, convert_values t v = Ok vs /\ expands es vs bs /\ says es bs (prescribed es v).
Proof.
  intros F (Be & Bn & Bi & _) H. destruct v as [[c|l|]|vs]; cbn [fits] in H; [| |contradiction|].
  - exists (map (fun _ => VScal c) es), (map (fun e => repeat c (Z.to_nat (open_num e))) es). split; [cbn [convert_values]; rewrite Be; reflexivity|]. split.
    + split; [apply map_length|]. intros k e b E B. exists (VScal c). rewrite !nth_error_map, E in *. injection B as <-. split; reflexivity.
    + intros k b j x B X. rewrite nth_error_map in B. destruct (nth_error es k); [|discriminate]. injection B as <-. cbn. exact (nth_repeat' _ _ _ _ X).
  - destruct (nums_cut (sizes es) l (ready_pos es F) H) as (bs & -> & C'). assert (C : cut es bs) by (apply cut_nums; exact C'). exists (map VArr bs), bs. split; [|split].
    + cbn [convert_values]. rewrite Bn. cbn [attr bind]. rewrite H, Z.eqb_refl, Bi. cbn [attr bind]. f_equal. apply list_ext. intros k. rewrite idx_map, nth_error_map. pose proof (Forall2_len _ _ _ C) as L. destruct (Nat.ltb_spec k (List.length es)) as [Lk|Lk].
      * destruct (nth_error bs k) as [b|] eqn:B; [|apply nth_error_None in B; lia]. cbn [fst snd option_map]. rewrite (nums_slice (sizes es) bs k b C' B). reflexivity.
      * rewrite (proj2 (nth_error_None _ _)) by lia. reflexivity.
    + split; [symmetry; exact (Forall2_len _ _ _ C)|]. intros k e b E B. exists (VArr b). rewrite nth_error_map, B. split; [reflexivity|]. split; [|reflexivity]. exact (Forall2_nth _ _ _ C _ _ _ E B).
    + intros k b j x B X. cbn [prescribed]. rewrite (place_nth es bs k b j C B); [exact X|]. apply nth_error_Some. congruence.
  - destruct H as [HA HL]. exists vs, (map (fun x => match x with VArr l => l | _ => [] end) (firstn (List.length es) vs)).
    assert (L : (List.length es <= List.length vs)%nat). { destruct (le_lt_dec (List.length es) (List.length vs)) as [|L]; [assumption|]. destruct (nth_error es (List.length vs)) as [e|] eqn:E; [|apply nth_error_None in E; lia]. destruct (HL _ _ E) as (l & X & _). assert (List.length vs < List.length vs)%nat by (apply nth_error_Some; congruence). lia. }
    assert (Q : forall k, (k < List.length es)%nat -> nth_error (firstn (List.length es) vs) k = nth_error vs k). { intros k Lk. rewrite <- (firstn_skipn (List.length es) vs) at 2. rewrite nth_error_app1; [reflexivity|rewrite firstn_length; lia]. }
    split; [|split].
    + cbn [convert_values]. rewrite (proj2 (forallb_forall _ _)); [reflexivity|]. intros x I. destruct (HA x I) as [l ->]. reflexivity.
    + split; [rewrite map_length, firstn_length; lia|]. intros k e b E B. assert (Lk : (k < List.length es)%nat) by (apply nth_error_Some; congruence). rewrite nth_error_map, Q in B by exact Lk. destruct (HL k e E) as (l & V & Ll). rewrite V in *. injection B as <-. exists (VArr l). split; [reflexivity|]. split; [exact Ll|reflexivity].
    + intros k b j x B X. rewrite nth_error_map in B. destruct (nth_error (firstn (List.length es) vs) k) as [y|] eqn:Y; [|discriminate]. assert (Lk : (k < List.length (firstn (List.length es) vs))%nat) by (apply nth_error_Some; congruence). rewrite firstn_length in Lk.
      rewrite Q in Y by lia. cbn [prescribed]. rewrite Y. destruct (HA y (nth_error_In _ _ Y)) as [l ->]. injection B as <-. exact X.
Qed.
Lemma set_slice_length {A} (l : list A) a b v l' : set_slice l a b v = Ok l' -> List.length l' = List.length l.
Proof.
  unfold set_slice. set (p := Nat.min (Z.to_nat a) (List.length l)). set (m := (Nat.min (Z.to_nat b) (List.length l) - p)%nat). assert (PM : (p <= List.length l /\ p + m <= List.length l)%nat) by lia. intros H.
  destruct (Nat.eqb_spec (List.length v) m) as [E|E]; [apply Ok_inj in H; subst; rewrite !app_length, firstn_length, skipn_length; lia|]. destruct v as [|c [|d v]]; try discriminate. apply Ok_inj in H. subst. rewrite !app_length, firstn_length, skipn_length, repeat_length. lia.
Qed.
Lemma put_slice_length l a b v l' : put_slice l a b v = Ok l' -> List.length l' = List.length l.
Proof. destruct v; cbn [put_slice]; try discriminate; apply set_slice_length. Qed.
Lemma set_on_edge_length t a k v a' : set_on_edge t a k v = Ok a' -> List.length a' = List.length a.
Proof.
  unfold set_on_edge. destruct (orb _ _); [discriminate|]. destruct (geti _ _); [|discriminate]. cbn [bind]. destruct (validate_on_edge _ _); [|discriminate]. cbn [bind]. destruct (attr _); [|discriminate]. cbn [bind]. destruct (geti _ _); [|discriminate]. cbn [bind]. apply put_slice_length.
Qed.
Lemma fold_res_pres {A B} (f : A -> B -> res A) (I : A -> Prop) l : (forall a b a', I a -> In b l -> f a b = Ok a' -> I a') -> forall a a', I a -> fold_res f l a = Ok a' -> I a'.
Proof.
  induction l as [|b l IH]; intros H a a' Ia E; cbn [fold_res] in E; [apply Ok_inj in E; subst; exact Ia|]. destruct (f a b) as [a1|] eqn:E1; [|discriminate]. cbn [bind] in E.
  apply (IH (fun a b a' Ia I => H a b a' Ia (or_intror I)) a1); [|exact E]. exact (H a b a1 Ia (or_introl eq_refl) E1).
Qed.
Lemma fold_res_steps {A B} (f : A -> B -> res A) l : forall a a', fold_res f l a = Ok a' -> forall b, In b l -> exists c c', f c b = Ok c'.
Proof.
  induction l as [|x l IH]; intros a a' E b I; [contradiction|]. cbn [fold_res] in E. destruct (f a x) as [a1|] eqn:E1; [|discriminate]. cbn [bind] in E. destruct I as [<-|I]; [eauto|]. exact (IH a1 a' E b I).
Qed.
Lemma fold_res_err {A B} (f : A -> B -> res A) (I : A -> Prop) (Q : exc -> Prop) l : (forall a b, I a -> In b l -> match f a b with Ok a' => I a' | Err y => Q y end) -> forall a y, I a -> fold_res f l a = Err y -> Q y.
Proof.
  induction l as [|b l IH]; intros H a y Ia E; cbn [fold_res] in E; [discriminate|]. pose proof (H a b Ia (or_introl eq_refl)) as Hb. destruct (f a b) as [a1|y1] eqn:E1; cbn [bind] in E.
  - apply (IH (fun a b Ia I => H a b Ia (or_intror I)) a1); assumption.
  - congruence.
Qed.

Lemma tfill_length es t v a : built es t -> Forall sampleable es -> tfill t v = Ok a -> Z.of_nat (List.length a) = total (sizes es).
Proof.
  intros (Be & Bn & _) F H. unfold tfill in H. destruct (convert_values t v) as [vs|]; [|discriminate]. cbn [bind] in H. rewrite Bn in H. cbn [attr bind] in H.
  assert (X : List.length a = Z.to_nat (total (sizes es))). { revert H. apply (fold_res_pres _ (fun a : list R => List.length a = Z.to_nat (total (sizes es)))); [|apply repeat_length]. intros b k b' Hb _ E. destruct (geti vs k); [|discriminate]. cbn [bind] in E. apply set_on_edge_length in E. congruence. }
  pose proof (total_nonneg _ (ready_pos es F)). lia.
Qed.
Lemma tfill_fits es t v a : Forall sampleable es -> built es t -> tfill t v = Ok a -> fits es v.
Proof.
  intros F B H. pose proof B as (Be & Bn & Bi & _). unfold tfill in H. destruct (convert_values t v) as [vs|] eqn:C; [|discriminate]. cbn [bind] in H. rewrite Bn in H. cbn [attr bind] in H. destruct v as [[c|l|]|vs']; cbn [convert_values fits] in *; [exact Logic.I| |discriminate|].
  - rewrite Bn in C. cbn [attr bind] in C. destruct (Z.eqb_spec (Z.of_nat (List.length l)) (total (sizes es))); [assumption|discriminate].
  - destruct (forallb _ vs') eqn:A; [|discriminate]. apply Ok_inj in C. subst vs. rewrite forallb_forall in A. split; [intros x I; specialize (A x I); destruct x; try discriminate; eauto|].
    intros k e E. assert (Lk : (k < List.length es)%nat) by (apply nth_error_Some; congruence). destruct (fold_res_steps _ _ _ _ H k) as (c & c' & S); [apply in_seq; rewrite Be; lia|]. unfold geti at 1 in S. destruct (nth_error vs' k) as [x|] eqn:X; [|discriminate]. cbn [bind] in S.
    specialize (A x (nth_error_In _ _ X)). destruct x as [|l|]; try discriminate. exists l. split; [reflexivity|]. unfold set_on_edge in S. rewrite Be, Nat2Z.id in S. destruct (orb _ _); [discriminate|]. unfold geti in S. rewrite E in S. cbn [bind validate_on_edge] in S. destruct (Z.eqb_spec (Z.of_nat (List.length l)) (e_npts e - 1)); [assumption|discriminate].
Qed.
Lemma tfill_err es t v y : Forall sampleable es -> built es t -> tfill t v = Err y -> y = ValueError \/ y = IndexError.
Proof.
  intros F B H. pose proof B as (Be & Bn & Bi & _). unfold tfill in H. destruct (convert_values t v) as [vs|y'] eqn:C; cbn [bind] in H.
  - rewrite Bn in H. cbn [attr bind] in H. revert H. apply (fold_res_err _ (fun a : list R => List.length a = Z.to_nat (total (sizes es))) (fun y => y = ValueError \/ y = IndexError)); [|apply repeat_length]. intros a k La I. apply in_seq in I. rewrite Be in I. unfold geti at 1. destruct (nth_error vs k) as [x|]; cbn [bind]; [|right; reflexivity].
    destruct (set_on_edge t a (Z.of_nat k) x) as [a'|y'] eqn:S; [apply set_on_edge_length in S; congruence|]. left.
    destruct (nth_error es k) as [e|] eqn:E; [|apply nth_error_None in E; lia]. assert (Re : sampleable e) by (rewrite Forall_forall in F; apply F; eapply nth_error_In; eauto).
    destruct (validate_on_edge x (e_npts e - 1)) as [[]|y2] eqn:V.
    + apply validate_iff in V. destruct V as [b X]. pose proof (ready_pos es F) as Q.
      destruct (nums_cut (sizes es) a Q) as (bs & -> & C'); [pose proof (total_nonneg _ Q); lia|]. assert (Cu : cut es bs) by (apply cut_nums; exact C'). destruct (cut_nth es bs k e Cu E) as (z & Z1 & Lz). rewrite (concat_split bs k z Z1) in S.
      rewrite (set_on_edge_ok es t k e x b) in S; auto; [discriminate|]. rewrite (off_len es bs Cu k). reflexivity.
    + unfold set_on_edge in S. rewrite Be, Nat2Z.id in S. destruct (orb _ _); [congruence|]. unfold geti in S. rewrite E in S. cbn [bind] in S. rewrite V in S. cbn [bind] in S. apply validate_err in V. congruence.
  - left. assert (y = y') by congruence. subst. destruct v as [[c|l|]|vs']; cbn [convert_values] in C; try congruence; [|destruct (forallb _ _); congruence]. rewrite Bn in C. cbn [attr bind] in C. destruct (Z.eqb _ _); [|congruence]. rewrite Bi in C. discriminate.
Qed.
Lemma tfill_spec es t v : Forall sampleable es -> built es t -> fits es v -> exists a, tfill t v = Ok a /\ holds es a (prescribed es v).
Proof.
  intros F B H. destruct (fits_blocks es t v F B H) as (vs & bs & C & X & S). exists (concat bs). split; [exact (tfill_ok es t v vs bs F B C X)|]. apply holds_blocks; [exact (expands_cut es vs bs F X)|exact S].
Qed.

(** ** Every reachable trace has its tables *)
Lemma init_built es : Forall sampleable es -> forall f, (do t <- (if edges_param es then do t <- find_num_pts (Trace es None None None None None None); find_edge_sampled_indices t else Ok (Trace es None None None None None None)); f t) =
  (f (Trace es (Some (total (sizes es))) (Some (sampled_indices 0 es)) None None None None) : res trace).
Proof. intros F f. unfold find_num_pts, find_edge_sampled_indices. cbn [tr_edges]. rewrite (ready_param es F). cbn [bind tr_edges]. rewrite (ready_param es F), npts_total. reflexivity. Qed.
Lemma custom_ok es : Forall sampleable es -> mk_trace (Some es) true None None = Ok (Trace es (Some (total (sizes es))) (Some (sampled_indices 0 es)) None None None None).
Proof. intros F. unfold mk_trace. cbv zeta. rewrite (init_built es F). reflexivity. Qed.
Lemma blank_built es : built es (Trace es (Some (total (sizes es))) (Some (sampled_indices 0 es)) None None None None).
Proof. repeat split. Qed.
Lemma built_vals es t v t' : Forall sampleable es -> built es t -> set_trace_values t v = Ok t' -> built es t' /\ exists a, tfill t v = Ok a /\ t' = with_vals t a.
Proof. intros F B H. unfold set_trace_values in H. destruct (tfill t v) as [a|] eqn:E; [|discriminate]. cbn [bind] in H. apply Ok_inj in H. subst t'. pose proof (tfill_length es t v a B F E). destruct B as (B1 & B2 & B3 & B4 & B5 & B6). split; [repeat split; assumption|eauto]. Qed.
Lemma built_wnd es t v t' : Forall sampleable es -> built es t -> set_wnd t v = Ok t' -> built es t' /\ exists a, tfill t v = Ok a /\ t' = with_wnd t a.
Proof. intros F B H. unfold set_wnd in H. destruct (tfill t v) as [a|] eqn:E; [|discriminate]. cbn [bind] in H. apply Ok_inj in H. subst t'. pose proof (tfill_length es t v a B F E). destruct B as (B1 & B2 & B3 & B4 & B5 & B6). split; [repeat split; assumption|eauto]. Qed.
Lemma built_wtd es t v t' : Forall sampleable es -> built es t -> set_wtd t v = Ok t' -> built es t' /\ exists a, tfill t v = Ok a /\ t' = with_wtd t a.
Proof. intros F B H. unfold set_wtd in H. destruct (tfill t v) as [a|] eqn:E; [|discriminate]. cbn [bind] in H. apply Ok_inj in H. subst t'. pose proof (tfill_length es t v a B F E). destruct B as (B1 & B2 & B3 & B4 & B5 & B6). split; [repeat split; assumption|eauto]. Qed.
Lemma with_funcs_built es t l : built es t -> built es (with_funcs t l).
Proof. intros (B1 & B2 & B3 & B4 & B5 & B6). repeat split; assumption. Qed.

Definition fv_step (fs : list (R -> R -> R)) (es : list edge) (a : list R) (k : nat) : res (list R) :=
  do se <- geti (sampled_indices 0 es) k; do e <- geti es k; do f <- geti fs k; do v <- evaluate_function f true e; put_slice a (fst se) (snd se) (VArr v).
Lemma find_values_eq es t fs : Forall sampleable es -> built es t -> tr_funcs t = Some fs ->
  find_values t = do a <- fold_res (fv_step fs es) (seq 0 (List.length es)) (repeat 0 (Z.to_nat (total (sizes es)))); Ok (with_vals t a).
Proof.
  intros F (B1 & B2 & B3 & _) E. unfold find_values. rewrite E, B1, (ready_param es F). unfold find_num_pts, find_edge_sampled_indices. rewrite B1, (ready_param es F). cbn [bind tr_edges]. rewrite (ready_param es F), npts_total. cbn [bind tr_edges tr_npts attr tr_idx].
  destruct t. cbn [TraceModel.tr_edges TraceModel.tr_npts TraceModel.tr_idx TraceModel.tr_vals TraceModel.tr_wnd TraceModel.tr_wtd TraceModel.tr_funcs] in *. subst. reflexivity.
Qed.
Lemma find_values_built es t t' : Forall sampleable es -> built es t -> find_values t = Ok t' -> built es t' /\ exists a, t' = with_vals t a.
Proof.
  intros F B H. destruct (tr_funcs t) as [fs|] eqn:E; [|unfold find_values in H; rewrite E in H; discriminate]. rewrite (find_values_eq es t fs F B E) in H. destruct (fold_res _ _ _) as [a|] eqn:G; [|discriminate]. cbn [bind] in H. apply Ok_inj in H. subst t'. split; [|eauto].
  assert (L : List.length a = Z.to_nat (total (sizes es))). { revert G. apply (fold_res_pres _ (fun a : list R => List.length a = Z.to_nat (total (sizes es)))); [|apply repeat_length]. intros b k b' Hb _ S. unfold fv_step in S.
    destruct (geti _ _); [|discriminate]; cbn [bind] in S. destruct (geti _ _); [|discriminate]; cbn [bind] in S. destruct (geti _ _); [|discriminate]; cbn [bind] in S. destruct (evaluate_function _ _ _); [|discriminate]; cbn [bind] in S. apply put_slice_length in S. congruence. }
  pose proof (total_nonneg _ (ready_pos es F)). destruct B as (B1 & B2 & B3 & B4 & B5 & B6). repeat split; try assumption. cbn. lia.
Qed.
Lemma set_funcs_built es t f c t' : Forall sampleable es -> built es t -> set_funcs t f c = Ok t' -> built es t'.
Proof.
  intros F B. unfold set_funcs. assert (G : forall l, store_funcs t l c = Ok t' -> built es t').
  { intros l H. unfold store_funcs in H. cbv zeta in H. destruct (forallb _ l); [|discriminate]. destruct (Nat.eqb _ _); [|discriminate]. pose proof (with_funcs_built es t (map fcall l) B) as B'. destruct (andb _ _); [|apply Ok_inj in H; subst; exact B']. exact (proj1 (find_values_built es _ t' F B' H)). }
  destruct f as [[p|g|]|l]; intros H; try discriminate; exact (G _ H).
Qed.
Lemma set_func_on_edge_built es t k f b c t' : Forall sampleable es -> built es t -> set_func_on_edge t k f b c = Ok t' -> built es t'.
Proof.
  intros F B H. unfold set_func_on_edge in H. destruct k as [k|]; [|discriminate]. destruct (orb _ _); [discriminate|]. destruct (attr _) as [fs|]; [|discriminate]. cbn [bind] in H. destruct (Nat.ltb _ _); [|discriminate].
  match type of H with (if _ then find_values ?u else _) = _ => pose proof (with_funcs_built es t _ B : built es u) as B' end. destruct (andb _ _); [|apply Ok_inj in H; subst; exact B']. exact (proj1 (find_values_built es _ t' F B' H)).
Qed.
Lemma set_edge_built es t k v t' : Forall sampleable es -> built es t -> set_trace_values_on_edge t k v = Ok t' -> built es t'.
Proof.
  intros F B H. unfold set_trace_values_on_edge in H. destruct (orb _ _); [discriminate|]. destruct (geti _ _) as [e0|]; [|discriminate]; cbn [bind] in H. destruct (validate_on_edge _ _) as [u0|]; [|discriminate]; cbn [bind] in H. destruct (attr (tr_idx t)) as [i0|]; [|discriminate]; cbn [bind] in H.
  destruct (tr_vals t) as [a|] eqn:V; [|discriminate]. cbn [attr bind] in H. destruct (set_on_edge t a k v) as [a'|] eqn:S; [|discriminate]. cbn [bind] in H. apply Ok_inj in H. subst. apply set_on_edge_length in S. destruct B as (B1 & B2 & B3 & B4 & B5 & B6). rewrite V in B4. cbn in B4. repeat split; try assumption. cbn. congruence.
Qed.
Lemma tr_add_built es s o t : Forall sampleable es -> built es s -> tr_add s o = Ok t -> built es t.
Proof.
  intros F B H. unfold tr_add in H. rewrite (proj1 B) in H. destruct (Nat.eqb _ _); [|discriminate]. rewrite (custom_ok es F) in H. cbn [bind] in H. destruct (attr (tr_vals s)); [|discriminate]; cbn [bind] in H. destruct (attr (tr_vals o)); [|discriminate]; cbn [bind] in H. destruct (np_add _ _) as [c|]; [|discriminate]; cbn [bind] in H.
  destruct (set_trace_values _ _) as [n|] eqn:E1; [|discriminate]; cbn [bind] in H. apply (built_vals es) in E1; [|exact F|apply blank_built]. destruct E1 as [B1 _].
  assert (G : forall n', match both (tr_wnd s) (tr_wnd o) with None => Ok n | Some ab => do c <- np_add (fst ab) (snd ab); set_wnd n (One (VArr c)) end = Ok n' -> built es n').
  { intros n' E. destruct (both _ _) as [ab|]; [|apply Ok_inj in E; subst; exact B1]. destruct (np_add _ _); [|discriminate]. cbn [bind] in E. exact (proj1 (built_wnd es _ _ _ F B1 E)). }
  destruct (match both (tr_wnd s) (tr_wnd o) with None => _ | Some _ => _ end) as [n'|]; [|discriminate]. cbn [bind] in H. specialize (G n' eq_refl). destruct (both _ _) as [ab|]; [|apply Ok_inj in H; subst; exact G]. destruct (np_add _ _); [|discriminate]. cbn [bind] in H. exact (proj1 (built_wtd es _ _ _ F G H)).
Qed.
Lemma tr_map_built es f s t : Forall sampleable es -> built es s -> tr_map f s = Ok t -> built es t.
Proof.
  intros F B H. unfold tr_map in H. rewrite (proj1 B) in H. rewrite (custom_ok es F) in H. cbn [bind] in H. destruct (attr (tr_vals s)); [|discriminate]; cbn [bind] in H.
  destruct (set_trace_values _ _) as [n|] eqn:E1; [|discriminate]; cbn [bind] in H. apply (built_vals es) in E1; [|exact F|apply blank_built]. destruct E1 as [B1 _].
  assert (G : forall n', match tr_wnd s with None => Ok n | Some a => set_wnd n (One (VArr (map f a))) end = Ok n' -> built es n').
  { intros n' E. destruct (tr_wnd s); [|apply Ok_inj in E; subst; exact B1]. exact (proj1 (built_wnd es _ _ _ F B1 E)). }
  destruct (match tr_wnd s with None => _ | Some _ => _ end) as [n'|]; [|discriminate]. cbn [bind] in H. specialize (G n' eq_refl). destruct (tr_wtd s); [|apply Ok_inj in H; subst; exact G]. exact (proj1 (built_wtd es _ _ _ F G H)).
Qed.
Lemma reach_built es t : Forall sampleable es -> reach es t -> built es t.
Proof.
  intros F. induction 1 as [c f v t H|t v t' R IH H|t v t' R IH H|t v t' R IH H|t k v t' R IH H|t f c t' R IH H|t k f b c t' R IH H|t f t' R IH H|s o t R IH H|s c t R IH H|s c t R IH H|s o t R IH H].
  - unfold mk_trace in H. cbv zeta in H. rewrite (init_built es F) in H. destruct c; [apply Ok_inj in H; subst; apply blank_built|]. destruct v as [v|]; [exact (proj1 (built_vals es _ _ _ F (blank_built es) H))|]. destruct f as [f|]; [exact (set_funcs_built es _ _ _ _ F (blank_built es) H)|]. apply Ok_inj in H. subst. apply with_funcs_built, blank_built.
  - exact (proj1 (built_vals es _ _ _ F IH H)).
  - exact (proj1 (built_wnd es _ _ _ F IH H)).
  - exact (proj1 (built_wtd es _ _ _ F IH H)).
  - exact (set_edge_built es _ _ _ _ F IH H).
  - exact (set_funcs_built es _ _ _ _ F IH H).
  - exact (set_func_on_edge_built es _ _ _ _ _ _ F IH H).
  - unfold set_funcs_from_polys in H. destruct f as [[| |]|l]; try discriminate. destruct (forallb _ l); [|discriminate]. destruct l; [|discriminate]. exact (set_funcs_built es _ _ _ _ F IH H).
  - exact (tr_add_built es _ _ _ F IH H).
  - unfold tr_mul in H. destruct c; [|discriminate]. exact (tr_map_built es _ _ _ F IH H).
  - unfold tr_div in H. destruct c; [|discriminate]. destruct (Req_EM_T _ _); [discriminate|]. exact (tr_map_built es _ _ _ F IH H).
  - unfold tr_sub in H. destruct (tr_mul o _); [|discriminate]. cbn [bind] in H. exact (tr_add_built es _ _ _ F IH H).
Qed.

(** ** Functions *)
Definition with_len (es : list edge) (t : trace) : Prop := match tr_funcs t with Some fs => List.length fs = List.length es | None => True end.
Lemma add_funcs es s o t : Forall sampleable es -> built es s -> tr_add s o = Ok t -> tr_funcs t = None.
Proof.
  intros F B H. unfold tr_add in H. rewrite (proj1 B) in H. destruct (Nat.eqb _ _); [|discriminate]. rewrite (custom_ok es F) in H. cbn [bind] in H. destruct (attr (tr_vals s)); [|discriminate]; cbn [bind] in H. destruct (attr (tr_vals o)); [|discriminate]; cbn [bind] in H. destruct (np_add _ _) as [c|]; [|discriminate]; cbn [bind] in H.
  unfold set_trace_values, set_wnd, set_wtd in H. destruct (tfill _ _); [|discriminate]. cbn [bind] in H. destruct (both _ _); [destruct (np_add _ _); [|discriminate]; cbn [bind] in H; destruct (tfill _ _); [|discriminate]|]; cbn [bind] in H; (destruct (both _ _); [destruct (np_add _ _); [|discriminate]; cbn [bind] in H; destruct (tfill _ _); [|discriminate]|]); cbn [bind] in H; apply Ok_inj in H; subst; reflexivity.
Qed.
Lemma map_funcs es f s t : Forall sampleable es -> built es s -> tr_map f s = Ok t -> tr_funcs t = None.
Proof.
  intros F B H. unfold tr_map in H. rewrite (proj1 B) in H. rewrite (custom_ok es F) in H. cbn [bind] in H. destruct (attr (tr_vals s)); [|discriminate]; cbn [bind] in H.
  unfold set_trace_values, set_wnd, set_wtd in H. destruct (tfill _ _); [|discriminate]. cbn [bind] in H. destruct (tr_wnd s); [destruct (tfill _ _); [|discriminate]|]; cbn [bind] in H; (destruct (tr_wtd s); [destruct (tfill _ _); [|discriminate]|]); cbn [bind] in H; apply Ok_inj in H; subst; reflexivity.
Qed.
Lemma set_funcs_len es t f c t' : Forall sampleable es -> built es t -> set_funcs t f c = Ok t' -> with_len es t'.
Proof.
  intros F B. unfold set_funcs. assert (G : forall l, store_funcs t l c = Ok t' -> with_len es t').
  { intros l H. unfold store_funcs in H. cbv zeta in H. destruct (forallb _ l); [|discriminate]. destruct (Nat.eqb_spec (List.length l) (List.length (tr_edges t))) as [E|]; [|discriminate]. rewrite (proj1 B) in E. pose proof (with_funcs_built es t (map fcall l) B) as B'. unfold with_len. destruct (andb _ _).
    - destruct (find_values_built es _ t' F B' H) as (_ & a & ->). cbn. rewrite map_length. exact E.
    - apply Ok_inj in H. subst. cbn. rewrite map_length. exact E. }
  destruct f as [[p|g|]|l]; intros H; try discriminate; exact (G _ H).
Qed.
Lemma reach_len es t : Forall sampleable es -> reach es t -> with_len es t.
Proof.
  intros F. induction 1 as [c f v t H|t v t' R IH H|t v t' R IH H|t v t' R IH H|t k v t' R IH H|t f c t' R IH H|t k f b c t' R IH H|t f t' R IH H|s o t R IH H|s c t R IH H|s c t R IH H|s o t R IH H]; try (pose proof (reach_built es _ F R) as B).
  - unfold mk_trace in H. cbv zeta in H. rewrite (init_built es F) in H. destruct c; [apply Ok_inj in H; subst; exact Logic.I|]. destruct v as [v|]; [apply (built_vals es) in H; [|exact F|apply blank_built]; destruct H as (_ & a & _ & ->); exact Logic.I|]. destruct f as [f|]; [exact (set_funcs_len es _ _ _ _ F (blank_built es) H)|]. apply Ok_inj in H. subst. cbn. apply map_length.
  - apply (built_vals es) in H; auto. destruct H as (_ & a & _ & ->). exact IH.
  - apply (built_wnd es) in H; auto. destruct H as (_ & a & _ & ->). exact IH.
  - apply (built_wtd es) in H; auto. destruct H as (_ & a & _ & ->). exact IH.
  - unfold set_trace_values_on_edge in H. destruct (orb _ _); [discriminate|]. destruct (geti _ _); [|discriminate]; cbn [bind] in H. destruct (validate_on_edge _ _); [|discriminate]; cbn [bind] in H. destruct (attr (tr_idx t)); [|discriminate]; cbn [bind] in H. destruct (attr (tr_vals t)); [|discriminate]; cbn [bind] in H. destruct (set_on_edge _ _ _ _); [|discriminate]. cbn [bind] in H. apply Ok_inj in H. subst. exact IH.
  - exact (set_funcs_len es _ _ _ _ F B H).
  - unfold set_func_on_edge in H. destruct k as [k|]; [|discriminate]. destruct (orb _ _); [discriminate|]. unfold with_len in IH. destruct (tr_funcs t) as [fs|]; [|discriminate]. cbn [attr bind] in H. destruct (Nat.ltb_spec (Z.to_nat k) (List.length fs)) as [L|]; [|discriminate].
    assert (Q : List.length (firstn (Z.to_nat k) fs ++ f :: skipn (S (Z.to_nat k)) fs) = List.length es) by (rewrite app_length, firstn_length; cbn [List.length]; rewrite skipn_length; lia).
    match type of H with (if _ then find_values ?u else _) = _ => pose proof (with_funcs_built es t _ B : built es u) as B' end. unfold with_len. destruct (andb _ _); [destruct (find_values_built es _ t' F B' H) as (_ & a & ->); exact Q|apply Ok_inj in H; subst; exact Q].
  - unfold set_funcs_from_polys in H. destruct f as [[| |]|l]; try discriminate. destruct (forallb _ l); [|discriminate]. destruct l; [|discriminate]. exact (set_funcs_len es _ _ _ _ F B H).
  - unfold with_len. rewrite (add_funcs es s o t F B H). exact Logic.I.
  - unfold tr_mul in H. destruct c; [|discriminate]. unfold with_len. rewrite (map_funcs es _ s t F B H). exact Logic.I.
  - unfold tr_div in H. destruct c; [|discriminate]. destruct (Req_EM_T _ _); [discriminate|]. unfold with_len. rewrite (map_funcs es _ s t F B H). exact Logic.I.
  - unfold tr_sub in H. destruct (tr_mul o _); [|discriminate]. cbn [bind] in H. unfold with_len. rewrite (add_funcs es s _ t F B H). exact Logic.I.
Qed.

Lemma eval_blocks es fs : Forall well_sampled es -> List.length fs = List.length es ->
  exists bs, cut es bs /\ (forall t, built es t -> tr_funcs t = Some fs -> find_values t = Ok (with_vals t (concat bs))) /\
  (forall k b j x, nth_error bs k = Some b -> nth_error b j = Some x -> exists e s f, nth_error es k = Some e /\ nth_error (e_smp e) j = Some s /\ nth_error fs k = Some f /\ x = f (fst (sx s)) (snd (sx s))).
Proof.
  intros W L. set (g := fun ef : edge * (R -> R -> R) => map (at_smp (snd ef)) (open_smp (fst ef))). exists (map g (combine es fs)).
  assert (N : forall k b, nth_error (map g (combine es fs)) k = Some b -> exists e f, nth_error es k = Some e /\ nth_error fs k = Some f /\ b = map (at_smp f) (open_smp e)).
  { clear W. revert fs L. induction es as [|e es IH]; intros [|f fs] L k b H; try (destruct k; discriminate). destruct k as [|k]; [injection H as <-; exists e, f; repeat split|]. apply (IH fs); [cbn in L; lia|exact H]. }
  assert (C : cut es (map g (combine es fs))).
  { unfold cut. clear N. revert fs L. induction W as [|e es We W IH]; intros [|f fs] L; try discriminate; constructor; [|apply IH; cbn in L; lia]. unfold g. cbn [fst snd]. rewrite map_length. exact (proj2 (open_pos e We)). }
  split; [exact C|split].
  - intros t B E. rewrite (find_values_eq es t fs (well_ready es W) B E). rewrite <- (cut_total _ _ C), Nat2Z.id. assert (Lb : List.length (map g (combine es fs)) = List.length es) by (rewrite map_length, combine_length; lia). rewrite <- Lb at 1. rewrite fill_all; [reflexivity|].
    intros i v p z r Ev Lp Lz. destruct (N i v Ev) as (e & f & Ee & Ef & ->). assert (We : well_sampled e) by (rewrite Forall_forall in W; apply W; eapply nth_error_In; eauto). pose proof (open_pos e We) as [_ Lo]. assert (Li : (i < List.length es)%nat) by (apply nth_error_Some; congruence).
    unfold fv_step, geti. rewrite idx_nth by exact Li. cbn [bind fst snd]. rewrite Ee, Ef. cbn [bind]. unfold evaluate_function. destruct We as (P & Lw & N3 & Wp). rewrite P. cbn [bind].
    replace (firstn (Z.to_nat (e_npts e - 1)) (e_smp e)) with (open_smp e) by (unfold open_smp; rewrite removelast_firstn_len; f_equal; lia). fold (at_smp f).
    change (map (fun s => f (fst (sx s)) (snd (sx s))) (open_smp e)) with (map (at_smp f) (open_smp e)).
    apply (put_block e); [split; [rewrite map_length; exact Lo|reflexivity]|split; [exact P|lia]|rewrite Lz, map_length; exact Lo| |].
    + rewrite Z.add_0_l, (off_len es _ C i). congruence.
    + rewrite Z.add_0_l, (off_len es _ C (S i)), (firstn_snoc _ i _ Ev), concat_app, app_length. cbn [concat]. rewrite app_nil_r. congruence.
  - intros k b j x B X. destruct (N k b B) as (e & f & Ee & Ef & ->). rewrite nth_error_map in X. destruct (nth_error (open_smp e) j) as [s|] eqn:S; [|discriminate]. injection X as <-. exists e, s, f. repeat split; try assumption.
    unfold open_smp in S. rewrite removelast_firstn_len in S. assert (Lj : (j < List.length (firstn (pred (List.length (e_smp e))) (e_smp e)))%nat) by (apply nth_error_Some; congruence). rewrite <- (firstn_skipn (pred (List.length (e_smp e))) (e_smp e)), nth_error_app1 by exact Lj. exact S.
Qed.

Definition sample_value (es : list edge) (fs : list (R -> R -> R)) (k j : nat) (x : R) : Prop :=
  exists e s f, nth_error es k = Some e /\ nth_error (e_smp e) j = Some s /\ nth_error fs k = Some f /\ x = f (fst (sx s)) (snd (sx s)).
Lemma find_values_spec es t fs : Forall well_sampled es -> built es t -> tr_funcs t = Some fs -> List.length fs = List.length es ->
  exists a, find_values t = Ok (with_vals t a) /\ holds es a (sample_value es fs).
Proof. intros W B E L. destruct (eval_blocks es fs W L) as (bs & C & V & S). exists (concat bs). split; [exact (V t B E)|]. apply holds_blocks; [exact C|exact S]. Qed.
Lemma holds_imp es a (P Q : nat -> nat -> R -> Prop) : (forall k j x, P k j x -> Q k j x) -> holds es a P -> holds es a Q.
Proof. intros I [L H]. split; [exact L|]. intros k e j E Lj. destruct (H k e j E Lj) as (x & X & Px). exists x. auto. Qed.

(** ** Arithmetic *)
Lemma tfill_arr es t l : Forall sampleable es -> built es t -> Z.of_nat (List.length l) = total (sizes es) -> tfill t (One (VArr l)) = Ok l.
Proof.
  intros F B H. destruct (nums_cut (sizes es) l (ready_pos es F) H) as (bs & -> & C'). assert (C : cut es bs) by (apply cut_nums; exact C'). apply (tfill_ok es t _ (map VArr bs)); auto.
  - destruct B as (Be & Bn & Bi & _). cbn [convert_values]. rewrite Bn. cbn [attr bind]. rewrite H, Z.eqb_refl, Bi. cbn [attr bind]. f_equal. apply list_ext. intros k. rewrite idx_map, nth_error_map. pose proof (Forall2_len _ _ _ C) as L. destruct (Nat.ltb_spec k (List.length es)) as [Lk|Lk].
    + destruct (nth_error bs k) as [b|] eqn:Bk; [|apply nth_error_None in Bk; lia]. cbn [fst snd option_map]. rewrite (nums_slice (sizes es) bs k b C' Bk). reflexivity.
    + rewrite (proj2 (nth_error_None _ _)) by lia. reflexivity.
  - split; [symmetry; exact (Forall2_len _ _ _ C)|]. intros k e b E Bk. exists (VArr b). rewrite nth_error_map, Bk. split; [reflexivity|]. split; [|reflexivity]. exact (Forall2_nth _ _ _ C _ _ _ E Bk).
Qed.
Definition zip (f : R -> R -> R) (a b : list R) : list R := map (fun p => f (fst p) (snd p)) (combine a b).
Lemma zip_len f a b : List.length a = List.length b -> List.length (zip f a b) = List.length a.
Proof. intros L. unfold zip. rewrite map_length, combine_length. lia. Qed.
Lemma np_add_zip a b : List.length a = List.length b -> np_add a b = Ok (zip Rplus a b).
Proof. intros L. unfold np_add. rewrite L, Nat.eqb_refl. reflexivity. Qed.
Definition ozip (a b : option (list R)) : option (list R) := match a, b with Some a, Some b => Some (zip Rplus a b) | _, _ => None end.
Definition made es v n w : trace := Trace es (Some (total (sizes es))) (Some (sampled_indices 0 es)) (Some v) n w None.
Lemma tr_add_closed es es' s o a b : Forall sampleable es -> built es s -> built es' o -> List.length es = List.length es' -> total (sizes es) = total (sizes es') ->
  tr_vals s = Some a -> tr_vals o = Some b -> tr_add s o = Ok (made es (zip Rplus a b) (ozip (tr_wnd s) (tr_wnd o)) (ozip (tr_wtd s) (tr_wtd o))).
Proof.
  intros F B B' Le Lt Ea Eb. pose proof B as (B1 & _ & _ & S1 & S2 & S3). pose proof B' as (O1 & _ & _ & T1 & T2 & T3). unfold sized in S1, S2, S3, T1, T2, T3. rewrite Ea in S1. rewrite Eb in T1. rewrite <- Lt in T1, T2, T3.
  unfold tr_add. rewrite B1, O1, <- Le, Nat.eqb_refl, (custom_ok es F). cbn [bind]. rewrite Ea, Eb. cbn [attr bind]. rewrite np_add_zip by lia. cbn [bind]. unfold set_trace_values.
  rewrite (tfill_arr es) by (auto using blank_built; rewrite zip_len by lia; assumption). cbn [bind]. set (n := with_vals _ _). assert (Bn : built es n) by (repeat split; cbn; rewrite zip_len by lia; assumption). unfold set_wnd, set_wtd, both, ozip.
  assert (X : match (match tr_wnd s with Some a0 => match tr_wnd o with Some b0 => Some (a0, b0) | None => None end | None => None end) with None => Ok n | Some ab => do c <- np_add (fst ab) (snd ab); do a0 <- tfill n (One (VArr c)); Ok (with_wnd n a0) end
    = Ok (made es (zip Rplus a b) (ozip (tr_wnd s) (tr_wnd o)) None)).
  { destruct (tr_wnd s) as [p|]; [|reflexivity]. destruct (tr_wnd o) as [q|]; [|reflexivity]. cbn [fst snd]. rewrite np_add_zip by lia. cbn [bind]. rewrite (tfill_arr es) by (auto; rewrite zip_len by lia; assumption). reflexivity. }
  rewrite X. clear X. cbn [bind]. set (m := made _ _ _ _). assert (Bm : built es m). { repeat split; cbn; [rewrite zip_len by lia; assumption|]. destruct (tr_wnd s), (tr_wnd o); cbn; auto. rewrite zip_len by lia. assumption. }
  destruct (tr_wtd s) as [p|]; [|reflexivity]. destruct (tr_wtd o) as [q|]; [|reflexivity]. cbn [fst snd]. rewrite np_add_zip by lia. cbn [bind]. rewrite (tfill_arr es) by (auto; rewrite zip_len by lia; assumption). reflexivity.
Qed.
Lemma tr_map_closed es f s a : Forall sampleable es -> built es s -> tr_vals s = Some a -> tr_map f s = Ok (made es (map f a) (option_map (map f) (tr_wnd s)) (option_map (map f) (tr_wtd s))).
Proof.
  intros F B Ea. pose proof B as (B1 & _ & _ & S1 & S2 & S3). unfold sized in S1, S2, S3. rewrite Ea in S1.
  unfold tr_map. rewrite B1, (custom_ok es F). cbn [bind]. rewrite Ea. cbn [attr bind]. unfold set_trace_values.
  rewrite (tfill_arr es) by (auto using blank_built; rewrite map_length; assumption). cbn [bind]. set (n := with_vals _ _). assert (Bn : built es n) by (repeat split; cbn; rewrite map_length; assumption). unfold set_wnd, set_wtd.
  assert (X : match tr_wnd s with None => Ok n | Some p => do a0 <- tfill n (One (VArr (map f p))); Ok (with_wnd n a0) end = Ok (made es (map f a) (option_map (map f) (tr_wnd s)) None)).
  { destruct (tr_wnd s) as [p|]; [|reflexivity]. rewrite (tfill_arr es) by (auto; rewrite map_length; assumption). reflexivity. }
  rewrite X. clear X. cbn [bind]. set (m := made _ _ _ _). assert (Bm : built es m). { repeat split; cbn; [rewrite map_length; assumption|]. destruct (tr_wnd s); cbn; auto. rewrite map_length. assumption. }
  destruct (tr_wtd s) as [p|]; [|reflexivity]. cbn [option_map]. rewrite (tfill_arr es) by (auto; rewrite map_length; assumption). reflexivity.
Qed.
Lemma made_built es v n w : Z.of_nat (List.length v) = total (sizes es) -> sized es n -> sized es w -> built es (made es v n w).
Proof. intros. repeat split; assumption. Qed.
Lemma sized_map es f o : sized es o -> sized es (option_map (map f) o).
Proof. destruct o; cbn; [rewrite map_length|]; auto. Qed.
Lemma sized_zip es o p : sized es o -> sized es p -> sized es (ozip o p).
Proof. destruct o, p; cbn; auto. intros H G. rewrite zip_len by lia. exact H. Qed.
