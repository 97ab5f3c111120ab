(** Decomposition of a cell boundary into cycles. *)
From Coq Require Import List ZArith Reals Lia Lra Psatz Bool Permutation.
From Verif Require Import PyBase PolyModel BaryModel QuadModel VertModel EdgeModel EdgeSpec ContourModel CellModel CellSpec.
Import List ListNotations.
Open Scope R_scope.

(** ** Lists *)

Lemma hset_length {A} (l : list A) i a : (i < length l)%nat -> length (hset l i a) = length l.
Proof. intros H. unfold hset. rewrite app_length, firstn_length. cbn [length]. rewrite skipn_length. lia. Qed.
Lemma hset_same {A} (l : list A) i a : (i < length l)%nat -> nth_error (hset l i a) i = Some a.
Proof. intros H. unfold hset. rewrite nth_error_app2; rewrite firstn_length, Nat.min_l by lia; [|lia]. rewrite Nat.sub_diag. reflexivity. Qed.
Lemma nth_error_firstn {A} (l : list A) k i : (i < k)%nat -> nth_error (firstn k l) i = nth_error l i.
Proof. revert l i. induction k; intros [|a l] [|i] Hk; try lia; try reflexivity. cbn. apply IHk. lia. Qed.
Lemma nth_error_skipn {A} (l : list A) k i : nth_error (skipn k l) i = nth_error l (k + i).
Proof. revert l. induction k; intros [|a l]; try reflexivity; [destruct i; reflexivity|]. cbn. apply IHk. Qed.
Lemma hset_other {A} (l : list A) i j a : (i < length l)%nat -> i <> j -> nth_error (hset l i a) j = nth_error l j.
Proof.
  intros H N. unfold hset. destruct (Nat.ltb_spec j i).
  - rewrite nth_error_app1 by (rewrite firstn_length; lia). apply nth_error_firstn. lia.
  - rewrite nth_error_app2 by (rewrite firstn_length; lia). rewrite firstn_length, Nat.min_l by lia. destruct (j - i)%nat as [|k] eqn:E; [lia|]. cbn [nth_error]. rewrite nth_error_skipn. f_equal. lia.
Qed.
Lemma geti_ok {A} (l : list A) i a : geti l i = Ok a <-> nth_error l i = Some a.
Proof. unfold geti. destruct (nth_error l i); split; congruence. Qed.
Lemma map_res_ok {A B} (f : A -> res B) (l : list A) (l' : list B) : map_res f l = Ok l' <-> Forall2 (fun a b => f a = Ok b) l l'.
Proof.
  revert l'. induction l as [|a l IH]; intros l'; cbn.
  - split; [intros H; apply Ok_inj in H; subst; constructor|intros H; inversion H; reflexivity].
  - destruct (f a) as [b|x] eqn:E; cbn; [|split; [discriminate|intros H; inversion H; congruence]].
    destruct (map_res f l) as [bs|x] eqn:E2; cbn.
    + split; [intros H; apply Ok_inj in H; subst; constructor; [exact E|apply IH; reflexivity]|]. intros H. inversion H; subst. apply IH in H4. apply Ok_inj in H4. subst. congruence.
    + split; [discriminate|]. intros H. inversion H; subst. apply IH in H4. discriminate.
Qed.
Lemma map_res_map {A B} (f : A -> res B) (g : A -> B) l : (forall a, In a l -> f a = Ok (g a)) -> map_res f l = Ok (map g l).
Proof. intros H. induction l as [|a l IH]; [reflexivity|]. cbn. rewrite H by (left; reflexivity). cbn. rewrite IH by (intros; apply H; right; assumption). reflexivity. Qed.
Lemma Forall2_len {A B} (P : A -> B -> Prop) l l' : Forall2 P l l' -> length l = length l'.
Proof. induction 1; cbn; congruence. Qed.
Lemma Forall2_impl {A B} (P Q : A -> B -> Prop) l l' : (forall a b, P a b -> Q a b) -> Forall2 P l l' -> Forall2 Q l l'.
Proof. intros H. induction 1; constructor; auto. Qed.
Lemma Forall2_nth {A B} (P : A -> B -> Prop) l l' : Forall2 P l l' -> forall i a b, nth_error l i = Some a -> nth_error l' i = Some b -> P a b.
Proof. induction 1; intros [|i] a b Ha Hb; cbn in *; try discriminate; [congruence|eauto]. Qed.

Lemma NoDup_app_intro {A} (l l' : list A) : NoDup l -> NoDup l' -> (forall x, In x l -> ~ In x l') -> NoDup (l ++ l').
Proof.
  intros H H' D. induction H as [|x l NI H IH]; [exact H'|]. cbn. constructor; [|apply IH; intros y I; apply D; right; exact I]. intros I. apply in_app_or in I. destruct I as [I|I]; [contradiction|]. exact (D x (or_introl eq_refl) I).
Qed.

(** ** Counting marks *)

Lemma zsum_nonneg l : Forall (fun x => (0 <= x)%Z) l -> (0 <= zsum l)%Z.
Proof. unfold zsum. induction 1; cbn [fold_right]; lia. Qed.
Lemma zsum_zero l : Forall (fun x => (0 <= x)%Z) l -> zsum l = 0%Z -> Forall (fun x => x = 0%Z) l.
Proof.
  intros F. induction F as [|x l Hx F IH]; intros E; [constructor|]. pose proof (zsum_nonneg _ F). change (zsum (x :: l)) with (x + zsum l)%Z in E. constructor; [lia|apply IH; lia].
Qed.
Lemma all_one_iff l : all_one l = true <-> Forall (fun x => x = 1%Z) l.
Proof.
  unfold all_one. set (q := zsum _). assert (SQ : Forall (fun x => (0 <= x)%Z) (map (fun x => ((x - 1) * (x - 1))%Z) l)) by (apply Forall_map, Forall_forall; intros; apply Z.square_nonneg).
  assert (Q0 : (0 <= q)%Z) by apply zsum_nonneg, SQ. unfold CTOL. split.
  - destruct (Rlt_dec _ _) as [L|]; [intros _|discriminate]. assert (E : q = 0%Z).
    { destruct (Z.eq_dec q 0) as [|N]; [assumption|]. exfalso. assert (1 <= IZR q) by (apply IZR_le; lia). assert (1 <= sqrt (IZR q)) by (rewrite <- sqrt_1; apply sqrt_le_1_alt; assumption). lra. }
    apply zsum_zero in E; [|exact SQ]. apply Forall_map in E. eapply Forall_impl; [|exact E]. cbn. intros a. nia.
  - intros F. assert (E : q = 0%Z) by (unfold q; clear -F; induction F; [reflexivity|]; unfold zsum in *; cbn [map fold_right]; rewrite IHF, H; reflexivity). rewrite E, sqrt_0. destruct (Rlt_dec _ _); [reflexivity|lra].
Qed.

Definition mark {A} (P : A -> Prop) (D : forall a, {P a} + {~ P a}) (a : A) : Z := if D a then 1%Z else 0%Z.
Lemma count_nonneg {A} P (D : forall a : A, {P a} + {~ P a}) l : (0 <= zsum (map (mark P D) l))%Z.
Proof. apply zsum_nonneg, Forall_map, Forall_forall. intros a _. unfold mark. destruct (D a); lia. Qed.
Lemma count_zero {A} P (D : forall a : A, {P a} + {~ P a}) l : zsum (map (mark P D) l) = 0%Z <-> forall i a, nth_error l i = Some a -> ~ P a.
Proof.
  induction l as [|x l IH]; [split; [intros _ [|i]; discriminate|reflexivity]|]. change (zsum (map (mark P D) (x :: l))) with (mark P D x + zsum (map (mark P D) l))%Z. pose proof (count_nonneg P D l). split.
  - intros E [|i] a Ha; cbn in Ha; [injection Ha as <-; unfold mark in E at 1; destruct (D x); [lia|assumption]|]. apply (proj1 IH) with i; [|exact Ha]. unfold mark in E at 1. destruct (D x); lia.
  - intros F. unfold mark at 1. destruct (D x) as [Px|]; [exfalso; exact (F 0%nat x eq_refl Px)|]. rewrite (proj2 IH); [reflexivity|]. intros i a. exact (F (S i) a).
Qed.
Lemma count_one {A} P (D : forall a : A, {P a} + {~ P a}) l : zsum (map (mark P D) l) = 1%Z <-> exactly_one P l.
Proof.
  induction l as [|x l IH].
  - split; [discriminate|]. intros (i & (a & Ha & _) & _). destruct i; discriminate.
  - change (zsum (map (mark P D) (x :: l))) with (mark P D x + zsum (map (mark P D) l))%Z. pose proof (count_nonneg P D l) as N. unfold mark at 1. destruct (D x) as [Px|Nx].
    + assert (Z0 := count_zero P D l). split.
      * intros E. exists 0%nat. split; [exists x; auto|]. intros [|i] (a & Ha & Pa); [reflexivity|]. exfalso. refine (proj1 Z0 _ i a Ha Pa). lia.
      * intros (i & _ & U). rewrite (proj2 Z0); [reflexivity|]. intros j a Ha Pa. assert (i = 0%nat) by (apply U; exists x; auto). assert (i = S j) by (apply U; exists a; auto). congruence.
    + rewrite Z.add_0_l, IH. split.
      * intros (i & (a & Ha & Pa) & U). exists (S i). split; [exists a; auto|]. intros [|j] (b & Hb & Pb); cbn in Hb; [congruence|]. f_equal. apply U. exists b. auto.
      * intros (i & (a & Ha & Pa) & U). destruct i as [|i]; cbn in Ha; [congruence|]. exists i. split; [exists a; auto|]. intros j (b & Hb & Pb). assert (S i = S j) by (apply U; exists b; auto). congruence.
Qed.

(** ** The incidence table *)

Definition near_dec (v w : vert) : {near v w} + {~ near v w} := Rlt_dec _ _.

Lemma row_marks a bs : incidence_row a bs = map (mark (fun b => near b a) (fun b => near_dec b a)) bs.
Proof.
  apply map_ext. intros b. unfold mark, near_dec, near, pdist, coord. cbn [fst snd].
  replace ((vx a - vx b) ^ 2 + (vy a - vy b) ^ 2) with ((vx b - vx a) * (vx b - vx a) + (vy b - vy a) * (vy b - vy a)) by ring. unfold CTOL.
  reflexivity.
Qed.

Lemma edge_orient_ok z e : edge_orient z e = Ok (if Z.eqb z (e_pos e) then 1 else -1)%Z <-> belongs z e.
Proof. unfold edge_orient, belongs. destruct (Z.eqb_spec z (e_pos e)); [tauto|]. destruct (Z.eqb_spec z (e_neg e)); [tauto|]. split; [discriminate|tauto]. Qed.
Lemma orientations_ok z es : Forall (belongs z) es -> orientations z es = Ok (map (fun e => if Z.eqb z (e_pos e) then 1 else -1)%Z es).
Proof. intros F. apply map_res_map. intros e I. apply edge_orient_ok. rewrite Forall_forall in F. apply F, I. Qed.
Lemma orientations_err z es : ~ Forall (belongs z) es -> orientations z es = Err EmbeddingError.
Proof.
  induction es as [|e es IH]; intros N; [exfalso; apply N; constructor|]. unfold orientations. cbn [map_res]. destruct (edge_orient z e) as [o|x] eqn:E.
  - cbn [bind]. fold (orientations z es). rewrite IH; [reflexivity|]. intros F. apply N. constructor; [|exact F]. unfold edge_orient in E. unfold belongs. destruct (Z.eqb_spec z (e_pos e)); [tauto|]. destruct (Z.eqb_spec z (e_neg e)); [tauto|discriminate].
  - unfold edge_orient in E. destruct (Z.eqb z (e_pos e)); [discriminate|]. destruct (Z.eqb z (e_neg e)); [discriminate|]. cbn. congruence.
Qed.
Lemma orientations_inv z es os : orientations z es = Ok os -> Forall (belongs z) es /\ os = map (fun e => if Z.eqb z (e_pos e) then 1 else -1)%Z es.
Proof.
  intros H. assert (F : Forall (belongs z) es).
  { destruct (Forall_dec (belongs z)) with (l := es) as [F|F]; [|exact F|]. { intros e. unfold belongs. destruct (Z.eq_dec z (e_pos e)); [left; tauto|]. destruct (Z.eq_dec z (e_neg e)); [left; tauto|right; tauto]. } rewrite orientations_err in H by exact F. discriminate. }
  split; [exact F|]. rewrite orientations_ok in H by exact F. apply Ok_inj in H. exact H.
Qed.

Definition signs z es := map (fun e => if Z.eqb z (e_pos e) then 1 else -1)%Z es.
Lemma incidence_mat_ok z es : incidence_mat es (signs z es) = Ok (map (fun a => incidence_row a (map (stop_pt z) es)) (map (start_pt z) es)).
Proof.
  unfold incidence_mat. assert (G : forall f : Z -> edge -> res vert, forall g, (forall e, f (if Z.eqb z (e_pos e) then 1 else -1)%Z e = Ok (g e)) -> map_res (fun eo => f (snd eo) (fst eo)) (combine es (signs z es)) = Ok (map g es)).
  { intros f g Hf. induction es as [|e es IH]; [reflexivity|]. cbn [signs map combine map_res fst snd]. rewrite Hf. cbn [bind]. fold (signs z es). rewrite IH. reflexivity. }
  rewrite (G src (start_pt z)) by (intros e; unfold src, start_pt; destruct (Z.eqb z (e_pos e)); reflexivity). rewrite (G dst (stop_pt z)) by (intros e; unfold dst, stop_pt; destruct (Z.eqb z (e_pos e)); reflexivity). reflexivity.
Qed.

Lemma exactly_one_map {A B} (f : A -> B) (P : B -> Prop) l : exactly_one P (map f l) <-> exactly_one (fun a => P (f a)) l.
Proof.
  unfold exactly_one. split; intros (i & (x & Hx & Px) & U).
  - rewrite nth_error_map in Hx. destruct (nth_error l i) as [a|] eqn:E; [|discriminate]. injection Hx as <-. exists i. split; [exists a; auto|]. intros j (b & Hb & Pb). apply U. exists (f b). rewrite nth_error_map, Hb. auto.
  - exists i. split; [exists (f x); rewrite nth_error_map, Hx; auto|]. intros j (b & Hb & Pb). rewrite nth_error_map in Hb. destruct (nth_error l j) as [a|] eqn:E; [|discriminate]. injection Hb as <-. apply U. exists a. auto.
Qed.

Lemma col_marks z es j e : nth_error es j = Some e ->
  col (map (fun a => incidence_row a (map (stop_pt z) es)) (map (start_pt z) es)) j = map (mark (fun e' => follows z e e') (fun e' => near_dec _ _)) es.
Proof.
  intros Hj. unfold col. rewrite !map_map. apply map_ext. intros e'. rewrite row_marks, map_map. erewrite nth_error_nth by (rewrite nth_error_map, Hj; reflexivity). reflexivity.
Qed.

Lemma sums_matched z es : let m := map (fun a => incidence_row a (map (stop_pt z) es)) (map (start_pt z) es) in
  andb (all_one (map (fun j => zsum (col m j)) (seq 0 (length es)))) (all_one (map zsum m)) = true <-> matched z es.
Proof.
  cbv zeta. rewrite andb_true_iff, !all_one_iff. unfold matched.
  assert (A : Forall (fun x => x = 1%Z) (map (fun j => zsum (col (map (fun a => incidence_row a (map (stop_pt z) es)) (map (start_pt z) es)) j)) (seq 0 (length es))) <-> forall e, In e es -> exactly_one (fun e' => follows z e e') es).
  { rewrite Forall_map, Forall_forall. split.
    - intros F e I. apply In_nth_error in I. destruct I as [j Hj]. assert (L : (j < length es)%nat) by (apply nth_error_Some; congruence). specialize (F j ltac:(apply in_seq; lia)). cbn beta in F. rewrite (col_marks z es j e Hj) in F. apply count_one in F. exact F.
    - intros F j I. apply in_seq in I. destruct (nth_error es j) as [e|] eqn:Hj; [|apply nth_error_None in Hj; lia]. rewrite (col_marks z es j e Hj). apply (count_one (fun e' => follows z e e')), F. eapply nth_error_In, Hj. }
  assert (B : Forall (fun x => x = 1%Z) (map zsum (map (fun a => incidence_row a (map (stop_pt z) es)) (map (start_pt z) es))) <-> forall e, In e es -> exactly_one (fun e' => follows z e' e) es).
  { rewrite !map_map, Forall_map, Forall_forall. assert (C : forall e, zsum (incidence_row (start_pt z e) (map (stop_pt z) es)) = 1%Z <-> exactly_one (fun e' => follows z e' e) es) by (intros e; rewrite row_marks, map_map; exact (count_one (fun e' => follows z e' e) (fun e' => near_dec (stop_pt z e') (start_pt z e)) es)).
    split; intros F e I; apply C, F, I. }
  rewrite A, B. tauto.
Qed.

Lemma first_nonzero_ok r : forall k j x, nth_error r j = Some x -> x <> 0%Z -> (forall i y, (i < j)%nat -> nth_error r i = Some y -> y = 0%Z) -> first_nonzero r k = Ok (k + j)%nat.
Proof.
  induction r as [|a r IH]; intros k j x Hj Hx Hl; [destruct j; discriminate|]. cbn [first_nonzero]. destruct j as [|j]; cbn in Hj.
  - injection Hj as ->. destruct (Z.eqb_spec x 0); [contradiction|]. f_equal. lia.
  - rewrite (Hl 0%nat a ltac:(lia) eq_refl). cbn [Z.eqb]. rewrite (IH (S k) j x Hj Hx); [f_equal; lia|]. intros i y Hi Hy. apply (Hl (S i) y); [lia|exact Hy].
Qed.
Lemma row_first z es i e j : nth_error es i = Some e -> nth_error es j <> None -> (forall e', nth_error es j = Some e' -> follows z e' e) -> exactly_one (fun e' => follows z e' e) es ->
  first_nonzero (incidence_row (start_pt z e) (map (stop_pt z) es)) 0 = Ok j.
Proof.
  intros Hi Hj Hf (u & (eu & Hu & Fu) & U). destruct (nth_error es j) as [ej|] eqn:Ej; [|congruence]. specialize (Hf ej eq_refl).
  assert (R : forall k e', nth_error es k = Some e' -> nth_error (incidence_row (start_pt z e) (map (stop_pt z) es)) k = Some (if near_dec (stop_pt z e') (start_pt z e) then 1%Z else 0%Z)).
  { intros k e' Hk. rewrite row_marks, !nth_error_map, Hk. reflexivity. }
  apply (first_nonzero_ok _ 0 j (if near_dec (stop_pt z ej) (start_pt z e) then 1%Z else 0%Z) (R j ej Ej)).
  - destruct (near_dec _ _); [lia|contradiction].
  - intros k y Lk Hy. destruct (nth_error es k) as [ek|] eqn:Ek; [|apply nth_error_None in Ek; assert (X : nth_error es j <> None) by congruence; apply nth_error_Some in X; lia].
    rewrite (R k ek Ek) in Hy. injection Hy as <-. destruct (near_dec _ _) as [N|]; [|reflexivity]. exfalso. assert (u = k) by (apply U; exists ek; auto). assert (u = j) by (apply U; exists ej; auto). lia.
Qed.

(** Setting one entry per index of an injective table inverts the table. *)
Lemma invert_fold (js : list nat) n : NoDup js -> Forall (fun j => (j < n)%nat) js ->
  forall inc k, length inc = n -> exists inc', fold_left (fun inc ji => hset inc (fst ji) (snd ji)) (combine js (seq k (length js))) inc = inc' /\ length inc' = n /\
    (forall i j, nth_error js i = Some j -> nth_error inc' j = Some (k + i)%nat) /\ (forall j, ~ In j js -> nth_error inc' j = nth_error inc j).
Proof.
  intros ND F. induction ND as [|j js NI ND IH]; intros inc k Hl; [exists inc; split; [reflexivity|]; split; [exact Hl|]; split; [intros [|i]; discriminate|reflexivity]|].
  inversion F as [|? ? Lj F']; subst. cbn [length seq combine fold_left fst snd]. destruct (IH F' (hset inc j k) (S k)) as (inc' & E & L & A & B); [rewrite hset_length; lia|].
  exists inc'. split; [exact E|]. split; [exact L|]. split.
  - intros [|i] j' Hj; cbn in Hj; [injection Hj as <-; rewrite B by exact NI; rewrite hset_same by lia; f_equal; lia|]. rewrite (A i j' Hj). f_equal. lia.
  - intros j' NI'. cbn in NI'. rewrite B by tauto. apply hset_other; [lia|tauto].
Qed.
Lemma fold_res_left {A B} (f : B -> A -> res B) (g : B -> A -> B) l : (forall a b, In a l -> f b a = Ok (g b a)) -> forall b, fold_res f l b = Ok (fold_left g l b).
Proof. intros H. induction l as [|a l IH]; intros b; [reflexivity|]. cbn [fold_res]. rewrite H by (left; reflexivity). cbn [bind fold_left]. apply IH. intros; apply H; right; assumption. Qed.

(** The table sends each edge to its unique successor. *)
Theorem incidence_ok z es : matched z es -> exists inc, incidence es (signs z es) = Ok inc /\ length inc = length es /\ NoDup inc /\
  forall j, (j < length es)%nat -> exists i e e', nth_error inc j = Some i /\ (i < length es)%nat /\ nth_error es j = Some e /\ nth_error es i = Some e' /\ follows z e e'.
Proof.
  intros M. unfold incidence. rewrite incidence_mat_ok. cbn [bind]. rewrite (proj2 (sums_matched z es) M). set (n := length es). destruct M as [MS MP].
  (* the predecessor of each edge *)
  assert (P : exists js, length js = n /\ forall i e, nth_error es i = Some e -> exists j e', nth_error js i = Some j /\ nth_error es j = Some e' /\ follows z e' e).
  { assert (G : forall l, (forall e, In e l -> In e es) -> exists js, length js = length l /\ forall i e, nth_error l i = Some e -> exists j e', nth_error js i = Some j /\ nth_error es j = Some e' /\ follows z e' e).
    { induction l as [|e l IH]; intros Hl; [exists []; split; [reflexivity|]; intros [|i]; discriminate|]. destruct IH as (js & L & A); [intros; apply Hl; right; assumption|]. destruct (MP e (Hl e (or_introl eq_refl))) as (j & (e' & Hj & Fj) & _).
      exists (j :: js). split; [cbn; lia|]. intros [|i] e0 H0; cbn in H0; [injection H0 as <-; exists j, e'; auto|]. apply A, H0. }
    apply G. auto. }
  destruct P as (js & Lj & A).
  assert (ND : NoDup js).
  { apply NoDup_nth_error. intros i1 i2 L1 E. assert (H1 : (i1 < length es)%nat) by (unfold n in Lj; lia). destruct (nth_error es i1) as [e1|] eqn:E1; [|apply nth_error_None in E1; lia]. destruct (A i1 e1 E1) as (j & e' & J1 & J2 & J3).
    assert (H2 : nth_error js i2 <> None) by congruence. apply nth_error_Some in H2. destruct (nth_error es i2) as [e2|] eqn:E2; [|apply nth_error_None in E2; unfold n in Lj; lia]. destruct (A i2 e2 E2) as (j' & e'' & K1 & K2 & K3).
    assert (j' = j) by congruence. subst j'. assert (e'' = e') by congruence. subst e''. destruct (MS e' (nth_error_In _ _ J2)) as (u & _ & U). assert (u = i1) by (apply U; exists e1; auto). assert (u = i2) by (apply U; exists e2; auto). congruence. }
  assert (FJ : Forall (fun j => (j < n)%nat) js).
  { apply Forall_forall. intros j I. apply In_nth_error in I. destruct I as [i Hi]. assert (Li : nth_error js i <> None) by congruence. apply nth_error_Some in Li. destruct (nth_error es i) as [e|] eqn:E; [|apply nth_error_None in E; unfold n in Lj; lia]. destruct (A i e E) as (j' & e' & J1 & J2 & _). apply nth_error_Some. replace j with j' by congruence. congruence. }
  assert (FR : forall es0 k js0, length js0 = length es0 -> (forall i e, nth_error es0 i = Some e -> exists j, nth_error js0 i = Some j /\ first_nonzero (incidence_row (start_pt z e) (map (stop_pt z) es)) 0 = Ok j) -> forall inc,
    fold_res (fun inc ri => do j <- first_nonzero (fst ri) 0; Ok (hset inc j (snd ri))) (combine (map (fun a => incidence_row a (map (stop_pt z) es)) (map (start_pt z) es0)) (seq k (length es0))) inc =
    Ok (fold_left (fun inc ji => hset inc (fst ji) (snd ji)) (combine js0 (seq k (length js0))) inc)).
  { induction es0 as [|e es0 IH]; intros k [|j js0] L R inc; try discriminate; [reflexivity|]. destruct (R 0%nat e eq_refl) as (j' & Hj & Hf). injection Hj as <-. cbn [map length seq combine fold_res fst snd]. rewrite Hf. cbn [bind fold_left fst snd].
    apply IH; [cbn in L; lia|]. intros i e0 H0. exact (R (S i) e0 H0). }
  rewrite (FR es 0%nat js Lj).
  - destruct (invert_fold js n ND FJ (repeat 0%nat n) 0 (repeat_length _ _)) as (inc & -> & L & I1 & _). exists inc. split; [reflexivity|]. split; [exact L|].
    assert (PJ : Permutation (seq 0 n) js).
    { symmetry. apply NoDup_Permutation_bis; [exact ND|rewrite seq_length; lia|]. intros j Ij. rewrite Forall_forall in FJ. apply in_seq. specialize (FJ j Ij). lia. }
    assert (S1 : forall j, (j < n)%nat -> exists i e e', nth_error inc j = Some i /\ (i < n)%nat /\ nth_error es j = Some e /\ nth_error es i = Some e' /\ follows z e e' /\ nth_error js i = Some j).
    { intros j Hj. assert (Ij : In j js) by (apply (Permutation_in _ PJ), in_seq; lia). apply In_nth_error in Ij. destruct Ij as [i Hi]. assert (Li : nth_error js i <> None) by congruence. apply nth_error_Some in Li. destruct (nth_error es i) as [e'|] eqn:E'; [|apply nth_error_None in E'; unfold n in Lj; lia].
      destruct (A i e' E') as (j' & e & J1 & J2 & J3). assert (j' = j) by congruence. subst j'. exists i, e, e'. repeat split; auto. - apply (I1 i j Hi). - lia. }
    split.
    + apply NoDup_nth_error. intros j1 j2 L1 E. rewrite L in L1. destruct (S1 j1 L1) as (i & _ & _ & H1 & _ & _ & _ & _ & K1). assert (L2 : nth_error inc j2 <> None) by congruence. apply nth_error_Some in L2. rewrite L in L2. destruct (S1 j2 L2) as (i' & _ & _ & H2 & _ & _ & _ & _ & K2). congruence.
    + intros j Hj. destruct (S1 j Hj) as (i & e & e' & X1 & X2 & X3 & X4 & X5 & _). exists i, e, e'. auto.
  - intros i e Hi. destruct (A i e Hi) as (j & e' & J1 & J2 & J3). exists j. split; [exact J1|]. apply (row_first z es i); auto; [congruence|intros e0 H0; congruence|]. apply MP. eapply nth_error_In, Hi.
Qed.
Lemma incidence_err z es : ~ matched z es -> incidence es (signs z es) = Err EmbeddingError.
Proof.
  intros N. unfold incidence. rewrite incidence_mat_ok. cbn [bind]. destruct (andb _ _) eqn:E; [|reflexivity]. exfalso. apply N, sums_matched, E.
Qed.

(** ** Walking along the cycles of a permutation *)

Lemma last_nth (l : list nat) d : l <> [] -> nth_error l (length l - 1) = Some (last l d).
Proof.
  induction l as [|u l IH]; [congruence|]. intros _. destruct l as [|v l]; [reflexivity|]. change (last (u :: v :: l) d) with (last (v :: l) d). rewrite <- IH by discriminate. cbn [length]. replace (S (S (length l)) - 1)%nat with (S (S (length l) - 1)) by lia. reflexivity.
Qed.

Section Cycles.
Variable inc : list nat.
Let n := length inc.
Hypothesis ND : NoDup inc.
Hypothesis BD : forall j i, nth_error inc j = Some i -> (i < n)%nat.

Lemma inc_inj j1 j2 i : nth_error inc j1 = Some i -> nth_error inc j2 = Some i -> j1 = j2.
Proof. intros H1 H2. rewrite NoDup_nth_error in ND. apply ND; [apply nth_error_Some|]; congruence. Qed.
Lemma inc_total j : (j < n)%nat -> exists i, nth_error inc j = Some i.
Proof. intros H. destruct (nth_error inc j) eqn:E; [eauto|]. apply nth_error_None in E. unfold n in H. lia. Qed.

(** [l] is a path of the table *)
Definition path (l : list nat) : Prop := forall k a b, nth_error l k = Some a -> nth_error l (S k) = Some b -> nth_error inc a = Some b.

Lemma path_snoc l a b : path l -> last l a = b -> l <> [] -> forall c, nth_error inc b = Some c -> path (l ++ [c]).
Proof.
  intros P L NE c Hc k x y Hx Hy. assert (Lk : (S k < length (l ++ [c]))%nat) by (apply nth_error_Some; congruence). rewrite app_length in Lk. cbn in Lk.
  rewrite nth_error_app1 in Hx by lia. destruct (Nat.eq_dec (S k) (length l)) as [E|N].
  - rewrite nth_error_app2 in Hy by lia. rewrite E, Nat.sub_diag in Hy. injection Hy as <-. assert (x = b); [|congruence]. rewrite <- L. symmetry. clear -Hx E. revert k Hx E. induction l as [|u l IH]; intros k Hx E; [discriminate|]. destruct l as [|v l]; [destruct k; [cbn in *; congruence|discriminate]|]. destruct k as [|k]; [discriminate|]. change (last (u :: v :: l) a) with (last (v :: l) a). apply (IH k); [exact Hx|cbn in *; lia].
  - rewrite nth_error_app1 in Hy by lia. apply (P k); assumption.
Qed.
Lemma nodup_bound l : NoDup l -> Forall (fun x => (x < n)%nat) l -> (length l <= n)%nat.
Proof. intros N F. rewrite <- (seq_length n 0). apply NoDup_incl_length; [exact N|]. intros x I. rewrite Forall_forall in F. apply in_seq. specialize (F x I). lia. Qed.

(** A closed path without repetition *)
Definition cycle (s : nat) (l : list nat) : Prop := (exists t, l = s :: t) /\ NoDup l /\ Forall (fun x => (x < n)%nat) l /\ path l /\ nth_error inc (last l s) = Some s.

Lemma walk_ok : forall fuel s next marked acc, (exists t, acc = s :: t) -> NoDup acc -> Forall (fun x => (x < n)%nat) acc -> path acc -> nth_error inc (last acc s) = Some next ->
  length marked = n -> (n < fuel + length acc + 1)%nat ->
  exists c m, walk fuel inc s next marked acc = Ok (c, m) /\ cycle s c /\ length m = n /\ (exists t, c = acc ++ t /\ forall x, nth_error m x = if in_dec Nat.eq_dec x t then Some true else nth_error marked x).
Proof.
  induction fuel as [|fuel IH]; intros s next marked acc HT NDa Fa Pa Hn Lm Hf.
  - cbn [walk]. destruct (Nat.eqb_spec next s) as [->|N]; [exists acc, marked; split; [reflexivity|]; split; [repeat split; assumption|]; split; [exact Lm|]; exists []; split; [symmetry; apply app_nil_r|reflexivity]|].
    exfalso. assert (NI : ~ In next acc).
    { intros I. apply In_nth_error in I. destruct I as [[|k] Hk]; [destruct HT as [t ->]; cbn in Hk; congruence|]. assert (Sk : (S k < length acc)%nat) by (apply nth_error_Some; congruence). destruct (nth_error acc k) as [u|] eqn:Ek; [|apply nth_error_None in Ek; lia].
      pose proof (inc_inj _ _ _ (Pa k u next Ek Hk) Hn) as E. assert (NE : acc <> []) by (destruct HT as [t ->]; discriminate). pose proof (last_nth acc s NE) as HL. rewrite NoDup_nth_error in NDa. assert (k = (length acc - 1)%nat) by (apply NDa; [lia|congruence]). lia. }
    assert (length (next :: acc) <= n)%nat; [|cbn in *; lia]. apply nodup_bound; [constructor; assumption|]. constructor; [eapply BD, Hn|exact Fa].
  - cbn [walk]. destruct (Nat.eqb_spec next s) as [->|N]; [exists acc, marked; split; [reflexivity|]; split; [repeat split; assumption|]; split; [exact Lm|]; exists []; split; [symmetry; apply app_nil_r|reflexivity]|].
    assert (NE : acc <> []) by (destruct HT as [t ->]; discriminate).
    assert (NI : ~ In next acc).
    { intros I. apply In_nth_error in I. destruct I as [[|k] Hk]; [destruct HT as [t ->]; cbn in Hk; congruence|]. assert (Sk : (S k < length acc)%nat) by (apply nth_error_Some; congruence). destruct (nth_error acc k) as [u|] eqn:Ek; [|apply nth_error_None in Ek; lia].
      pose proof (inc_inj _ _ _ (Pa k u next Ek Hk) Hn) as E. pose proof (last_nth acc s NE) as HL. rewrite NoDup_nth_error in NDa. assert (k = (length acc - 1)%nat) by (apply NDa; [lia|congruence]). lia. }
    pose proof (BD _ _ Hn) as Ln. destruct (inc_total next Ln) as [nx Hx]. unfold geti. rewrite Hx. cbn [bind].
    destruct (IH s nx (hset marked next true) (acc ++ [next])) as (c & m & E & C & L & (t & Et & Em)).
    + destruct HT as [t ->]. exists (t ++ [next]). reflexivity.
    + apply (Permutation_NoDup (l := next :: acc)); [apply Permutation_cons_append|constructor; assumption].
    + apply Forall_app. split; [exact Fa|repeat constructor; exact Ln].
    + apply (path_snoc acc s (last acc s)); auto.
    + rewrite last_last. exact Hx.
    + rewrite hset_length by lia. exact Lm.
    + rewrite app_length. cbn. lia.
    + exists c, m. split; [exact E|]. split; [exact C|]. split; [exact L|]. exists (next :: t). split; [rewrite Et, <- app_assoc; reflexivity|]. intros x. rewrite Em. destruct (in_dec Nat.eq_dec x t) as [I|NIt]; destruct (in_dec Nat.eq_dec x (next :: t)) as [I'|NI']; try reflexivity.
      * exfalso. apply NI'. right. exact I.
      * destruct I' as [<-|I']; [|contradiction]. apply hset_same. lia.
      * apply hset_other; [lia|]. intros ->. apply NI'. left. reflexivity.
Qed.

Lemma first_unmarked_ok m : forall k, (exists x, nth_error m x = Some false) -> exists x, first_unmarked m k = Ok (k + x)%nat /\ nth_error m x = Some false.
Proof.
  induction m as [|[|] m IH]; intros k (x & Hx); [destruct x; discriminate| |].
  - destruct x as [|x]; [discriminate|]. destruct (IH (S k) (ex_intro _ x Hx)) as (y & E & Hy). exists (S y). split; [cbn; rewrite E; f_equal; lia|exact Hy].
  - exists 0%nat. split; [cbn; f_equal; lia|reflexivity].
Qed.

Definition closed (l : list nat) : Prop := forall a b, nth_error inc a = Some b -> (In a l <-> In b l).

Lemma cycle_closed s l : cycle s l -> closed l.
Proof.
  intros ((t & Et) & N & F & P & C) a b H. assert (NE : l <> []) by (rewrite Et; discriminate). pose proof (last_nth l s NE) as HL. split; intros I; apply In_nth_error in I; destruct I as [k Hk].
  - assert (Lk : (k < length l)%nat) by (apply nth_error_Some; congruence). destruct (Nat.eq_dec (S k) (length l)) as [E|E].
    + replace (length l - 1)%nat with k in HL by lia. assert (b = s) by congruence. subst b. rewrite Et. left. reflexivity.
    + destruct (nth_error l (S k)) as [c|] eqn:Ec; [|apply nth_error_None in Ec; lia]. pose proof (P k a c Hk Ec). apply nth_error_In with (S k). congruence.
  - destruct k as [|k].
    + rewrite Et in Hk. injection Hk as <-. rewrite (inc_inj _ _ _ H C). eapply nth_error_In, HL.
    + destruct (nth_error l k) as [c|] eqn:Ec; [|apply nth_error_None in Ec; assert (nth_error l (S k) <> None) as X by congruence; apply nth_error_Some in X; lia]. pose proof (P k c b Ec Hk). rewrite (inc_inj _ _ _ H H0). eapply nth_error_In, Ec.
Qed.

(** A path from outside a closed set stays outside *)
Lemma path_outside l D : path l -> closed D -> forall s t, l = s :: t -> ~ In s D -> forall x, In x l -> ~ In x D.
Proof.
  intros P C s t E NS x I. apply In_nth_error in I. destruct I as [k Hk]. revert x Hk. induction k as [|k IH]; intros x Hk; [subst l; cbn in Hk; congruence|].
  destruct (nth_error l k) as [u|] eqn:Eu; [|apply nth_error_None in Eu; assert (nth_error l (S k) <> None) as X by congruence; apply nth_error_Some in X; lia]. intros I. apply (IH u eq_refl). apply (C u x (P k u x Eu Hk)). exact I.
Qed.

Lemma contour_loop_ok : forall fuel num marked acc, length marked = n -> NoDup (concat acc) -> num = length (concat acc) -> closed (concat acc) -> Forall (fun x => (x < n)%nat) (concat acc) ->
  (forall x, (x < n)%nat -> nth_error marked x = Some (if in_dec Nat.eq_dec x (concat acc) then true else false)) -> Forall (fun c => exists s, cycle s c) acc -> (n <= num + fuel)%nat ->
  exists cs, contour_loop fuel inc n num marked acc = Ok cs /\ Permutation (concat cs) (seq 0 n) /\ Forall (fun c => exists s, cycle s c) cs.
Proof.
  induction fuel as [|fuel IH]; intros num marked acc Lm NDc En Cl Fc Hm Fcy Hf.
  all: assert (Hn : (num <= n)%nat) by (rewrite En; apply nodup_bound; assumption).
  all: assert (Done : num = n -> exists cs, Ok acc = Ok cs /\ Permutation (concat cs) (seq 0 n) /\ Forall (fun c => exists s, cycle s c) cs) by
    (intros E; exists acc; split; [reflexivity|]; split; [|exact Fcy]; apply NoDup_Permutation_bis; [exact NDc|rewrite seq_length; lia|]; intros x I; rewrite Forall_forall in Fc; apply in_seq; specialize (Fc x I); lia).
  - cbn [contour_loop]. destruct (Nat.ltb_spec num n); [lia|]. apply Done. lia.
  - cbn [contour_loop]. destruct (Nat.ltb_spec num n) as [Lt|]; [|apply Done; lia].
    assert (U : exists x, nth_error marked x = Some false).
    { destruct (Forall_Exists_dec (fun x => In x (concat acc)) (fun x => in_dec Nat.eq_dec x (concat acc)) (seq 0 n)) as [FA|EX].
      - exfalso. assert (length (seq 0 n) <= length (concat acc))%nat; [|rewrite seq_length in *; lia]. apply NoDup_incl_length; [apply seq_NoDup|]. intros x I. rewrite Forall_forall in FA. apply FA, I.
      - apply Exists_exists in EX. destruct EX as (x & Ix & Nx). exists x. apply in_seq in Ix. rewrite Hm by lia. destruct (in_dec _ _ _); [contradiction|reflexivity]. }
    destruct (first_unmarked_ok marked 0 U) as (s & E & Hs). rewrite E. cbn [bind Nat.add]. assert (Ls : (s < n)%nat) by (rewrite <- Lm; apply nth_error_Some; congruence).
    assert (Ns : ~ In s (concat acc)) by (rewrite Hm in Hs by exact Ls; destruct (in_dec _ _ _); [discriminate|assumption]).
    destruct (inc_total s Ls) as [nx Hx]. unfold geti. rewrite Hx. cbn [bind].
    destruct (walk_ok n s nx (hset marked s true) [s]) as (c & m & Ew & C & L & (t & Et & Em)).
    + exists []. reflexivity.
    + repeat constructor. intros [].
    + repeat constructor. exact Ls.
    + intros [|k] a b; [discriminate|destruct k; discriminate].
    + exact Hx.
    + rewrite hset_length by lia. exact Lm.
    + cbn. lia.
    + rewrite Ew. cbn [bind]. destruct C as (HT & NDt & Ft & Pt & Ct). assert (CC : cycle s c) by (repeat split; assumption). apply IH.
      * exact L.
      * rewrite concat_app. cbn [concat]. rewrite app_nil_r. apply NoDup_app_intro; [exact NDc|exact NDt|]. intros x I1 I2. exact (path_outside c (concat acc) Pt Cl s t Et Ns x I2 I1).
      * rewrite concat_app, app_length, En. cbn [concat]. rewrite app_nil_r. reflexivity.
      * rewrite concat_app. cbn [concat]. rewrite app_nil_r. intros a b H. rewrite !in_app_iff, (Cl a b H), (cycle_closed s c CC a b H). reflexivity.
      * rewrite concat_app. cbn [concat]. rewrite app_nil_r. apply Forall_app. split; assumption.
      * intros x Lx. rewrite Em, concat_app. cbn [concat]. rewrite app_nil_r. destruct (in_dec Nat.eq_dec x t) as [I|NI].
        -- destruct (in_dec _ _ _) as [|N]; [reflexivity|]. exfalso. apply N, in_or_app. right. rewrite Et. right. exact I.
        -- destruct (Nat.eq_dec s x) as [<-|Nsx].
           ++ rewrite hset_same by lia. destruct (in_dec _ _ _) as [|N]; [reflexivity|]. exfalso. apply N, in_or_app. right. rewrite Et. left. reflexivity.
           ++ rewrite hset_other by lia. rewrite Hm by exact Lx. destruct (in_dec Nat.eq_dec x (concat acc)) as [I|N]; destruct (in_dec Nat.eq_dec x (concat acc ++ c)) as [I'|N']; try reflexivity.
              ** exfalso. apply N', in_or_app. left. exact I.
              ** apply in_app_or in I'. destruct I' as [I'|I']; [contradiction|]. rewrite Et in I'. destruct I' as [E1|I']; [contradiction|contradiction].
      * apply Forall_app. split; [exact Fcy|]. repeat constructor. exists s. exact CC.
      * rewrite Et. cbn. lia.
Qed.
End Cycles.
