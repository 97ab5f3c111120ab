(** Sums of scaled blocks in double precision *)
From Coq Require Import List ZArith Reals Lia Lra Permutation.
From Flocq Require Import Core BinarySingleNaN.
From Verif Require Import PyBase PolyModel FloatIdxModel FloatPolyModel FloatErr FloatQuadModel FloatQuadSpec FloatQuadProofs FloatQuadProps FloatBdryModel.
Import ListNotations.
Open Scope R_scope.

Definition sized {K T} (sz : K -> Z) (ks : list K) (bs : list (list T)) : Prop := Forall2 (fun k b => Z.of_nat (List.length b) = sz k) ks bs.
Definition spread {K T} (ks : list K) (bs : list (list T)) : list (K * T) := concat (map (fun kb => map (pair (fst kb)) (snd kb)) (combine ks bs)).
Lemma sized_exists {K T} (sz : K -> Z) ks : Forall (fun k => (0 <= sz k)%Z) ks -> forall l : list T, Z.of_nat (List.length l) = fold_right Z.add 0%Z (map sz ks) -> exists bs, l = concat bs /\ sized sz ks bs.
Proof.
  induction 1 as [|k ks Hk Hks IH]; intros l E; cbn [map fold_right] in E.
  - destruct l; [exists []; split; [reflexivity|constructor]|cbn [List.length] in E; lia].
  - assert (P : (0 <= fold_right Z.add 0 (map sz ks))%Z) by (clear -Hks; induction Hks; cbn [map fold_right]; lia). destruct (IH (skipn (Z.to_nat (sz k)) l)) as (bs & Eb & Sb); [rewrite skipn_length; lia|]. exists (firstn (Z.to_nat (sz k)) l :: bs). split; [cbn [concat]; rewrite <- Eb, firstn_skipn; reflexivity|]. constructor; [rewrite firstn_length; lia|exact Sb].
Qed.
Lemma sized_map {K T U} (sz : K -> Z) (f : T -> U) ks bs : sized sz ks bs -> sized sz ks (map (map f) bs).
Proof. unfold sized. induction 1; cbn [map]; constructor; [rewrite map_length; assumption|assumption]. Qed.
Lemma blocks_spread {K T} (hd : K -> double) (sz : K -> Z) (num : T -> double) ks bs : sized sz ks bs ->
  d_blocks (map (fun k => (hd k, sz k)) ks) (map num (concat bs)) = map (fun q => dmul (hd (fst q)) (num (snd q))) (spread ks bs).
Proof.
  unfold spread. induction 1 as [|k b ks bs E Sb IH]; [reflexivity|]. cbn [map d_blocks concat combine fst snd]. assert (L : Z.to_nat (sz k) = List.length (map num b)) by (rewrite map_length; lia). rewrite !map_app, L, firstn_app, skipn_app, Nat.sub_diag, firstn_all, skipn_all, firstn_O, app_nil_r. cbn [app skipn]. rewrite IH, !map_map. reflexivity.
Qed.
Lemma spread_in {K T} ks (bs : list (list T)) (q : K * T) : In q (spread ks bs) -> In (fst q) ks /\ In (snd q) (concat bs).
Proof.
  unfold spread. revert bs. induction ks as [|k ks IH]; intros [|b bs] I; try destruct I. cbn [combine map concat fst snd] in I. apply in_app_or in I. destruct I as [I|I].
  - apply in_map_iff in I. destruct I as (x & <- & I). cbn [fst snd concat]. split; [left; reflexivity|apply in_or_app; left; exact I].
  - destruct (IH _ I) as [A B]. split; [right; exact A|cbn [concat]; apply in_or_app; right; exact B].
Qed.
Lemma spread_sum {K T} (hr : K -> R) (f : T -> R) ks bs : rsum (map (fun q => hr (fst q) * f (snd q)) (spread ks bs)) = rsum (map (fun kb => hr (fst kb) * rsum (map f (snd kb))) (combine ks bs)).
Proof.
  unfold spread. revert bs. induction ks as [|k ks IH]; intros [|b bs]; try reflexivity. cbn [combine map concat fst snd rsum]. rewrite map_app, rsum_app, IH, map_map. f_equal. cbn [fst snd]. clear. induction b as [|x b IH]; cbn [map rsum]; [ring|]. rewrite IH. ring.
Qed.
Lemma spread_length {K T} (sz : K -> Z) ks (bs : list (list T)) : sized sz ks bs -> List.length (spread ks bs) = List.length (concat bs).
Proof. unfold spread. induction 1 as [|k b ks bs E Sb IH]; [reflexivity|]. cbn [combine map concat fst snd]. rewrite !app_length, map_length, IH. reflexivity. Qed.

Theorem blocks_near {K T} (hd : K -> double) (hr : K -> R) (sz : K -> Z) (num : T -> double) (goal : T -> aim) i j order ks bs : (forall l, orders l (order l)) ->
  Forall (fun k => near i (hr k) (hr k) 0 (hd k)) ks -> Forall (fun x => fin (num x) = true -> meets j (goal x) (num x)) (concat bs) -> sized sz ks bs ->
  let t := order (d_blocks (map (fun k => (hd k, sz k)) ks) (map num (concat bs))) in fin (tsum t) = true ->
  near (depth t + S (i + j)) (rsum (map (fun kb => hr (fst kb) * rsum (map (fun x => aX (goal x)) (snd kb))) (combine ks bs))) (rsum (map (fun kb => hr (fst kb) * rsum (map (fun x => aB (goal x)) (snd kb))) (combine ks bs)))
    (rsum (map (fun q => hr (fst q) * ae (goal (snd q)) + tiny) (spread ks bs))) (tsum t).
Proof.
  intros O N M Sz t F. pose proof (blocks_spread hd sz num ks bs Sz) as E. pose proof (O (d_blocks (map (fun k => (hd k, sz k)) ks) (map num (concat bs)))) as Ot. fold t in Ot. rewrite E in Ot. clearbody t. pose proof (orders_fin _ _ Ot F) as Fl. rewrite Forall_forall in N, M.
  assert (M' : Forall2 (meets (S (i + j))) (map (fun q => ((hr (fst q) * aX (goal (snd q)), hr (fst q) * aB (goal (snd q)), hr (fst q) * ae (goal (snd q)) + tiny) : aim)) (spread ks bs)) (map (fun q => dmul (hd (fst q)) (num (snd q))) (spread ks bs))).
  { assert (I : forall q, In q (spread ks bs) -> In (fst q) ks /\ In (snd q) (concat bs)) by (intros q; apply spread_in). revert Fl I. generalize (spread ks bs) as L. induction L as [|q L IH]; intros Fl I; cbn [map]; [constructor|]. inversion Fl as [|? ? Fq FL]; subst. constructor; [|apply IH; [exact FL|intros q' Iq; apply I; right; exact Iq]]. destruct (I q (or_introl eq_refl)) as [I1 I2]. destruct (dmul_fin _ _ Fq) as (_ & Fn & _). pose proof (near_mul _ _ _ _ _ _ _ _ _ _ (N _ I1) (M _ I2 Fn) Fq) as X. unfold meets. cbn [fst snd]. eapply near_weaken; [apply le_n| |exact X]. unfold ae. lra. }
  pose proof (order_near _ t _ _ Ot M' F) as X. unfold meets, total in X. cbn [fst snd] in X. rewrite !map_map in X. cbn [fst snd] in X. rewrite (spread_sum hr (fun x => aX (goal x))), (spread_sum hr (fun x => aB (goal x))) in X. exact X.
Qed.

Lemma blocks_le {K} (hd : K -> double) (sz : K -> Z) (ks : list K) u v : Forall (fun k => 0 <= val (hd k)) ks -> Forall (fun k => (0 <= sz k)%Z) ks -> Forall2 (fun a b => val a <= val b) u v -> Z.of_nat (List.length u) = fold_right Z.add 0%Z (map sz ks) ->
  let d := d_blocks (map (fun k => (hd k, sz k)) ks) in Forall (fun x => fin x = true) (d u) -> Forall (fun x => fin x = true) (d v) -> Forall2 (fun a b => val a <= val b) (d u) (d v) /\ List.length (d u) = List.length (d v).
Proof.
  intros P Z0 L E. cbv zeta. assert (Lv : List.length u = List.length v) by (clear -L; induction L; cbn; congruence). assert (Eu : u = map fst (combine u v)) by (clear -L; induction L; cbn; congruence). assert (Ev : v = map snd (combine u v)) by (clear -L; induction L; cbn; congruence). assert (Lp : Forall (fun q => val (fst q) <= val (snd q)) (combine u v)) by (clear -L; induction L; cbn [combine]; constructor; assumption). assert (Ep : Z.of_nat (List.length (combine u v)) = fold_right Z.add 0%Z (map sz ks)) by (rewrite combine_length; lia).
  set (p := combine u v) in *. clearbody p. destruct (sized_exists sz ks Z0 p Ep) as (bs & Eb & Sb). rewrite Eu, Ev, Eb, !(blocks_spread hd sz _ ks bs Sb), !map_length. rewrite Eb in Lp. rewrite Forall_forall in P, Lp. assert (I : forall q, In q (spread ks bs) -> In (fst q) ks /\ In (snd q) (concat bs)) by (intros q; apply spread_in). revert I. generalize (spread ks bs) as L'. intros L' I Fu Fv. split; [|reflexivity]. induction L' as [|q L' IH]; cbn [map] in *; [constructor|]. inversion Fu as [|? ? Fq FL]; inversion Fv as [|? ? Gq GL]; subst. constructor; [|apply IH; [intros q' Iq; apply I; right; exact Iq|exact FL|exact GL]]. destruct (I q (or_introl eq_refl)) as [I1 I2]. destruct (dmul_fin _ _ Fq) as (_ & _ & V). destruct (dmul_fin _ _ Gq) as (_ & _ & W). rewrite V, W. apply rnd_mono, Rmult_le_compat_l; [apply P, I1|apply Lp, I2].
Qed.
