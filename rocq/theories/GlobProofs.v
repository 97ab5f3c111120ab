(** Proofs about global numbering. *)
From Coq Require Import List ZArith Reals Bool String Lia.
From Verif Require Import PyBase PolyModel EdgeModel ContourModel CellModel MeshModel MeshSpec MeshProofs MeshProps GlobModel GlobSpec.
Import List ListNotations.
Open Scope Z_scope.

Definition key_of (d : dof) : res gkey :=
  match d with
  | Bubble _ k => mk_key "bubb" (PInt (-1)) (PInt (-1)) (PInt k) (PInt (-1))
  | VertexFun v => mk_key "vert" (PInt (-1)) (PInt v) (PInt (-1)) (PInt (-1))
  | EdgeFun e k => mk_key "edge" (PInt e) (PInt (-1)) (PInt (-1)) (PInt k)
  end.

Fixpoint zsum (l : list Z) : Z := match l with [] => 0 | x :: l => x + zsum l end.
Lemma fold_zsum l : forall a, fold_left Z.add l a = a + zsum l.
Proof. induction l as [|x l IH]; intros a; cbn; [lia|]. rewrite IH. lia. Qed.
Lemma cumsum_gen sizes : forall pre, pre <> [] -> let l := fold_left (fun l n => l ++ [last l 0 + n]) sizes pre in
  List.length l = (List.length pre + List.length sizes)%nat /\
  (forall e, (e < List.length pre)%nat -> nth_error l e = nth_error pre e) /\
  (forall e, (e <= List.length sizes)%nat -> nth_error l (List.length pre - 1 + e) = Some (last pre 0 + zsum (firstn e sizes))).
Proof.
  induction sizes as [|n sizes IH]; intros pre NE; cbn [fold_left].
  - split; [cbn; lia|]. split; [reflexivity|]. intros e Le. cbn in Le. assert (e = O) by lia. subst e. cbn [firstn zsum].
    destruct (exists_last NE) as (q & x & ->). rewrite last_last, app_length. cbn [List.length]. replace (List.length q + 1 - 1 + 0)%nat with (List.length q) by lia. rewrite nth_error_app2 by lia. rewrite Nat.sub_diag. cbn. f_equal. lia.
  - destruct (IH (pre ++ [last pre 0 + n])) as (L & P & S); [destruct pre; discriminate|]. rewrite app_length in L, P, S. cbn [List.length] in *. rewrite last_last in S.
    split; [lia|]. split.
    + intros e Le. rewrite P by lia. apply nth_error_app1, Le.
    + intros [|e] Le.
      * cbn [firstn zsum]. destruct (exists_last NE) as (q & x & ->). rewrite app_length in *. cbn [List.length] in *. rewrite P by lia. rewrite nth_error_app1 by (rewrite app_length; cbn; lia). replace (List.length q + 1 - 1 + 0)%nat with (List.length q) by lia. rewrite nth_error_app2 by lia. rewrite Nat.sub_diag, last_last. cbn. f_equal. lia.
      * specialize (S e ltac:(lia)). replace (List.length pre + 1 - 1 + e)%nat with (List.length pre - 1 + Datatypes.S e)%nat in S by (destruct pre; [congruence|cbn; lia]). rewrite S. f_equal. cbn. lia.
Qed.
Lemma cumsum_length sizes : List.length (cumsum sizes) = Datatypes.S (List.length sizes).
Proof. unfold cumsum. apply (proj1 (cumsum_gen sizes [0] ltac:(discriminate))). Qed.
Lemma cumsum_nth sizes e : (e <= List.length sizes)%nat -> nth_error (cumsum sizes) e = Some (zsum (firstn e sizes)).
Proof. intros L. unfold cumsum. destruct (cumsum_gen sizes [0] ltac:(discriminate)) as (_ & _ & S). exact (S e L). Qed.

Lemma firstn_add sizes : Forall (Z.le 0) sizes -> forall e n, nth_error sizes e = Some n -> zsum (firstn (Datatypes.S e) sizes) = zsum (firstn e sizes) + n.
Proof. induction sizes as [|x l IH]; intros F [|e] n E; try discriminate. - cbn in *. injection E as ->. lia. - inversion F; subst. specialize (IH H2 e n E). cbn [firstn zsum] in *. lia. Qed.
Lemma zsum_mono sizes : Forall (Z.le 0) sizes -> forall e e', (e <= e')%nat -> 0 <= zsum (firstn e sizes) <= zsum (firstn e' sizes).
Proof. induction sizes as [|x l IH]; intros F e e' L. - rewrite !firstn_nil. cbn. lia. - inversion F; subst. destruct e as [|e], e' as [|e']; try lia. + cbn. lia. + cbn [firstn]. specialize (IH H2 O e' ltac:(lia)). cbn in *; lia. + cbn [firstn]. specialize (IH H2 e e' ltac:(lia)). cbn in *; lia. Qed.
Lemma locate sizes : Forall (Z.le 0) sizes -> forall i, 0 <= i < zsum sizes -> exists e n, nth_error sizes e = Some n /\ 0 <= i - zsum (firstn e sizes) < n.
Proof.
  induction sizes as [|x l IH]; intros F i I; [cbn in I; lia|]. inversion F; subst. destruct (Z.lt_ge_cases i x) as [L|G].
  - exists O, x. split; [reflexivity|]. cbn. lia.
  - cbn in I. destruct (IH H2 (i - x) ltac:(lia)) as (e & n & E & B). exists (Datatypes.S e), n. split; [exact E|]. cbn [firstn]. cbn; lia.
Qed.
Lemma locate_inj sizes : Forall (Z.le 0) sizes -> forall e e' n n' k k', nth_error sizes e = Some n -> nth_error sizes e' = Some n' -> 0 <= k < n -> 0 <= k' < n' -> zsum (firstn e sizes) + k = zsum (firstn e' sizes) + k' -> e = e' /\ k = k'.
Proof.
  intros F e e' n n' k k' E E' K K' Q. pose proof (firstn_add _ F _ _ E). pose proof (firstn_add _ F _ _ E').
  destruct (Nat.lt_trichotomy e e') as [L|[->|L]]; [|split; [reflexivity|lia]|].
  - pose proof (zsum_mono _ F (Datatypes.S e) e' L). lia.
  - pose proof (zsum_mono _ F (Datatypes.S e') e L). lia.
Qed.

Lemma index_of_in z l : In z l -> forall s, exists k, index_of z l s = Ok k /\ s <= k < s + Z.of_nat (List.length l) /\ nth_error l (Z.to_nat (k - s)) = Some z.
Proof.
  induction l as [|x l IH]; intros I s; [destruct I|]. cbn [index_of List.length]. destruct (Z.eqb_spec z x) as [->|D].
  - exists s. split; [reflexivity|]. split; [lia|]. rewrite Z.sub_diag. reflexivity.
  - destruct I as [->|I]; [congruence|]. destruct (IH I (s + 1)) as (k & E & B & N). exists k. split; [exact E|]. split; [lia|]. replace (Z.to_nat (k - s)) with (Datatypes.S (Z.to_nat (k - (s + 1)))) by lia. exact N.
Qed.
Lemma index_of_out z l : ~ In z l -> forall s, index_of z l s = Err ValueError.
Proof. induction l as [|x l IH]; intros I s; cbn; [reflexivity|]. destruct (Z.eqb_spec z x) as [->|D]; [exfalso; apply I; left; reflexivity|]. apply IH. intros C. apply I. right. exact C. Qed.
Lemma index_of_nth l : NoDup l -> forall j z, nth_error l j = Some z -> forall s, index_of z l s = Ok (s + Z.of_nat j).
Proof.
  induction l as [|x l IH]; intros N j z E s; [destruct j; discriminate|]. inversion N; subst. cbn [index_of]. destruct j as [|j].
  - injection E as ->. rewrite Z.eqb_refl. f_equal. lia.
  - cbn in E. destruct (Z.eqb_spec z x) as [->|D]; [exfalso; apply H1; exact (nth_error_In _ _ E)|]. rewrite (IH H2 j z E). f_equal. lia.
Qed.
Lemma increasing_nodup l : increasing l -> NoDup l.
Proof. induction 1 as [|a l S IH F]; constructor; [|exact IH]. intros I. rewrite Forall_forall in F. specialize (F _ I). lia. Qed.

Lemma mk_space_fields m deg sizes p : mk_space m deg sizes = Ok p -> exists d, deg = PInt d /\ 1 <= d /\ p_mesh p = m /\ p_deg p = d /\ p_sizes p = sizes /\ p_nvert p = m_nverts m /\ p_nedge p = zsum sizes /\ p_nbubb p = m_ncells m * bubbles d /\
  p_num p = p_nvert p + p_nedge p + p_nbubb p /\ p_cumsum p = cumsum sizes /\ p_dofs p = repeat [] (Z.to_nat (m_ncells m)).
Proof.
  unfold mk_space, set_deg, as_int. destruct deg as [d|]; [|discriminate]. cbn [bind]. destruct (Z.ltb_spec d 1); [discriminate|]. cbn [bind]. intros E. apply Ok_inj in E. subst p. exists d. cbn. rewrite fold_zsum. unfold bubbles. repeat split; lia || reflexivity.
Qed.
Lemma pyget_nat {A} (l : list A) (j : Z) : 0 <= j -> pyget l j = geti l (Z.to_nat j).
Proof. intros J. unfold pyget. destruct (Z.ltb_spec j 0); [lia|]. destruct (Z.ltb_spec j 0); [lia|reflexivity]. Qed.
