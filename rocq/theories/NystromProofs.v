(** The operators of the Nyström solver as functions of arrays. *)
From Coq Require Import List ZArith Reals Lia Lra Bool.
From Coquelicot Require Import Coquelicot.
From Verif Require Import PyBase PolyModel PolySpec BaryModel QuadModel VertModel EdgeModel EdgeSpec EdgeProps4 ContourModel CellModel CellSpec CellProofs CellProps ContourProofs ContourProofs2 ContourProofs3 ContourProofs4 ContourProps CellProps3 TraceModel TraceSpec TraceProofs LocalProofs3 LocalModel LocalSpec LocalProofs LocalProofs2 LocalProofs5 FftModel FftSpec FftProofs FftProofs2 FftProofs3 FftProps AntilapModel AntilapSpec AntilapProofs AntilapProofs2 AntilapProofs3 AntilapProofs4 NystromModel.
Import List ListNotations.
Open Scope R_scope.

(** ** Shapes *)
Definition shape (n m : nat) (M : mat) : Prop := List.length M = n /\ Forall (fun r : list R => List.length r = m) M.
Lemma fold_keeps {A B} (P : B -> Prop) (f : B -> A -> res B) l : (forall b a b', P b -> f b a = Ok b' -> P b') -> forall b b', P b -> fold_res f l b = Ok b' -> P b'.
Proof.
  intros Hs. induction l as [|a l IH]; intros b b' Pb E; [apply Ok_inj in E; subst; exact Pb|]. cbn [fold_res] in E. destruct (f b a) as [b1|] eqn:E1; [|discriminate]. cbn [bind] in E. eapply IH; [eapply Hs; eassumption|exact E].
Qed.
Lemma set_slice_length {A} (l : list A) a b v l' : set_slice l a b v = Ok l' -> List.length l' = List.length l.
Proof.
  unfold set_slice. cbv zeta. destruct (Nat.eqb_spec (List.length v) (Nat.min (Z.to_nat b) (List.length l) - Nat.min (Z.to_nat a) (List.length l))) as [E|E].
  - intros X. apply Ok_inj in X. subst. rewrite !app_length, firstn_length, skipn_length. lia.
  - destruct v as [|x [|? ?]]; try discriminate. intros X. apply Ok_inj in X. subst. rewrite !app_length, firstn_length, skipn_length, repeat_length. lia.
Qed.
Lemma set_slice_In {A} (l : list A) a b v l' x : set_slice l a b v = Ok l' -> In x l' -> In x l \/ In x v.
Proof.
  assert (Fi : forall n, In x (firstn n l) -> In x l) by (intros n I; rewrite <- (firstn_skipn n l); apply in_or_app; auto). assert (Sk : forall n, In x (skipn n l) -> In x l) by (intros n I; rewrite <- (firstn_skipn n l); apply in_or_app; auto).
  unfold set_slice. cbv zeta. destruct (Nat.eqb _ _).
  - intros X I. apply Ok_inj in X. subst. apply in_app_or in I. destruct I as [I|I]; [eauto|]. apply in_app_or in I. destruct I; eauto.
  - destruct v as [|y [|? ?]]; try discriminate. intros X I. apply Ok_inj in X. subst. apply in_app_or in I. destruct I as [I|I]; [eauto|]. apply in_app_or in I. destruct I as [I|I]; [|eauto]. apply repeat_spec in I. right. left. auto.
Qed.
Lemma slice_In {A} (l : list A) a b x : In x (slice l a b) -> In x l.
Proof. unfold slice. intros I. rewrite <- (firstn_skipn (Z.to_nat a) l). apply in_or_app. right. rewrite <- (firstn_skipn (Z.to_nat b - Z.to_nat a) (skipn (Z.to_nat a) l)). apply in_or_app. left. exact I. Qed.
Lemma F2_In_r {A B} (P : A -> B -> Prop) l l' y : Forall2 P l l' -> In y l' -> exists x, In x l /\ P x y.
Proof. induction 1 as [|a b l l' Q F IH]; intros I; [destruct I|]. destruct I as [<-|I]; [exists a; split; [left; reflexivity|exact Q]|]. destruct (IH I) as (x & Ix & Px). exists x. split; [right; exact Ix|exact Px]. Qed.
Lemma set_block_shape n m M a b c d B M' : shape n m M -> set_block M a b c d B = Ok M' -> shape n m M'.
Proof.
  intros [L Fm] E. unfold set_block in E. destruct (Nat.eqb _ _); [|discriminate]. destruct (map_res _ _) as [rows|] eqn:Er; [|discriminate]. cbn [bind] in E. split; [rewrite (set_slice_length _ _ _ _ _ E); exact L|].
  apply Forall_forall. intros r Ir. rewrite Forall_forall in Fm. destruct (set_slice_In _ _ _ _ _ _ E Ir) as [I|I]; [apply Fm, I|]. apply map_res_ok in Er. destruct (F2_In_r _ _ _ _ Er I) as ([r0 b0] & I0 & E0). cbn [fst snd] in E0. rewrite (set_slice_length _ _ _ _ _ E0). apply Fm. apply in_combine_l in I0. eapply slice_In, I0.
Qed.
Lemma zero_shape n m : shape (Z.to_nat n) (Z.to_nat m) (zero_mat n m).
Proof. unfold zero_mat, shape. rewrite repeat_length. split; [reflexivity|]. apply Forall_forall. intros r I. apply repeat_spec in I. subst. apply repeat_length. Qed.
Lemma layer_shape H c block n M : c_npts c = Some n -> layer_mat H c block = Ok M -> shape (Z.to_nat n) (Z.to_nat n) M.
Proof.
  intros En E. unfold layer_mat in E. rewrite En in E. cbn [attr bind] in E. eapply fold_keeps; [|exact (zero_shape n n)|exact E]. clear E. intros M1 i M2 P E. cbv beta in E.
  destruct (attr (c_start c)) as [s|]; [|discriminate]. cbn [bind] in E. destruct (geti s i) as [a|]; [|discriminate]. cbn [bind] in E. destruct (geti s (S i)) as [b|]; [|discriminate]. cbn [bind] in E. destruct (geti (c_comps c) i) as [ki|]; [|discriminate]. cbn [bind] in E.
  eapply fold_keeps; [|exact P|exact E]. clear -n. intros M1 j M2 P E. cbv beta in E. destruct (geti s j) as [u|]; [|discriminate]. cbn [bind] in E. destruct (geti s (S j)) as [v|]; [|discriminate]. cbn [bind] in E. destruct (geti (c_comps c) j) as [kj|]; [|discriminate]. cbn [bind] in E. destruct (component_block _ _ _ _) as [B|]; [|discriminate]. cbn [bind] in E. eapply set_block_shape; eassumption.
Qed.

(** ** Arrays as functions of the index *)
Lemma as_map {A} (d : A) l : l = map (fun i => nth i l d) (seq 0 (List.length l)).
Proof. induction l as [|a l IH]; [reflexivity|]. cbn [List.length seq map nth]. f_equal. rewrite <- seq_shift, map_map. exact IH. Qed.
Lemma nth_sq {A} (f : nat -> A) n i d : (i < n)%nat -> nth i (map f (seq 0 n)) d = f i.
Proof. intros L. rewrite (nth_indep _ d (f 0%nat)) by (rewrite map_length, seq_length; exact L). rewrite map_nth, seq_nth by exact L. reflexivity. Qed.
Lemma sq_zip {A} (f : A -> R -> R) g : forall l : list nat, forall k, map (fun p => f (fst p) (snd p)) (combine (map g l) (map k l)) = map (fun i => f (g i) (k i)) l.
Proof. induction l as [|a l IH]; intros k; [reflexivity|]. cbn [map combine fst snd]. rewrite IH. reflexivity. Qed.
Lemma sq_mul n f g : np_mul (map f (seq 0 n)) (map g (seq 0 n)) = Ok (map (fun i => f i * g i) (seq 0 n)).
Proof. unfold np_mul. rewrite !map_length, Nat.eqb_refl. f_equal. apply (sq_zip Rmult). Qed.
Lemma sq_add n f g : np_add (map f (seq 0 n)) (map g (seq 0 n)) = Ok (map (fun i => f i + g i) (seq 0 n)).
Proof. unfold np_add. rewrite !map_length, Nat.eqb_refl. f_equal. apply (sq_zip Rplus). Qed.
Lemma sq_sub n f g : np_sub (map f (seq 0 n)) (map g (seq 0 n)) = Ok (map (fun i => f i - g i) (seq 0 n)).
Proof. unfold np_sub. rewrite map_map. rewrite sq_add. reflexivity. Qed.
Lemma sq_iadd n f g : np_iadd (map f (seq 0 n)) (map g (seq 0 n)) = Ok (map (fun i => f i + g i) (seq 0 n)).
Proof. rewrite np_iadd_zip by (rewrite !map_length; reflexivity). f_equal. apply (sq_zip Rplus). Qed.
Lemma mat_vec_ok n m M u : shape n m M -> List.length u = m -> mat_vec M u = Ok (map (fun i => np_dot (nth i M []) u) (seq 0 n)).
Proof.
  intros [L Fm] Lu. subst n m. unfold mat_vec. rewrite <- map_map with (f := fun i => nth i M []) (g := fun r => np_dot r u), <- as_map. induction Fm as [|r M Lr Fm IH]; [reflexivity|]. cbn [map_res map]. rewrite Lr, Nat.eqb_refl. cbn [bind]. rewrite IH. reflexivity.
Qed.
Lemma dot_linear r u v a b : List.length u = List.length v -> np_dot r (lincomb a b u v) = a * np_dot r u + b * np_dot r v.
Proof.
  revert u v. induction r as [|x r IH]; intros u v L; [cbn; ring|]. destruct u as [|y u], v as [|z v]; try discriminate; [cbn; ring|]. unfold lincomb, zip_with, np_dot in *. cbn [combine map fst snd]. unfold np_sum in *. cbn [fold_right]. rewrite (IH u v) by (cbn in L; lia). ring.
Qed.
Lemma dot_const r k n : List.length r = n -> np_dot r (repeat k n) = k * np_sum r.
Proof. intros <-. unfold np_dot. induction r as [|x r IH]; [cbn; ring|]. cbn [List.length repeat combine map fst snd np_sum fold_right]. unfold np_sum in *. rewrite IH. ring. Qed.

Lemma sum_const n k : np_sum (repeat k n) = INR n * k.
Proof. unfold np_sum. induction n as [|n IH]; [cbn; ring|]. cbn [repeat fold_right]. rewrite IH, S_INR. ring. Qed.
Lemma nth_lincomb a b u v i : List.length u = List.length v -> nth i (lincomb a b u v) 0 = a * nth i u 0 + b * nth i v 0.
Proof.
  revert v i. induction u as [|x u IH]; intros [|y v] i L; try discriminate; [destruct i; cbn; ring|]. unfold lincomb, zip_with in *. cbn [combine map fst snd]. destruct i as [|i]; [reflexivity|]. cbn [nth]. apply IH. cbn in L. lia.
Qed.
Lemma lincomb_length a b u v : List.length u = List.length v -> List.length (lincomb a b u v) = List.length u.
Proof. intros L. unfold lincomb, zip_with. rewrite map_length, combine_length. lia. Qed.
Lemma lincomb_sq a b n f g : lincomb a b (map f (seq 0 n)) (map g (seq 0 n)) = map (fun i => a * f i + b * g i) (seq 0 n).
Proof. unfold lincomb, zip_with. apply (sq_zip (fun x y => a * x + b * y)). Qed.
Lemma nth_repeat_lt {A} (k d : A) n i : (i < n)%nat -> nth i (repeat k n) d = k.
Proof. revert i. induction n as [|n IH]; intros i L; [lia|]. destruct i as [|i]; [reflexivity|]. cbn. apply IH. lia. Qed.
Lemma repeat_sq {A} (k : A) n : repeat k n = map (fun _ => k) (seq 0 n).
Proof. induction n as [|n IH]; [reflexivity|]. cbn [repeat seq map]. rewrite IH, <- seq_shift, map_map. reflexivity. Qed.
Lemma map_sq_ext {A} (f g : nat -> A) n : (forall i, (i < n)%nat -> f i = g i) -> map f (seq 0 n) = map g (seq 0 n).
Proof. intros E. apply map_ext_in. intros i I. apply in_seq in I. apply E. lia. Qed.

(** ** The operators on a cell *)
Section Cell.
Context {contains : R -> list pt -> pt -> bool} {H : heap} {c : cell} {ess : list (list edge)}.
Hypothesis Rd : ready contains H c.
Hypothesis B : boundary_edges H c ess.
Local Notation es := (concat ess).
Local Notation N := (Z.to_nat (csize es)).
Lemma NpF : cell_fresh H c ess.
Proof using Rd B. apply (ready_uniform _ _ _ _ Rd B). Qed.
Lemma fit_N u : fitting es u <-> List.length u = N.
Proof using Rd B. unfold fitting. pose proof (smp_len NpF). split; lia. Qed.
Lemma size_N : Z.of_nat N = csize es.
Proof using Rd B. pose proof (smp_len NpF). lia. Qed.

(** The table of closest corners stays inside the array. *)
Lemma closest_range l : Forall well_sampled l -> l <> [] -> Forall (fun i => (0 <= i < csize l)%Z) (closest l).
Proof.
  intros W Nl. unfold closest. change (total (map open_num l)) with (csize l). assert (P : (0 < csize l)%Z). { destruct l as [|e l]; [congruence|]. inversion W as [|? ? We Wl]; subst. pose proof (open_pos e We). pose proof (csize_nonneg l Wl). unfold csize in *. cbn [map]. change (total (open_num e :: map open_num l)) with (open_num e + total (map open_num l))%Z. lia. }
  apply Forall_concat.
  assert (G : forall a m, (0 <= a)%Z -> (a + m = csize l)%Z -> forall l', Forall well_sampled l' -> csize l' = m -> Forall (Forall (fun i => (0 <= i < csize l)%Z)) (closest_from (csize l) a l')).
  { intros a m Ha Hm l' W'. revert a m Ha Hm. induction W' as [|e l' We W' IH]; intros a m Ha Hm Em; [constructor|]. pose proof (open_pos e We) as [O1 _]. pose proof (csize_nonneg l' W') as O2. assert (Ec : csize (e :: l') = (open_num e + csize l')%Z) by reflexivity. cbn [closest_from]. constructor.
    - unfold closest_block. apply Forall_app. split; apply Forall_forall; intros i I; apply repeat_spec in I; subst i; [lia|]. apply Z.mod_pos_bound. lia.
    - apply (IH (a + open_num e)%Z (csize l')); lia. }
  apply (G 0%Z (csize l)); auto; lia.
Qed.
Lemma closest_table : exists idx, c_closest c = Some idx /\ List.length idx = N /\ Forall (fun i => (0 <= i)%Z /\ (Z.to_nat i < N)%nat) idx.
Proof using Rd B.
  destruct (ready_fresh _ _ _ Rd) as (ess' & F' & _ & TC & NE'). assert (ess' = ess) by (symmetry; exact (edges_unique H c ess' ess F' B)).
  subst ess'. exists (concat (map closest ess)). split; [exact TC|]. pose proof (fresh_all _ _ _ (proj1 NpF)) as W. pose proof size_N as SN.
  assert (LL : forall ls, Forall (Forall well_sampled) ls -> Z.of_nat (List.length (concat (map closest ls))) = csize (concat ls)).
  { clear. intros ls Wls. induction Wls as [|l ls Wl W IH]; [reflexivity|]. cbn [map concat]. rewrite app_length, Nat2Z.inj_add, IH. unfold csize. rewrite map_app. rewrite total_app. apply (f_equal2 Z.add); [|reflexivity]. unfold closest. symmetry. apply (nums_all _ _ (closest_lengths (total (map open_num l)) l 0 Wl)). }
  split; [pose proof (LL ess W); lia|]. apply Forall_concat, Forall_map, Forall_forall. intros l Il. rewrite Forall_forall in W, NE'. apply Forall_forall. intros i Ii. pose proof (closest_range l (W l Il) (NE' l Il)) as R0. rewrite Forall_forall in R0. specialize (R0 i Ii).
  assert (csize l <= csize es)%Z; [|lia]. clear -Il W. assert (W' : Forall (Forall well_sampled) ess) by (apply Forall_forall; exact W). clear W. induction W' as [|l0 ls W0 W IH]; [destruct Il|]. cbn [concat]. unfold csize in *. rewrite map_app, total_app. assert (P1 : (0 <= total (map open_num (concat ls)))%Z) by (apply csize_nonneg, Forall_concat, W). pose proof (csize_nonneg l0 W0) as P0. unfold csize in P0. destruct Il as [->|Il]; [lia|]. specialize (IH Il). lia.
Qed.

(** The matrices come out square. *)
Lemma layers_shape L : build_layers H c = Ok L -> shape N N (ly_single L) /\ shape N N (ly_double L) /\ ly_sum L = row_sums (ly_double L).
Proof using Rd B.
  intros E. pose proof (npts_cell NpF) as En. unfold build_layers in E. destruct (layer_mat H c single_block) as [A|] eqn:E1; [|discriminate]. cbn [bind] in E. destruct (layer_mat H c double_block) as [D|] eqn:E2; [|discriminate]. cbn [bind] in E. apply Ok_inj in E. subst L. cbn [ly_single ly_double ly_sum]. split; [|split; [|reflexivity]]; eapply layer_shape; eassumption.
Qed.
Lemma lin_call_ok f u y : List.length u = N -> f u = Ok y -> List.length y = N -> lin_call (csize es) f u = Ok y.
Proof using Rd B. intros Lu Ef Ly. pose proof size_N as SN. unfold lin_call. rewrite (proj2 (Z.eqb_eq _ _)) by lia. rewrite Ef. cbn [bind]. rewrite (proj2 (Z.eqb_eq _ _)) by lia. reflexivity. Qed.

Lemma single_ok L u : build_layers H c = Ok L -> List.length u = N -> single_layer c L u = Ok (map (fun i => np_dot (nth i (ly_single L) []) u) (seq 0 N)).
Proof using Rd B.
  intros E Lu. destruct (layers_shape L E) as (S1 & _). unfold single_layer. rewrite (npts_cell NpF). cbn [attr bind]. apply lin_call_ok; [exact Lu| |rewrite map_length; apply seq_length]. apply (mat_vec_ok N N); assumption.
Qed.
(** The corner that the table names for sample [i] *)
Definition corner_of (i : nat) : nat := match c_closest c with Some idx => Z.to_nat (nth i idx 0%Z) | None => 0%nat end.
Lemma corner_lt i : (i < N)%nat -> (corner_of i < N)%nat.
Proof using Rd B. intros Li. destruct closest_table as (idx & E & Le & Fi). unfold corner_of. rewrite E. rewrite Forall_forall in Fi. apply (Fi (nth i idx 0%Z)), nth_In. lia. Qed.
Lemma pick_ok u : List.length u = N -> exists idx, c_closest c = Some idx /\ pick u idx = Ok (map (fun i => nth (corner_of i) u 0) (seq 0 N)).
Proof using Rd B.
  intros Lu. destruct closest_table as (idx & E & Le & Fi). exists idx. split; [exact E|]. unfold corner_of. rewrite E. unfold pick. replace (map (fun i => nth (Z.to_nat (nth i idx 0%Z)) u 0) (seq 0 N)) with (map (fun z => nth (Z.to_nat z) u 0) idx) by (rewrite (as_map 0%Z idx) at 1; rewrite map_map, Le; reflexivity). apply map_res_ok. rewrite <- Lu in Fi. clear -Fi. induction Fi as [|i idx (P & L) F IH]; cbn [map]; constructor; [|exact IH]. apply geti_nth. apply nth_error_nth'. exact L.
Qed.
Definition double_at (L : layers) (u : list R) (i : nat) : R := 5 / 10 * (nth i u 0 - nth (corner_of i) u 0) + np_dot (nth i (ly_double L) []) u - nth (corner_of i) u 0 * np_sum (nth i (ly_double L) []).
Lemma double_ok L u : build_layers H c = Ok L -> List.length u = N -> double_layer c L u = Ok (map (double_at L u) (seq 0 N)).
Proof using Rd B.
  intros E Lu. destruct (layers_shape L E) as (_ & S2 & Es). unfold double_layer. rewrite (npts_cell NpF). cbn [attr bind]. apply lin_call_ok; [exact Lu| |rewrite map_length; apply seq_length]. destruct (pick_ok u Lu) as (idx & Ei & Ep). rewrite Ei. cbn [attr bind]. rewrite Ep. cbn [bind]. rewrite (as_map 0 u) at 1. rewrite Lu, sq_sub. cbn [bind]. rewrite map_map, (mat_vec_ok N N _ u S2 Lu). cbn [bind]. rewrite sq_iadd. cbn [bind].
  assert (Er : ly_sum L = map (fun i => np_sum (nth i (ly_double L) [])) (seq 0 N)). { rewrite Es. unfold row_sums. rewrite (as_map [] (ly_double L)) at 1. rewrite map_map, (proj1 S2). reflexivity. }
  rewrite Er, sq_mul. cbn [bind]. rewrite map_map, sq_iadd. reflexivity.
Qed.
(** The quadrature sum of an array over the boundary *)
Definition total_int (u : list R) : R := boundary_sum es (zip_with Rmult u (samples_of es sw)).
Lemma total_int_ok u : List.length u = N -> cell_integrate u H c = Ok (total_int u).
Proof using Rd B.
  intros Lu. destruct (ready_uniform _ _ _ _ Rd B) as (F & NE & ? & U). unfold cell_integrate. rewrite (comps_guard _ _ _ (proj1 F)). cbn [bind]. rewrite (cell_dx_ok H c ess _ F) by (rewrite total_cell; apply fit_N, Lu). cbn [bind]. rewrite (pre_ok F NE U); [unfold total_int, boundary_sum, hstep; rewrite smp_cell; reflexivity|]. unfold fitting. rewrite smp_cell, zip_length; [rewrite Lu; apply size_N|rewrite map_length]. pose proof (smp_len F). lia.
Qed.
Lemma neumann_ok L u : build_layers H c = Ok L -> List.length u = N -> neumann_op H c L u = Ok (map (fun i => double_at L u i + total_int u) (seq 0 N)).
Proof using Rd B.
  intros E Lu. unfold neumann_op. rewrite (npts_cell NpF). cbn [attr bind]. apply lin_call_ok; [exact Lu| |rewrite map_length; apply seq_length]. rewrite (double_ok L u E Lu). cbn [bind]. rewrite (total_int_ok u Lu). cbn [bind]. rewrite map_map. reflexivity.
Qed.
Lemma double_at_linear L a b u v i : List.length u = List.length v -> double_at L (lincomb a b u v) i = a * double_at L u i + b * double_at L v i.
Proof. intros Luv. unfold double_at. rewrite dot_linear, !nth_lincomb by exact Luv. ring. Qed.
Lemma zip_lincomb a b u v w : List.length u = List.length v -> sum_list (zip_with Rmult (lincomb a b u v) w) = a * sum_list (zip_with Rmult u w) + b * sum_list (zip_with Rmult v w).
Proof.
  revert v w. induction u as [|x u IH]; intros [|y v] w L; try discriminate; [cbn; ring|]. destruct w as [|z w]; [cbn; ring|]. unfold lincomb, zip_with, sum_list in *. cbn [combine map fst snd fold_right]. rewrite (IH v w) by (cbn in L; lia). ring.
Qed.
Lemma total_linear a b u v : List.length u = List.length v -> total_int (lincomb a b u v) = a * total_int u + b * total_int v.
Proof. intros L. unfold total_int, boundary_sum. rewrite zip_lincomb by exact L. ring. Qed.
Lemma double_at_const L k i : shape N N (ly_double L) -> (i < N)%nat -> (corner_of i < N)%nat -> double_at L (repeat k N) i = 0.
Proof. intros [L1 L2] Li Lc. unfold double_at. rewrite !nth_repeat_lt by assumption. rewrite dot_const; [ring|]. rewrite Forall_forall in L2. apply L2, nth_In. lia. Qed.
Lemma total_const k : total_int (repeat k N) = k * boundary_sum es (samples_of es sw).
Proof using Rd B.
  pose proof (smp_len NpF) as L. unfold total_int, boundary_sum. replace (sum_list (zip_with Rmult (repeat k N) (samples_of es sw))) with (k * sum_list (samples_of es sw)); [ring|]. unfold samples_of. rewrite <- L, Nat2Z.id. generalize (contour_smp es). intros l. induction l as [|s l IH]; [cbn; ring|]. cbn [List.length repeat map]. unfold zip_with, sum_list in *. cbn [combine map fst snd fold_right]. rewrite <- IH. ring.
Qed.
End Cell.
