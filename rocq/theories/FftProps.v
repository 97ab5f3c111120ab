(** C57: spectral differentiation. *)
From Coq Require Import List ZArith Reals Lia Lra Bool.
From Coquelicot Require Import Coquelicot.
From Verif Require Import PyBase EdgeModel EdgeSpec EdgeProps4 ContourModel CellModel CellSpec CellProofs CellProps ContourProofs ContourProofs3 ContourProps CellProps3 FftModel FftSpec FftProofs FftProofs2.
From Verif Require Import LocalProofs5 FftProofs3 Annulus DiscCell.
Import List ListNotations.
Open Scope R_scope.

Lemma f_length_pos (f : list R) : f <> [] -> (0 < length f)%nat.
Proof. destruct f; [congruence|cbn; lia]. Qed.
(** Every data has exactly one trigonometric interpolant. *)
Theorem C57_interpolant f L : f <> [] -> L <> 0 ->
  exists T, resolved (length f) T /\ f = samples L (length f) (trig L T) /\
  forall T', resolved (length f) T' -> f = samples L (length f) (trig L T') -> forall t, trig L T' t = trig L T t.
Proof.
  intros NE LZ. exists (fit f). split; [apply fit_resolved, NE|]. split; [apply fit_samples; assumption|]. intros T' Rs E t. apply (trig_unique L (length f)); try assumption; [apply f_length_pos, NE|apply fit_resolved, NE|]. rewrite <- E. apply fit_samples; assumption.
Qed.
Print Assumptions C57_interpolant.

Lemma term_d L m a b t : L <> 0 -> derivable_pt_lim (fun t => tval_at L t (m, (a, b))) t (tval_at L t (m, (b * (2 * PI * IZR m / L), - a * (2 * PI * IZR m / L)))).
Proof. intros LZ. apply is_derive_Reals. cbn [tval_at]. auto_derive; [exact I|]. ring. Qed.
Definition dfull (L : R) (q : tterm) : tterm := let '(m, (a, b)) := q in (m, (b * (2 * PI * IZR m / L), - a * (2 * PI * IZR m / L))).
Lemma trig_d L T t : L <> 0 -> derivable_pt_lim (trig L T) t (trig L (map (dfull L) T) t).
Proof.
  intros LZ. unfold trig. induction T as [|[m [a b]] T IH]; [apply (derivable_pt_lim_const 0)|]. cbn [map dfull]. rewrite sum_cons. apply (derivable_pt_lim_plus (fun t => tval_at L t (m, (a, b))) (fun t => sum_list (map (tval_at L t) T))); [apply term_d, LZ|exact IH].
Qed.
(** The code returns the samples of the derivative of the interpolant, for odd and even counts. *)
Theorem C57_derivative f L T : f <> [] -> L <> 0 -> resolved (length f) T -> f = samples L (length f) (trig L T) ->
  exists d, (forall t, derivable_pt_lim (trig L T) t (d t)) /\ fft_derivative f L = Ok (samples L (length f) d).
Proof.
  intros NE LZ Rs E. exists (trig L (map (dfull L) T)). split; [intros t; apply trig_d, LZ|]. pose proof (f_length_pos f NE) as P. rewrite E at 1. rewrite derivative_samples by assumption. f_equal. apply samples_ext. intros n Ln. unfold trig. rewrite !map_map. apply sum_map_ext. eapply Forall_impl; [|exact Rs]. intros [m [a b]] Q. cbn [resolved1] in Q. cbn [dterm dfull]. unfold lost.
  destruct (Z.eqb_spec (2 * Z.abs m) (Z.of_nat (length f))) as [Ny|_]; [|reflexivity]. destruct Q as [Q|[_ ->]]; [lia|]. rewrite !tval_node, nyq_sin by assumption. ring.
Qed.
Print Assumptions C57_derivative.

(** Elementwise a f + b g *)
Definition lin (a b : R) (f g : list R) : list R := map (fun p => a * fst p + b * snd p) (combine f g).
Lemma lin_length a b f g : length f = length g -> length (lin a b f g) = length f.
Proof. intros E. unfold lin. rewrite map_length, combine_length, <- E. apply Nat.min_id. Qed.
Lemma lin_nth a b f g n : length f = length g -> nth n (lin a b f g) 0 = a * nth n f 0 + b * nth n g 0.
Proof.
  intros E. unfold lin. destruct (Nat.lt_ge_cases n (length f)) as [L|L].
  - rewrite (nth_map_in _ _ n (0, 0)) by (rewrite combine_length; lia). rewrite combine_nth by exact E. reflexivity.
  - rewrite !nth_overflow; [ring|lia|lia|rewrite map_length, combine_length; lia].
Qed.
Lemma lin_maps a b (u v : nat -> R) l : lin a b (map u l) (map v l) = map (fun j => a * u j + b * v j) l.
Proof. induction l as [|x l IH]; [reflexivity|]. cbn. f_equal. exact IH. Qed.
Lemma mult_lin_re N phi a b f g : length f = N -> length g = N -> Re (mult N phi (fun n => RtoC (nth n (lin a b f g) 0))) = a * Re (mult N phi (fun n => RtoC (nth n f 0))) + b * Re (mult N phi (fun n => RtoC (nth n g 0))).
Proof.
  intros E1 E2. rewrite (mult_ext _ _ _ (fun n => Cplus (Cmult (RtoC a) (RtoC (nth n f 0))) (Cmult (RtoC b) (RtoC (nth n g 0))))) by (intros; rewrite lin_nth by congruence; rewrite RtoC_plus, !RtoC_mult; reflexivity). rewrite mult_lin, <- !re_scal. reflexivity.
Qed.
(** Both maps are linear. *)
Theorem C57_linear f g L a b : f <> [] -> length f = length g -> L <> 0 ->
  (exists df dg, fft_derivative f L = Ok df /\ fft_derivative g L = Ok dg /\ length df = length f /\ length dg = length f /\ fft_derivative (lin a b f g) L = Ok (lin a b df dg)) /\
  (exists df dg, fft_antiderivative f L = Ok df /\ fft_antiderivative g L = Ok dg /\ length df = length f /\ length dg = length f /\ fft_antiderivative (lin a b f g) L = Ok (lin a b df dg)).
Proof.
  intros NE E LZ. assert (NG : g <> []) by (destruct f, g; cbn in E; congruence). assert (NL : lin a b f g <> []) by (intros Z; apply (f_equal (@length R)) in Z; rewrite lin_length in Z by exact E; destruct f; cbn in Z; congruence).
  split.
  - rewrite (derivative_mult f), (derivative_mult g), (derivative_mult (lin a b f g)) by assumption. eexists _, _. split; [reflexivity|]. split; [reflexivity|]. rewrite lin_length, <- E, !map_length, seq_length by exact E. split; [reflexivity|]. split; [reflexivity|]. rewrite lin_maps. f_equal. apply map_ext. intros j. apply mult_lin_re; congruence.
  - rewrite (antiderivative_mult f), (antiderivative_mult g), (antiderivative_mult (lin a b f g)) by assumption. eexists _, _. split; [reflexivity|]. split; [reflexivity|]. rewrite lin_length, <- E, !map_length, seq_length by exact E. split; [reflexivity|]. split; [reflexivity|]. rewrite lin_maps. f_equal. apply map_ext. intros j. apply mult_lin_re; congruence.
Qed.
Print Assumptions C57_linear.

(** The antiderivative of an interpolant: its derivative is the interpolant without the constant and
    the alternating term, and its mean is zero. *)
Theorem C57_antiderivative f L T : f <> [] -> L <> 0 -> resolved (length f) T -> f = samples L (length f) (trig L T) ->
  exists F, resolved (length f) F /\ fft_antiderivative f L = Ok (samples L (length f) (trig L F)) /\ mean (samples L (length f) (trig L F)) = 0 /\
  forall t, derivable_pt_lim (trig L F) t (trig L (filter (inner1 (length f)) T) t).
Proof.
  intros NE LZ Rs E. pose proof (f_length_pos f NE) as P. exists (map (aterm L (length f)) T). assert (RF : resolved (length f) (map (aterm L (length f)) T)) by (apply resolved_map; [exact Rs|apply aterm_resolved]). split; [exact RF|]. split; [rewrite E at 1; apply antiderivative_samples; assumption|]. split.
  - rewrite mean_terms by assumption. rewrite map_map. clear - Rs. induction Rs as [|[m [a b]] T Q Rs IH]; [reflexivity|]. cbn [map]. rewrite sum_cons, IH. cbn [aterm]. destruct (Z.eqb_spec m 0) as [->|M]; [cbn; ring|]. cbn [orb]. destruct (lost _ m); cbn [fst snd]; (destruct (Z.eqb_spec m 0); [lia|ring]).
  - intros t. fold (osc (length f) T). destruct (compose_terms L (length f) T t LZ Rs) as [_ <-]. pose proof (trig_d L (map (aterm L (length f)) T) t LZ) as D. replace (trig L (map (dterm L (length f)) (map (aterm L (length f)) T)) t) with (trig L (map (dfull L) (map (aterm L (length f)) T)) t); [exact D|]. unfold trig. rewrite !map_map. apply sum_map_ext, Forall_forall. intros [m [a b]] _. cbn [aterm]. destruct (m =? 0)%Z eqn:M; cbn [orb]; [|destruct (lost (length f) m) eqn:Ls]; cbn [dterm dfull]; rewrite ?Ls; try destruct (lost (length f) m); try reflexivity; cbn [tval_at]; ring.
Qed.
Print Assumptions C57_antiderivative.

(** Composing both, in either order, removes the mean and the alternating part and nothing else. *)
Theorem C57_inverse f L : f <> [] -> L <> 0 ->
  (exists df, fft_derivative f L = Ok df /\ fft_antiderivative df L = Ok (map (fun j => nth j f 0 - mean f - (-1) ^ j * alternating f) (seq 0 (length f)))) /\
  (exists af, fft_antiderivative f L = Ok af /\ fft_derivative af L = Ok (map (fun j => nth j f 0 - mean f - (-1) ^ j * alternating f) (seq 0 (length f)))).
Proof.
  intros NE LZ. pose proof (f_length_pos f NE) as P. pose proof (fit_resolved f NE) as Rs. pose proof (fit_samples f L NE LZ) as E. set (T := fit f) in *. set (N := length f) in *.
  assert (X : forall g, (forall t, trig L g t = trig L (osc N T) t) -> samples L N (trig L g) = map (fun j => nth j f 0 - mean f - (-1) ^ j * alternating f) (seq 0 N)).
  { intros g G. apply map_ext_in. intros j Ij. apply in_seq in Ij. rewrite G, osc_samples by (assumption || lia). rewrite <- E. f_equal. f_equal. rewrite E at 1. rewrite samples_nth by lia. reflexivity. }
  split.
  - eexists. split; [rewrite E at 1; apply derivative_samples; assumption|]. rewrite antiderivative_samples by (first [assumption|apply resolved_map; [exact Rs|apply dterm_resolved]]). f_equal. apply X. intros t. apply compose_terms; assumption.
  - eexists. split; [rewrite E at 1; apply antiderivative_samples; assumption|]. rewrite derivative_samples by (first [assumption|apply resolved_map; [exact Rs|apply aterm_resolved]]). f_equal. apply X. intros t. apply compose_terms; assumption.
Qed.
Print Assumptions C57_inverse.
(** For an odd number of samples this is inversion up to the mean. The full statement (every number
    of samples) is refuted below; what is missing is the even case. *)
Theorem C57_inverse_partial f L : Nat.odd (length f) = true -> L <> 0 ->
  (exists df, fft_derivative f L = Ok df /\ fft_antiderivative df L = Ok (map (fun x => x - mean f) f)) /\
  (exists af, fft_antiderivative f L = Ok af /\ fft_derivative af L = Ok (map (fun x => x - mean f) f)).
Proof.
  intros O LZ. assert (NE : f <> []) by (intros ->; cbn in O; discriminate). assert (Z : alternating f = 0) by (unfold alternating; rewrite <- Nat.negb_odd, O; reflexivity). assert (X : map (fun j => nth j f 0 - mean f - (-1) ^ j * alternating f) (seq 0 (length f)) = map (fun x => x - mean f) f).
  { rewrite Z. transitivity (map (fun x => x - mean f) (map (fun j => nth j f 0) (seq 0 (length f)))); [rewrite map_map; apply map_ext; intros j; ring|]. rewrite <- as_list. reflexivity. }
  rewrite <- X. apply C57_inverse; assumption.
Qed.
Print Assumptions C57_inverse_partial.
(** For every even number of samples there is data of mean zero whose derivative is zero, so no
    operation on the derivative recovers it; the antiderivative returns zeros. *)
Theorem C57_inverse_refuted N L : Nat.even N = true -> (0 < N)%nat -> L <> 0 ->
  exists f, length f = N /\ mean f = 0 /\ f <> map (fun _ => 0) f /\ fft_derivative f L = Ok (map (fun _ => 0) f) /\ fft_antiderivative (map (fun _ => 0) f) L = Ok (map (fun _ => 0) f).
Proof.
  intros Ev P LZ. apply Nat.even_spec in Ev. destruct Ev as [h Eh]. set (T := [(Z.of_nat h, (1, 0))] : list tterm). assert (Ny : (2 * Z.abs (Z.of_nat h) = Z.of_nat N)%Z) by lia. assert (Rs : resolved N T) by (constructor; [cbn [resolved1]; right; split; [exact Ny|reflexivity]|constructor]).
  exists (samples L N (trig L T)). assert (Z0 : forall g, (forall t, g t = 0) -> samples L N g = map (fun _ => 0) (samples L N (trig L T))) by (intros g G; unfold samples; rewrite map_map; apply map_ext; intros; apply G).
  split; [apply samples_length|]. split; [rewrite mean_terms by assumption; cbn [map T fst snd]; rewrite sum_cons; destruct (Z.eqb_spec (Z.of_nat h) 0); [lia|]; cbn; ring|]. split.
  - intros E. apply (f_equal (fun l => nth 0 l 0)) in E. rewrite (nth_map_in _ _ 0%nat 0) in E by (rewrite samples_length; exact P). rewrite samples_nth in E by exact P. unfold trig in E. cbn [map T] in E. rewrite sum_cons, tval_node in E by assumption. rewrite nyq_cos in E by assumption. cbn in E. lra.
  - split.
    + rewrite derivative_samples by assumption. f_equal. apply Z0. intros t. unfold trig. cbn [map T dterm]. replace (lost N (Z.of_nat h)) with true by (symmetry; apply Z.eqb_eq; exact Ny). rewrite sum_cons. cbn. ring.
    + rewrite <- (Z0 (trig L [])) by reflexivity. rewrite antiderivative_samples by (try assumption; constructor). reflexivity.
Qed.
Print Assumptions C57_inverse_refuted.
(** No samples, or a period of length zero. *)
Theorem C57_refused f L : fft_derivative [] L = Err ValueError /\ fft_antiderivative [] L = Err ValueError /\ (f <> [] -> fft_derivative f 0 = Err ZeroDivisionError).
Proof. split; [reflexivity|]. split; [reflexivity|]. intros NE. unfold fft_derivative. destruct f; [congruence|]. destruct (Req_EM_T 0 0); congruence. Qed.
Print Assumptions C57_refused.

(** ** On the components of a cell *)
Lemma components_ok G contains H c ess fs : (forall f L, f <> [] -> L <> 0 -> exists d, G f L = Ok d /\ length d = length f) ->
  ready contains H c -> boundary_edges H c ess -> ccut ess fs ->
  exists ds, cell_fill c (fun k a b => G (slice (concat fs) a b) (2 * PI * INR (k_num k))) = Ok (concat ds) /\ Forall2 (fun '(f, es) d => G f (2 * PI * INR (length es)) = Ok d /\ length d = length f) (combine fs ess) ds.
Proof.
  intros HG Rd B Cu. destruct (ready_uniform _ _ _ _ Rd B) as (F & NE & _). pose proof (fresh_all _ _ _ (proj1 F)) as W.
  assert (X : exists ds, Forall2 (fun '(f, es) d => G f (2 * PI * INR (length es)) = Ok d /\ length d = length f) (combine fs ess) ds /\ ccut ess ds).
  { clear F B Rd. unfold ccut in *. revert fs Cu. induction W as [|es ess We W IH]; intros fs Cu; inversion Cu as [|n f ns fs' Lf Cu']; subst; [exists []; split; constructor|]. inversion NE as [|? ? Ne NE']; subst. destruct (IH NE' fs' Cu') as (ds & D1 & D2).
    assert (Ln : (0 < length es)%nat) by (destruct es; [congruence|cbn; lia]). assert (Cp : (0 < csize es)%Z). { destruct es as [|e es]; [congruence|]. inversion We as [|? ? We1 We2]; subst. unfold csize, total. cbn [map fold_right]. pose proof (proj1 (open_pos e We1)). pose proof (csize_nonneg es We2) as Y. unfold csize, total in Y. lia. }
    destruct (HG f (2 * PI * INR (length es))) as (d & Ed & Ld).
    - intros ->. cbn in Lf. lia.
    - pose proof PI_neq0. apply Rmult_integral_contrapositive_currified; [lra|]. apply not_0_INR. lia.
    - exists (d :: ds). cbn [combine map]. split; constructor; auto. congruence. }
  destruct X as (ds & D1 & D2). exists ds. split; [|exact D1]. eapply cell_fill_ok; [exact F|exact D2|]. intros i k es d Ek Ees Fk Ed. cbv beta. destruct (nth_error fs i) as [f|] eqn:Ef.
  - rewrite (nums_slice (map csize ess) fs i f Cu Ef). assert (Ec : nth_error (combine fs ess) i = Some (f, es)). { clear - Ef Ees. revert fs ess Ef Ees. induction i as [|i IH]; intros [|x fs] [|y ess] A B; cbn in *; try discriminate; [congruence|apply IH; assumption]. }
    pose proof (Forall2_nth _ _ _ D1 _ _ _ Ec Ed) as [Y _]. cbn in Y. destruct Fk as (Rf & _). unfold k_num. rewrite (Forall2_len _ _ _ Rf). exact Y.
  - exfalso. apply nth_error_None in Ef. assert (i < length ess)%nat by (apply nth_error_Some; congruence). pose proof (Forall2_len _ _ _ Cu) as Z. rewrite map_length in Z. lia.
Qed.
(** The weighted tangential derivative and the antiderivative act on each component by itself, with
    the length 2 pi times its number of edges as period. *)
Theorem C57_components contains H c ess fs : ready contains H c -> boundary_edges H c ess -> ccut ess fs ->
  (exists ds, wtd_from_trace c (concat fs) = Ok (concat ds) /\ Forall2 (fun '(f, es) d => fft_derivative f (2 * PI * INR (length es)) = Ok d /\ length d = length f) (combine fs ess) ds) /\
  (exists ds, antiderivative_components c (concat fs) = Ok (concat ds) /\ Forall2 (fun '(f, es) d => fft_antiderivative f (2 * PI * INR (length es)) = Ok d /\ length d = length f) (combine fs ess) ds).
Proof.
  intros Rd B Cu. split; (eapply components_ok; [|eassumption..]); intros f L NE LZ.
  - rewrite derivative_mult by assumption. eexists. split; [reflexivity|]. rewrite map_length, seq_length. reflexivity.
  - rewrite antiderivative_mult by assumption. eexists. split; [reflexivity|]. rewrite map_length, seq_length. reflexivity.
Qed.
Print Assumptions C57_components.

(** ** Cells always have even counts *)
(** Every component of a parameterized cell has an even number of samples, so the loss happens on
    every cell: some nonzero boundary data, of mean zero on each component, has derivative zero. *)
Theorem C57_cells_refuted contains H c ess : ready contains H c -> boundary_edges H c ess ->
  exists fs, ccut ess fs /\ fs <> [] /\ Forall (fun f => Nat.even (length f) = true /\ mean f = 0 /\ f <> map (fun _ => 0) f) fs /\
  wtd_from_trace c (concat fs) = Ok (map (fun _ => 0) (concat fs)) /\ antiderivative_components c (map (fun _ => 0) (concat fs)) = Ok (map (fun _ => 0) (concat fs)).
Proof.
  intros Rd B. destruct (ready_uniform _ _ _ _ Rd B) as (F & NE & _). pose proof (fresh_all _ _ _ (proj1 F)) as W. destruct (ready_odd _ _ _ _ Rd B) as (M & U).
  pose proof PI_neq0 as PZ.
  assert (X : exists fs, ccut ess fs /\ Forall2 (fun es f => Nat.even (length f) = true /\ mean f = 0 /\ f <> map (fun _ => 0) f /\ fft_derivative f (2 * PI * INR (length es)) = Ok (map (fun _ => 0) f) /\ fft_antiderivative (map (fun _ => 0) f) (2 * PI * INR (length es)) = Ok (map (fun _ => 0) f)) ess fs).
  { clear - W U NE PZ. unfold ccut. induction W as [|es ess We W IH]; [exists []; split; constructor|]. inversion U as [|? ? Ue U']; inversion NE as [|? ? Ne NE']; subst. destruct (IH NE' U') as (fs & C1 & C2).
    assert (Cs : csize es = (Z.of_nat (length es) * (2 * M))%Z). { clear -Ue. induction Ue as [|e es E U IH]; [reflexivity|]. unfold csize in *. cbn [map length]. change (total (open_num e :: map open_num es)) with (open_num e + total (map open_num es))%Z. rewrite IH. unfold open_num. rewrite E. lia. }
    assert (Cp : (0 < csize es)%Z). { destruct es as [|e es]; [congruence|]. inversion We as [|? ? We1 We2]; subst. unfold csize, total. cbn [map fold_right]. pose proof (proj1 (open_pos e We1)). pose proof (csize_nonneg es We2) as Y. unfold csize, total in Y. lia. }
    destruct (C57_inverse_refuted (Z.to_nat (csize es)) (2 * PI * INR (length es))) as (f & L1 & L2 & L3 & L4 & L5).
    - apply Nat.even_spec. exists (length es * Z.to_nat M)%nat. rewrite Cs. assert (0 <= M)%Z by nia. nia.
    - lia.
    - apply Rmult_integral_contrapositive_currified; [lra|]. apply not_0_INR. destruct es; [congruence|discriminate].
    - exists (f :: fs). cbn [map]. split; constructor; auto; [lia|]. repeat split; auto. rewrite L1. apply Nat.even_spec. exists (length es * Z.to_nat M)%nat. rewrite Cs. assert (0 <= M)%Z by nia. nia. }
  destruct X as (fs & Cu & X). assert (Cu0 : ccut ess (map (map (fun _ => 0)) fs)) by (clear -Cu; unfold ccut in *; induction Cu; constructor; [rewrite map_length|]; assumption). exists fs. split; [exact Cu|]. split; [|split; [|split]].
  - intros ->. apply (ready_nonempty _ _ _ _ Rd B). inversion Cu as [E|]. destruct ess; [reflexivity|discriminate].
  - clear -X. induction X as [|es f ess fs (A1 & A2 & A3 & _) X IH]; constructor; auto.
  - destruct (C57_components contains H c ess fs Rd B Cu) as [(ds & -> & D) _]. f_equal. rewrite concat_map. f_equal. clear -X D. revert ds D. induction X as [|es f ess fs (_ & _ & _ & A & _) X IH]; intros ds D; inversion D as [|? d ? ds' HL D']; subst; [reflexivity|]. cbv beta iota in HL. destruct HL as [HL _]. rewrite A in HL. apply Ok_inj in HL. subst d. cbn [map]. f_equal. apply IH, D'.
  - rewrite concat_map. destruct (C57_components contains H c ess (map (map (fun _ => 0)) fs) Rd B Cu0) as [_ (ds & -> & D)]. f_equal. f_equal. clear -X D. revert ds D. induction X as [|es f ess fs (_ & _ & _ & _ & A) X IH]; intros ds D; inversion D as [|? d ? ds' HL D']; subst; [reflexivity|]. cbv beta iota in HL. destruct HL as [HL _]. rewrite A in HL. apply Ok_inj in HL. subst d. cbn [map]. f_equal. apply IH, D'.
Qed.
Print Assumptions C57_cells_refuted.

(** Example: four samples of the sine; its derivative is the cosine, and the antiderivative of the
    cosine is the sine *)
Lemma sine4 : [0; 1; 0; -1] = samples (2 * PI) 4 (trig (2 * PI) [(1%Z, (0, 1))]).
Proof.
  pose proof PI_neq0. unfold samples, trig. cbn [seq map]. rewrite !sum_cons. cbn [sum_list fold_right tval_at INR]. repeat (apply f_equal2; [|]); try reflexivity.
  - replace (2 * PI * 1 / (2 * PI) * (2 * PI * 0 / (1 + 1 + 1 + 1))) with 0 by (field; auto). rewrite sin_0. ring.
  - replace (2 * PI * 1 / (2 * PI) * (2 * PI * 1 / (1 + 1 + 1 + 1))) with (PI / 2) by (field; auto). rewrite sin_PI2. ring.
  - replace (2 * PI * 1 / (2 * PI) * (2 * PI * (1 + 1) / (1 + 1 + 1 + 1))) with PI by (field; auto). rewrite sin_PI. ring.
  - replace (2 * PI * 1 / (2 * PI) * (2 * PI * (1 + 1 + 1) / (1 + 1 + 1 + 1))) with (3 * (PI / 2)) by (field; auto). rewrite sin_3PI2. ring.
Qed.
Example C57_example : fft_derivative [0; 1; 0; -1] (2 * PI) = Ok [1; 0; -1; 0] /\ fft_antiderivative [1; 0; -1; 0] (2 * PI) = Ok [0; 1; 0; -1].
Proof.
  pose proof PI_neq0. assert (LZ : 2 * PI <> 0) by lra. assert (Rs : resolved 4 [(1%Z, (0, 1))]) by (constructor; [cbn; left; lia|constructor]). assert (D : fft_derivative [0; 1; 0; -1] (2 * PI) = Ok [1; 0; -1; 0]).
  { rewrite sine4, derivative_samples by (assumption || lia). f_equal. unfold samples, trig. cbn [seq map dterm]. unfold lost. cbn [Z.abs Z.mul Z.of_nat Pos.of_succ_nat Pos.succ Pos.mul Z.eqb Pos.eqb]. rewrite !sum_cons. cbn [sum_list fold_right tval_at INR]. repeat (apply f_equal2; [|]); try reflexivity.
    - replace (2 * PI * 1 / (2 * PI) * (2 * PI * 0 / (1 + 1 + 1 + 1))) with 0 by (field; auto). rewrite cos_0. field; auto.
    - replace (2 * PI * 1 / (2 * PI) * (2 * PI * 1 / (1 + 1 + 1 + 1))) with (PI / 2) by (field; auto). rewrite cos_PI2. field; auto.
    - replace (2 * PI * 1 / (2 * PI) * (2 * PI * (1 + 1) / (1 + 1 + 1 + 1))) with PI by (field; auto). rewrite cos_PI. field; auto.
    - replace (2 * PI * 1 / (2 * PI) * (2 * PI * (1 + 1 + 1) / (1 + 1 + 1 + 1))) with (3 * (PI / 2)) by (field; auto). rewrite cos_3PI2. field; auto. }
  split; [exact D|]. destruct (C57_inverse [0; 1; 0; -1] (2 * PI)) as [(df & E1 & E2) _]; [discriminate|exact LZ|]. rewrite D in E1. apply Ok_inj in E1. subst df. rewrite E2. f_equal. unfold mean, alternating. cbn. repeat (apply f_equal2; [field|]). reflexivity.
Qed.
(** Example: the derivative on the boundary of the unit disc, eight samples *)
Example C57_example_disc : exists H c e, unit_disc H c e /\ exists d, wtd_from_trace c [1; 0; -1; 0; 1; 0; -1; 0] = Ok d /\ length d = 8%nat.
Proof.
  destruct unit_disc_exists as (H & c & e & U). exists H, c, e. split; [exact U|]. destruct U as (Rd & B & En & Es & _). destruct (C57_components disc H c [[e]] [[1; 0; -1; 0; 1; 0; -1; 0]] Rd B) as [(ds & E & F) _].
  - constructor; [|constructor]. unfold csize, total, open_num. cbn. rewrite En. reflexivity.
  - cbn [concat app] in E. exists (concat ds). split; [exact E|]. cbn [combine] in F. inversion F as [|? d ? ds' HL F']; subst. cbv beta iota in HL. destruct HL as [_ L]. inversion F'; subst. cbn [concat]. rewrite app_nil_r. exact L.
Qed.
