(** Lemmas on edges after an exception. *)
From Coq Require Import List ZArith Reals Lra Lia String.
From Verif Require Import PyBase PolyModel BaryModel QuadModel CurveModel VertModel EdgeModel EdgeSpec EdgeProofs EdgeProofs2
  EdgeProps2 FaultModel.
Import ListNotations.
Open Scope R_scope.

(** What a method returns when only its outcome counts *)
Definition outcome (r : halt) : res edge := match snd r with None => Ok (fst r) | Some x => Err x end.

Lemma andthen_outcome r f : outcome (andthen r f) = do e <- outcome r; outcome (f e).
Proof. destruct r as [e [x|]]; reflexivity. Qed.

Lemma st_ortho_outcome w A e : outcome (st_ortho w A e) = apply_ortho w A e.
Proof. unfold st_ortho, apply_ortho. destruct A as [M|]; [|reflexivity]. destruct (Rltb TOL _); reflexivity. Qed.
Lemma st_dilate_outcome w al e : outcome (st_dilate w al e) = dilate w al e.
Proof. unfold st_dilate, dilate. destruct (Rltb _ TOL); reflexivity. Qed.
Lemma st_rotate_outcome w th e : outcome (st_rotate w th e) = rotate w th e.
Proof. unfold st_rotate, rotate. cbv zeta. destruct (e_param _); [apply st_ortho_outcome|reflexivity]. Qed.

Lemma st_join_outcome w a b e : outcome (st_join w a b e) = join_points w a b e.
Proof.
  unfold st_join, join_points. destruct (Rltb _ TOL); [reflexivity|]. cbv zeta. destruct (e_param _); [|reflexivity].
  destruct (nth_error _ 0) as [s0|]; [|reflexivity]. destruct (nth_error _ _) as [s1|]; [|reflexivity].
  destruct (Rltb _ TOL); [reflexivity|]. rewrite !andthen_outcome, st_rotate_outcome.
  destruct (rotate false _ _) as [e1|]; [|reflexivity]. cbn [bind]. rewrite st_dilate_outcome.
  destruct (dilate false _ e1); reflexivity.
Qed.

Lemma st_step_outcome w s e : outcome (st_step w s e) = apply_step w s e.
Proof.
  destruct s as [a|a b|th| | |al|A]; cbn [st_step apply_step].
  - reflexivity.
  - apply st_join_outcome.
  - apply st_rotate_outcome.
  - unfold st_reflect_x, reflect_x. cbv zeta. destruct (e_param _); [apply st_ortho_outcome|reflexivity].
  - unfold st_reflect_y, reflect_y. cbv zeta. destruct (e_param _); [apply st_ortho_outcome|reflexivity].
  - apply st_dilate_outcome.
  - apply st_ortho_outcome.
Qed.

Lemma st_run_stop l e x : fold_left (fun r s => andthen r (st_step false s)) l (e, Some x) = (e, Some x).
Proof. induction l as [|s l IH]; [reflexivity|exact IH]. Qed.
Lemma st_run_cons s l e : st_run (s :: l) e = andthen (st_step false s e) (st_run l).
Proof.
  unfold st_run at 1. cbn [fold_left andthen snd fst]. destruct (st_step false s e) as [e' [x|]]; [apply st_run_stop|reflexivity].
Qed.
Lemma st_run_outcome l : forall e, outcome (st_run l e) = fold_res (fun e s => apply_step false s e) l e.
Proof.
  induction l as [|s l IH]; intros e; [reflexivity|]. rewrite st_run_cons, andthen_outcome, st_step_outcome. cbn [fold_res].
  destruct (apply_step false s e) as [e1|]; [|reflexivity]. cbn [bind]. apply IH.
Qed.

Lemma outcome_ok r e : outcome r = Ok e <-> r = (e, None).
Proof. destruct r as [a [x|]]; cbn; split; intros H; try discriminate; congruence. Qed.
Lemma outcome_err r x : outcome r = Err x <-> exists e, r = (e, Some x).
Proof.
  destruct r as [a [y|]]; cbn; split; intros H; try discriminate.
  - exists a. congruence.
  - destruct H as (e & H). congruence.
  - destruct H as (e & H). discriminate.
Qed.

(** A rotation or reflection is never refused. *)
Lemma st_rotate_none w th e : exists e', st_rotate w th e = (e', None).
Proof. destruct (C26_rejected w e) as (_ & _ & _ & _ & H & _). destruct (H th) as (e' & E). exists e'. apply outcome_ok. rewrite st_rotate_outcome. exact E. Qed.

(** The three functions of a curve read the options in the same way. *)
Lemma curve_all c o :
  (exists X DX DDX, cX c o = Ok X /\ cDX c o = Ok DX /\ cDDX c o = Ok DDX) \/
  (exists x, cX c o = Err x /\ cDX c o = Err x /\ cDDX c o = Err x).
Proof.
  destruct c; cbn [cX cDX cDDX].
  all: try (left; do 3 eexists; repeat split; reflexivity).
  - destruct (kw o "a") as [a|x]; cbn [bind]; [left; do 3 eexists; repeat split; reflexivity|right; exists x; repeat split].
  - destruct (arc_unpack o) as [[[[H r] t0] om]|x]; cbn [bind]; [left; do 3 eexists; repeat split; reflexivity|right; exists x; repeat split].
  - destruct (deg_unpack o) as [a|x]; cbn [bind]; [left; do 3 eexists; repeat split; reflexivity|right; exists x; repeat split].
  - destruct (kw o "a") as [a|x]; cbn [bind]; [|right; exists x; repeat split].
    destruct (kw o "b") as [b|x]; cbn [bind]; [left; do 3 eexists; repeat split; reflexivity|right; exists x; repeat split].
  - destruct (sine_unpack o) as [[a w]|x]; cbn [bind]; [left; do 3 eexists; repeat split; reflexivity|right; exists x; repeat split].
  - destruct (tear_unpack o) as [a|x]; cbn [bind]; [left; do 3 eexists; repeat split; reflexivity|right; exists x; repeat split].
Qed.

(** What the methods of a diary keep, also when they are refused. *)
Definition keeps (e e' : edge) : Prop :=
  e_param e' = e_param e /\ e_npts e' = e_npts e /\ List.length (e_smp e') = List.length (e_smp e) /\
  e_curve e' = e_curve e /\ e_opts e' = e_opts e /\ e_qtype e' = e_qtype e /\ e_tb e' = e_tb e.

Lemma keeps_refl e : keeps e e. Proof. repeat split. Qed.
Lemma keeps_trans e1 e2 e3 : keeps e1 e2 -> keeps e2 e3 -> keeps e1 e3.
Proof. unfold keeps. intuition congruence. Qed.
Lemma log_keeps w s e : keeps e (log w s e). Proof. destruct w; repeat split. Qed.
Lemma on_smp_keeps f e : keeps e (on_smp f e).
Proof. unfold on_smp. destruct (e_param e) eqn:P; [|apply keeps_refl]. unfold keeps, with_smp. cbn. rewrite map_length. repeat split; assumption. Qed.
Lemma translate_keeps w a e : keeps e (translate w a e).
Proof. unfold translate. eapply keeps_trans; [apply log_keeps|apply on_smp_keeps]. Qed.
Lemma set_verts_keeps e a b : keeps e (set_verts e a b). Proof. repeat split. Qed.
Lemma andthen_keeps e r f : keeps e (fst r) -> (forall e, keeps e (fst (f e))) -> keeps e (fst (andthen r f)).
Proof. intros H G. destruct r as [e1 [x|]]; cbn in *; [exact H|]. eapply keeps_trans; [exact H|apply G]. Qed.
Lemma ortho_keeps w A e : keeps e (fst (st_ortho w A e)).
Proof.
  unfold st_ortho. destruct A as [M|]; [|apply keeps_refl]. destruct (Rltb TOL _); [apply keeps_refl|]. cbn [fst].
  eapply keeps_trans; [apply log_keeps|apply on_smp_keeps].
Qed.
Lemma dilate_keeps w al e : keeps e (fst (st_dilate w al e)).
Proof. unfold st_dilate. destruct (Rltb _ TOL); [apply keeps_refl|]. cbn [fst]. eapply keeps_trans; [apply log_keeps|apply on_smp_keeps]. Qed.
Lemma rotate_keeps w th e : keeps e (fst (st_rotate w th e)).
Proof.
  unfold st_rotate. cbv zeta. destruct (e_param _); [|apply log_keeps]. eapply keeps_trans; [apply log_keeps|apply ortho_keeps].
Qed.
Lemma step_keeps w s e : keeps e (fst (st_step w s e)).
Proof.
  destruct s as [a|a b|th| | |al|A]; cbn [st_step].
  - apply translate_keeps.
  - unfold st_join. destruct (Rltb _ TOL); [apply keeps_refl|]. cbv zeta. destruct (e_param _); [|apply log_keeps].
    destruct (nth_error _ 0) as [s0|]; [|apply log_keeps]. destruct (nth_error _ _) as [s1|]; [|apply log_keeps].
    destruct (Rltb _ TOL); [apply log_keeps|]. eapply keeps_trans; [apply log_keeps|].
    apply andthen_keeps; [apply andthen_keeps|].
    + eapply keeps_trans; [apply translate_keeps|apply rotate_keeps].
    + intros e1. apply dilate_keeps.
    + intros e1. cbn [fst]. eapply keeps_trans; [apply translate_keeps|apply set_verts_keeps].
  - apply rotate_keeps.
  - unfold st_reflect_x. cbv zeta. destruct (e_param _); [|apply log_keeps]. eapply keeps_trans; [apply log_keeps|apply ortho_keeps].
  - unfold st_reflect_y. cbv zeta. destruct (e_param _); [|apply log_keeps]. eapply keeps_trans; [apply log_keeps|apply ortho_keeps].
  - apply dilate_keeps.
  - apply ortho_keeps.
Qed.
Lemma run_keeps l : forall e, keeps e (fst (st_run l e)).
Proof.
  induction l as [|s l IH]; intros e; [apply keeps_refl|]. rewrite st_run_cons. apply andthen_keeps; [apply step_keeps|exact IH].
Qed.
