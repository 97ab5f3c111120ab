(** C65: windows of plots, and plots of meshes. *)
From Coq Require Import List ZArith Reals Lia Lra Bool String Ascii.
From Verif Require Import PyBase PolyModel BaryModel QuadModel CurveModel VertModel EdgeModel EdgeSpec EdgeProofs EdgeProps EdgeProps4 ContourModel CellModel CellProofs CellProps3 TriCell TraceModel LocalModel PlotModel PlotSpec.
Import List ListNotations.
Open Scope R_scope.

(** ** Minimum and maximum *)
Lemma fold_min l : forall x, (forall y, In y (x :: l) -> fold_left Rmin l x <= y) /\ In (fold_left Rmin l x) (x :: l).
Proof.
  induction l as [|z l IH]; intros x; cbn [fold_left].
  - split; [intros y [->|[]]; lra|left; reflexivity].
  - destruct (IH (Rmin x z)) as [A B]. pose proof (Rmin_l x z). pose proof (Rmin_r x z). split.
    + intros y [<-|[<-|I]]; [apply Rle_trans with (Rmin x z); [apply A; left; reflexivity|assumption]|apply Rle_trans with (Rmin x z); [apply A; left; reflexivity|assumption]|apply A; right; exact I].
    + destruct B as [B|B]; [|right; right; exact B]. rewrite <- B. unfold Rmin. destruct (Rle_dec x z); [left|right; left]; reflexivity.
Qed.
Lemma fold_max l : forall x, (forall y, In y (x :: l) -> y <= fold_left Rmax l x) /\ In (fold_left Rmax l x) (x :: l).
Proof.
  induction l as [|z l IH]; intros x; cbn [fold_left].
  - split; [intros y [->|[]]; lra|left; reflexivity].
  - destruct (IH (Rmax x z)) as [A B]. pose proof (Rmax_l x z). pose proof (Rmax_r x z). split.
    + intros y [<-|[<-|I]]; [apply Rle_trans with (Rmax x z); [assumption|apply A; left; reflexivity]|apply Rle_trans with (Rmax x z); [assumption|apply A; left; reflexivity]|apply A; right; exact I].
    + destruct B as [B|B]; [|right; right; exact B]. rewrite <- B. unfold Rmax. destruct (Rle_dec x z); [right; left|left]; reflexivity.
Qed.
Lemma pymin_ok l : l <> [] -> exists m, pymin l = Ok m /\ In m l /\ forall y, In y l -> m <= y.
Proof. destruct l as [|x l]; [congruence|]. intros _. destruct (fold_min l x) as [A B]. eexists. split; [reflexivity|]. split; [exact B|exact A]. Qed.
Lemma pymax_ok l : l <> [] -> exists m, pymax l = Ok m /\ In m l /\ forall y, In y l -> y <= m.
Proof. destruct l as [|x l]; [congruence|]. intros _. destruct (fold_max l x) as [A B]. eexists. split; [reflexivity|]. split; [exact B|exact A]. Qed.

(** ** The window *)
Definition drawable (e : edge) : Prop := e_param e = true /\ e_smp e <> [].
Definition boxed (P : pt -> Prop) (b : limits) : Prop := exists x0 x1 y0 y1, b = Lims (Some x0) (Some x1) (Some y0) (Some y1) /\ tight P fst x0 x1 /\ tight P snd y0 y1.
Lemma update_ok f (P : pt -> Prop) a b lo hi e : (lo = None /\ hi = None /\ (forall z, ~ P z) \/ lo = Some a /\ hi = Some b /\ tight P f a b) -> drawable e ->
  exists l a' b', edge_coord f e = Ok l /\ update_min lo l = Ok (Some a') /\ update_max hi l = Ok (Some b') /\ tight (fun z => P z \/ exists s, In s (e_smp e) /\ z = sx s) f a' b'.
Proof.
  intros C [Pe Ne]. unfold edge_coord. rewrite Pe. set (l := map (fun s => f (sx s)) (e_smp e)). assert (Nl : l <> []) by (unfold l; destruct (e_smp e); [congruence|discriminate]).
  destruct (pymin_ok l Nl) as (m & Em & Im & Bm). destruct (pymax_ok l Nl) as (M & EM & IM & BM). exists l. do 2 eexists. split; [reflexivity|]. unfold update_min, update_max. rewrite Em, EM. cbn [bind]. split; [reflexivity|]. split; [reflexivity|].
  assert (In1 : forall s, In s (e_smp e) -> m <= f (sx s) <= M) by (intros s I; assert (X : In (f (sx s)) l) by (apply in_map_iff; eauto); split; [apply Bm|apply BM]; exact X).
  unfold l in Im, IM. apply in_map_iff in Im. destruct Im as (sm & Fm & Im). apply in_map_iff in IM. destruct IM as (sM & FM & IM).
  destruct C as [(-> & -> & C)|(-> & -> & C1 & (za & Pa & Fa) & (zb & Pb & Fb))].
  - split; [|split]. + intros z [Pz|(s & I & ->)]; [destruct (C z Pz)|apply In1, I]. + exists (sx sm). split; [right; eauto|exact Fm]. + exists (sx sM). split; [right; eauto|exact FM].
  - pose proof (Rmin_l a m). pose proof (Rmin_r a m). pose proof (Rmax_l b M). pose proof (Rmax_r b M). split; [|split].
    + intros z [Pz|(s & I & ->)]; [specialize (C1 z Pz)|specialize (In1 s I)]; lra.
    + unfold Rmin. destruct (Rle_dec a m); [exists za; auto|exists (sx sm); split; [right; eauto|exact Fm]].
    + unfold Rmax. destruct (Rle_dec b M); [exists (sx sM); split; [right; eauto|exact FM]|exists zb; auto].
Qed.
Lemma tight_ext (P Q : pt -> Prop) f a b : (forall z, P z <-> Q z) -> tight P f a b -> tight Q f a b.
Proof. intros E (A & (z & Pz & B) & (w & Pw & C)). split; [intros y Q1; apply A, E, Q1|]. split; [exists z|exists w]; (split; [apply E; assumption|assumption]). Qed.
Lemma grow_ok es : Forall drawable es -> forall P b, (b = Lims None None None None /\ (forall z, ~ P z) \/ boxed P b) -> (es <> [] \/ boxed P b) ->
  exists b', fold_res grow es b = Ok b' /\ boxed (fun z => P z \/ sampled es z) b'.
Proof.
  induction 1 as [|e es D F IH]; intros P b C Ne; cbn [fold_res].
  - destruct Ne as [Ne|(x0 & x1 & y0 & y1 & -> & T1 & T2)]; [congruence|]. eexists. split; [reflexivity|]. exists x0, x1, y0, y1. assert (X : forall z, P z <-> P z \/ sampled [] z) by (intros z; split; [auto|intros [?|(? & ? & [] & _)]; assumption]). split; [reflexivity|]. split; apply (tight_ext P); assumption.
  - assert (G : exists b1, grow b e = Ok b1 /\ boxed (fun z => P z \/ exists s, In s (e_smp e) /\ z = sx s) b1).
    { unfold grow. destruct C as [[-> C]|(x0 & x1 & y0 & y1 & -> & T1 & T2)]; cbn [min_x max_x min_y max_y].
      - destruct (update_ok fst P 0 0 None None e (or_introl (conj eq_refl (conj eq_refl C))) D) as (l & a & b & -> & U1 & U2 & T). destruct (update_ok snd P 0 0 None None e (or_introl (conj eq_refl (conj eq_refl C))) D) as (l' & a' & b' & -> & U1' & U2' & T'). cbn [bind]. rewrite U1, U2. cbn [bind]. rewrite U1', U2'. cbn [bind]. eexists. split; [reflexivity|]. exists a, b, a', b'. auto.
      - destruct (update_ok fst P x0 x1 (Some x0) (Some x1) e (or_intror (conj eq_refl (conj eq_refl T1))) D) as (l & a & b & -> & U1 & U2 & T). destruct (update_ok snd P y0 y1 (Some y0) (Some y1) e (or_intror (conj eq_refl (conj eq_refl T2))) D) as (l' & a' & b' & -> & U1' & U2' & T'). cbn [bind]. rewrite U1, U2. cbn [bind]. rewrite U1', U2'. cbn [bind]. eexists. split; [reflexivity|]. exists a, b, a', b'. auto. }
    destruct G as (b1 & -> & G). cbn [bind]. destruct (IH _ b1 (or_intror G) (or_intror G)) as (b' & E & (x0 & x1 & y0 & y1 & -> & T1 & T2)). eexists. split; [exact E|]. exists x0, x1, y0, y1. split; [reflexivity|].
    assert (X : forall z, (P z \/ exists s, In s (e_smp e) /\ z = sx s) \/ sampled es z <-> P z \/ sampled (e :: es) z).
    { intros z. split. - intros [[?|(s & I & ->)]|(e' & s & I & J & ->)]; [auto|right; exists e, s; cbn; auto|right; exists e', s; cbn; auto]. - intros [?|(e' & s & [<-|I] & J & ->)]; [auto|left; right; eauto|right; exists e', s; auto]. }
    split; [exact (tight_ext _ _ _ _ _ X T1)|exact (tight_ext _ _ _ _ _ X T2)].
Qed.

(** The window of a list of sampled edges is the smallest box around all sampled points, enlarged
    on every side by the fraction [pad] of its extent; a negative [pad] is ignored. *)
Theorem C65_limits es pad : es <> [] -> Forall drawable es -> exists x0 x1 y0 y1, tight (sampled es) fst x0 x1 /\ tight (sampled es) snd y0 y1 /\
  let p := Rmax 0 pad in get_axis_limits es pad = Ok (Lims (Some (x0 - p * (x1 - x0))) (Some (x1 + p * (x1 - x0))) (Some (y0 - p * (y1 - y0))) (Some (y1 + p * (y1 - y0)))).
Proof.
  intros Ne F. destruct (grow_ok es F (fun _ => False) (Lims None None None None) (or_introl (conj eq_refl (fun _ X => X))) (or_introl Ne)) as (b & E & (x0 & x1 & y0 & y1 & -> & T1 & T2)).
  assert (X : forall z, False \/ sampled es z <-> sampled es z) by (intros z; tauto). exists x0, x1, y0, y1. split; [exact (tight_ext _ _ _ _ _ X T1)|]. split; [exact (tight_ext _ _ _ _ _ X T2)|]. cbv zeta. unfold get_axis_limits. rewrite E. cbn [bind min_x max_x min_y max_y widen]. destruct (Rlt_dec 0 pad) as [Hp|Hp].
  - rewrite Rmax_right by lra. reflexivity.
  - rewrite Rmax_left by lra. rewrite !Rmult_0_l, !Rminus_0_r, !Rplus_0_r. reflexivity.
Qed.
Print Assumptions C65_limits.
(** Hence every sampled point is in the window. *)
Theorem C65_contains es pad b : es <> [] -> Forall drawable es -> get_axis_limits es pad = Ok b -> exists x0 x1 y0 y1, b = Lims (Some x0) (Some x1) (Some y0) (Some y1) /\ forall z, sampled es z -> x0 <= fst z <= x1 /\ y0 <= snd z <= y1.
Proof.
  intros Ne F E. destruct (C65_limits es pad Ne F) as (x0 & x1 & y0 & y1 & (T1 & (z0 & P0 & _) & _) & (T2 & _) & E'). cbv zeta in E'. rewrite E in E'. apply Ok_inj in E'. subst b. pose proof (Rmax_l 0 pad). specialize (T1 z0 P0) as X. specialize (T2 z0 P0) as Y. do 4 eexists. split; [reflexivity|]. intros z Pz. specialize (T1 z Pz). specialize (T2 z Pz).
  assert (0 <= Rmax 0 pad * (x1 - x0)) by (apply Rmult_le_pos; lra). assert (0 <= Rmax 0 pad * (y1 - y0)) by (apply Rmult_le_pos; lra). lra.
Qed.
Print Assumptions C65_contains.
(** An edge without samples raises. *)
Theorem C65_unsampled es e es' pad : Forall drawable es -> e_param e = false -> get_axis_limits (es ++ e :: es') pad = Err IndexError.
Proof.
  intros F N. unfold get_axis_limits. assert (X : forall b, fold_res grow (es ++ e :: es') b = Err IndexError).
  { induction F as [|a es [Pa Na] F IH]; intros b; cbn [fold_res app].
    - unfold grow, edge_coord. rewrite N. reflexivity.
    - unfold grow at 1, edge_coord. rewrite Pa. cbn [bind]. unfold update_min, update_max. assert (Nl : forall f : pt -> R, map (fun s => f (sx s)) (e_smp a) <> []) by (intros f; destruct (e_smp a); [congruence|discriminate]).
      destruct (pymin_ok _ (Nl fst)) as (m & -> & _). destruct (pymax_ok _ (Nl fst)) as (m' & -> & _). destruct (pymin_ok _ (Nl snd)) as (k & -> & _). destruct (pymax_ok _ (Nl snd)) as (k' & -> & _). cbn [bind]. apply IH. }
  rewrite X. reflexivity.
Qed.
Print Assumptions C65_unsampled.

(** The figure has the proportions of the points, whatever the padding. *)
Theorem C65_figure es pad h x0 x1 y0 y1 b : es <> [] -> Forall drawable es -> tight (sampled es) fst x0 x1 -> tight (sampled es) snd y0 y1 -> get_axis_limits es pad = Ok b ->
  get_figure_size b h = if Req_EM_T y0 y1 then None else Some (h * ((x1 - x0) / (y1 - y0)), h).
Proof.
  intros Ne F T1 T2 E. assert (U : forall f a b a' b', tight (sampled es) f a b -> tight (sampled es) f a' b' -> a = a' /\ b = b').
  { intros f a b0 a' b' (A & (z & Z & <-) & (w & W & <-)) (B & (z' & Z' & <-) & (w' & W' & <-)). pose proof (A _ Z'). pose proof (A _ W'). pose proof (B _ Z). pose proof (B _ W). lra. }
  destruct (C65_limits es pad Ne F) as (x0' & x1' & y0' & y1' & T1' & T2' & E'). destruct (U _ _ _ _ _ T1 T1') as [<- <-]. destruct (U _ _ _ _ _ T2 T2') as [<- <-]. cbv zeta in E'. rewrite E in E'. apply Ok_inj in E'. subst b. cbn [get_figure_size]. set (p := Rmax 0 pad). assert (P0 : 0 <= p) by apply Rmax_l.
  replace (y1 + p * (y1 - y0) - (y0 - p * (y1 - y0))) with ((1 + 2 * p) * (y1 - y0)) by ring. replace (x1 + p * (x1 - x0) - (x0 - p * (x1 - x0))) with ((1 + 2 * p) * (x1 - x0)) by ring.
  destruct (Req_EM_T y0 y1) as [->|D]; [destruct (Req_EM_T _ 0) as [_|X]; [reflexivity|destruct X; ring]|]. destruct (Req_EM_T _ 0) as [X|_]; [apply Rmult_integral in X; destruct X; lra|]. f_equal. f_equal. field. split; lra.
Qed.
Print Assumptions C65_figure.
(** A horizontal segment has no figure size: the width is divided by a zero height. *)
Theorem C65_flat_refuted : exists e, parameterize dict4 (side (Vert 0 0 0) (Vert 1 0 1) 0 (-1) 0) = Ok e /\ forall pad h, exists b, get_axis_limits [e] pad = Ok b /\ get_figure_size b h = None.
Proof.
  assert (Fr : TOL <= pdist (coord (Vert 0 0 0)) (coord (Vert 1 0 1))) by (unfold pdist, coord; cbn [fst snd vx vy]; replace ((0 - 1) * (0 - 1) + (0 - 0) * (0 - 0)) with (1 * 1) by ring; rewrite sqrt_square by lra; unfold TOL; lra).
  destruct (side_param _ _ 0 (-1) 0 Fr) as (e & E & _ & _ & _ & _ & _ & P & _ & Sm). exists e. split; [exact E|]. intros pad h. assert (D : Forall drawable [e]) by (constructor; [split; [exact P|rewrite Sm; discriminate]|constructor]).
  destruct (C65_limits [e] pad ltac:(discriminate) D) as (x0 & x1 & y0 & y1 & T1 & T2 & L). cbv zeta in L. eexists. split; [exact L|]. rewrite (C65_figure [e] pad h x0 x1 y0 y1 _ ltac:(discriminate) D T1 T2 L). destruct (Req_EM_T y0 y1) as [_|X]; [reflexivity|]. destruct X. destruct T2 as (_ & (z & (e' & s & [<-|[]] & I & ->) & <-) & (z' & (e'' & s' & [<-|[]] & I' & ->) & <-)).
  rewrite Sm in I, I'. apply in_map_iff in I. destruct I as (i & <- & _). apply in_map_iff in I'. destruct I' as (i' & <- & _). unfold seg. cbn [sx snd vy]. ring.
Qed.
Print Assumptions C65_flat_refuted.

(** ** File names *)
Lemma upto_none l : ~ In slash l -> upto_slash l = [].
Proof. induction l as [|c l IH]; intros N; [reflexivity|]. cbn [upto_slash]. destruct (Ascii.eqb_spec c slash) as [->|D]; [destruct N; left; reflexivity|]. apply IH. intros I. apply N. right. exact I. Qed.
Lemma upto_app l m : ~ In slash l -> upto_slash (l ++ slash :: m) = slash :: m.
Proof. induction l as [|c l IH]; intros N; [reflexivity|]. cbn [upto_slash app]. destruct (Ascii.eqb_spec c slash) as [->|D]; [destruct N; left; reflexivity|]. apply IH. intros I. apply N. right. exact I. Qed.
(** A file in a directory: the directory is made if it is missing, then the figure is saved. *)
Theorem C65_save exist d c f : c <> slash -> ~ In slash f -> save_figure exist (d ++ [c] ++ slash :: f) = Some ((if exist (d ++ [c]) then [] else [MakeDirs (d ++ [c])]) ++ [SaveFig (d ++ [c] ++ slash :: f)]).
Proof.
  intros Nc Nf. assert (D : dirname (d ++ [c] ++ slash :: f) = d ++ [c]).
  { unfold dirname. rewrite !rev_app_distr. cbn [rev app]. rewrite <- !app_assoc. cbn [app]. rewrite upto_app by (intros I; apply Nf, in_rev, I). cbn [drop_slashes]. rewrite Ascii.eqb_refl. destruct (Ascii.eqb_spec c slash); [contradiction|]. cbn [rev]. rewrite rev_involutive. reflexivity. }
  unfold save_figure. rewrite D. destruct (d ++ [c]) eqn:X; [destruct d; discriminate|]. reflexivity.
Qed.
Print Assumptions C65_save.
(** A file name without a directory is never saved: os.makedirs("") raises. *)
Theorem C65_bare_name_refuted exist f : ~ In slash f -> save_figure exist f = None.
Proof. intros N. unfold save_figure, dirname. rewrite upto_none by (intros I; apply N, in_rev, I). reflexivity. Qed.
Print Assumptions C65_bare_name_refuted.
Example C65_save_example : save_figure (fun _ => false) (list_ascii_of_string "img/a.pdf") = Some [MakeDirs (list_ascii_of_string "img"); SaveFig (list_ascii_of_string "img/a.pdf")] /\ save_figure (fun _ => true) (list_ascii_of_string "a.pdf") = None /\ save_figure (fun _ => true) (list_ascii_of_string "/a.pdf") = Some [SaveFig (list_ascii_of_string "/a.pdf")].
Proof. repeat split; reflexivity. Qed.

(** ** Plots of meshes *)

(** Every listed edge ends up sampled; sampled edges are kept unless they are sampled anew; other
    edges are not touched. *)
Theorem C65_mesh_plot H is n reparam H' : mk_mesh_plot H is n reparam = Ok H' -> exists qd, get_quad_dict n 7 = Ok qd /\ List.length H' = List.length H /\
  (forall i, ~ In i is -> nth_error H' i = nth_error H i) /\
  (forall i, In i is -> exists e e', nth_error H i = Some e /\ nth_error H' i = Some e' /\ e_param e' = true /\
    (reparam = false -> e_param e = true -> e' = e) /\ (reparam = false \/ NoDup is -> reparam = true \/ e_param e = false -> parameterize qd e = Ok e')).
Proof.
  intros E. unfold mk_mesh_plot in E. destruct (get_quad_dict n 7) as [qd|] eqn:Q; [|discriminate]. cbn [bind] in E. destruct (map_res _ is) as [us|]; [|discriminate]. cbn [bind] in E. exists qd. split; [reflexivity|]. clear us. revert H E. induction is as [|i is IH]; intros H E; cbn [fold_res] in E.
  - apply Ok_inj in E. subst H'. split; [reflexivity|]. split; [reflexivity|intros i []].
  - unfold deref at 1 in E. destruct (nth_error H i) as [e|] eqn:Ei; [|discriminate]. cbn [bind] in E.
    assert (Li : (i < List.length H)%nat) by (apply nth_error_Some; congruence).
    destruct (orb reparam (negb (e_param e))) eqn:B.
    + destruct (parameterize qd e) as [e1|] eqn:P; [|discriminate]. cbn [bind] in E. destruct (C33_well_sampled _ _ _ _ _ Q P) as ((Pe & _) & _). destruct (IH _ E) as (L & O & I). rewrite hset_length in L by lia. split; [exact L|]. split.
      * intros j N. rewrite O by (intros X; apply N; right; exact X). apply hset_other; [exact Li|intros ->; apply N; left; reflexivity].
      * intros j Ij. destruct (in_dec Nat.eq_dec j is) as [J|J].
        -- destruct (I j J) as (x & x' & E1 & E2 & E3 & E4 & E5). destruct (Nat.eq_dec i j) as [->|D].
           ++ rewrite hset_same in E1 by exact Li. injection E1 as <-. exists e, x'. split; [exact Ei|]. split; [exact E2|]. split; [exact E3|]. split.
              ** intros -> C. rewrite C in B. discriminate.
              ** intros [->|ND] _; [rewrite (E4 eq_refl Pe); exact P|inversion ND; contradiction].
           ++ rewrite hset_other in E1 by assumption. exists x, x'. repeat split; try assumption. intros [->|ND]; [apply E5; left; reflexivity|apply E5; right; inversion ND; assumption].
        -- destruct Ij as [<-|C]; [|contradiction]. exists e, e1. split; [exact Ei|]. split; [rewrite O by exact J; apply hset_same, Li|]. split; [exact Pe|]. split; [intros -> C; rewrite C in B; discriminate|intros _ _; exact P].
    + apply orb_false_iff in B. destruct B as [-> Pe]. apply negb_false_iff in Pe. destruct (IH _ E) as (L & O & I). split; [exact L|]. split; [intros j N; apply O; intros X; apply N; right; exact X|].
      intros j Ij. destruct (in_dec Nat.eq_dec j is) as [J|J].
      * destruct (I j J) as (x & x' & E1 & E2 & E3 & E4 & E5). exists x, x'. repeat split; try assumption. intros _ C. apply E5; [left; reflexivity|exact C].
      * destruct Ij as [<-|C]; [|contradiction]. exists e, e. split; [exact Ei|]. split; [rewrite O by exact J; exact Ei|]. split; [exact Pe|]. split; [reflexivity|]. intros _ [C|C]; congruence.
Qed.
Print Assumptions C65_mesh_plot.
(** The plot is made whenever every edge is sampled or can be sampled. *)
Theorem C65_mesh_plot_total H is n qd reparam : get_quad_dict n 7 = Ok qd -> (forall i, In i is -> exists e, nth_error H i = Some e /\ (reparam = false /\ e_param e = true \/ exists e', parameterize qd e = Ok e')) -> NoDup is \/ reparam = false -> exists H', mk_mesh_plot H is n reparam = Ok H'.
Proof.
  intros Q A ND. unfold mk_mesh_plot. rewrite Q. cbn [bind]. assert (M : exists us, map_res (fun i => match nth_error H i with Some _ => Ok tt | None => Err TypeError end) is = Ok us).
  { clear ND. induction is as [|i is IH]; [eexists; reflexivity|]. cbn [map_res]. destruct (A i (or_introl eq_refl)) as (e & -> & _). cbn [bind]. destruct IH as (us & ->); [intros j J; apply A; right; exact J|]. eexists. reflexivity. }
  destruct M as (us & ->). cbn [bind]. clear us. revert H A. induction is as [|i is IH]; intros H A; cbn [fold_res]; [eexists; reflexivity|].
  destruct (A i (or_introl eq_refl)) as (e & Ei & C). unfold deref at 1. rewrite Ei. cbn [bind]. assert (Li : (i < List.length H)%nat) by (apply nth_error_Some; congruence). assert (ND' : NoDup is \/ reparam = false) by (destruct ND as [ND|ND]; [left; inversion ND; assumption|right; exact ND]).
  destruct (orb reparam (negb (e_param e))) eqn:B.
  - destruct C as [[-> C]|(e' & P)]; [rewrite C in B; discriminate|]. rewrite P. cbn [bind]. apply IH; [exact ND'|]. intros j J. destruct (Nat.eq_dec i j) as [->|D].
    + exists e'. split; [apply hset_same, Li|]. destruct (C33_well_sampled _ _ _ _ _ Q P) as ((Pe & _) & _). destruct ND as [ND| ->]; [inversion ND; contradiction|left; auto].
    + rewrite hset_other by assumption. apply A. right. exact J.
  - apply IH; [exact ND'|]. intros j J. apply A. right. exact J.
Qed.
Print Assumptions C65_mesh_plot_total.

(** The arrows of an edge run from each sample to the next. *)
Theorem C65_arrows e : e_param e = true -> exists l, plot_edge e = Ok l /\ List.length l = (List.length (e_smp e) - 1)%nat /\
  forall i s s', nth_error (e_smp e) i = Some s -> nth_error (e_smp e) (S i) = Some s' -> nth_error l i = Some (sx s, (fst (sx s') - fst (sx s), snd (sx s') - snd (sx s))).
Proof.
  intros P. unfold plot_edge, get_sampled_points. rewrite P. cbn [bind]. eexists. split; [reflexivity|]. unfold arrows. assert (Lr : forall (l : list pt), List.length (roll l) = List.length l) by (intros [|z l]; [reflexivity|]; cbn [roll]; rewrite app_length; cbn; lia).
  assert (Rl : forall A (l : list A), removelast l = firstn (List.length l - 1) l). { intros A l. rewrite removelast_firstn_len. f_equal. lia. }
  split.
  - rewrite combine_length, !Rl, !firstn_length, !map_length, combine_length, Lr, !map_length. lia.
  - intros i s s' E E'. set (l := map sx (e_smp e)). assert (El : nth_error l i = Some (sx s)) by (unfold l; rewrite nth_error_map, E; reflexivity). assert (El' : nth_error l (S i) = Some (sx s')) by (unfold l; rewrite nth_error_map, E'; reflexivity).
    assert (Li : (S i < List.length l)%nat) by (apply nth_error_Some; congruence). assert (Er : nth_error (roll l) i = Some (sx s')). { destruct l as [|z l]; [cbn in Li; lia|]. cbn [roll nth_error] in *. rewrite nth_error_app1; [exact El'|cbn in Li; lia]. }
    assert (Cn : forall A B (u : list A) (v : list B) k x y, nth_error u k = Some x -> nth_error v k = Some y -> nth_error (combine u v) k = Some (x, y)).
    { clear. induction u as [|a u IH]; intros [|b v] [|k] x y A1 B1; try discriminate; cbn in *; [congruence|apply IH; assumption]. }
    assert (Fs : forall A (u : list A) x, (S i < List.length l)%nat -> List.length u = List.length l -> nth_error u i = Some x -> nth_error (removelast u) i = Some x).
    { intros A u x L1 L2 Eu. rewrite Rl. assert (X : forall k (w : list A), (i < k)%nat -> nth_error (firstn k w) i = nth_error w i). { clear. revert i. intros i k. revert i. induction k as [|k IH]; intros i w L; [lia|]. destruct w as [|x w]; [destruct i; reflexivity|]. destruct i; [reflexivity|]. cbn. apply IH. lia. } rewrite X by lia. exact Eu. }
    apply Cn; [apply Fs; [exact Li|reflexivity|exact El]|]. apply Fs; [exact Li|rewrite map_length, combine_length, Lr; lia|]. rewrite nth_error_map. exact (f_equal (option_map (fun zw : pt * pt => (fst (fst zw) - fst (snd zw), snd (fst zw) - snd (snd zw)))) (Cn _ _ _ _ _ _ _ Er El)).
Qed.
Print Assumptions C65_arrows.

(** A plot of one side of the triangle: nine samples, eight arrows, the window [-1/10, 11/10] *)
Example C65_example : exists H' e b, mk_mesh_plot (sides 1 0 1 2) [1%nat] (PInt 4) false = Ok H' /\ nth_error H' 1 = Some e /\ get_axis_limits [e] (1 / 10) = Ok b /\ min_y b = Some (- (1 / 10)) /\ max_y b = Some (11 / 10) /\ min_x b = Some 0 /\ max_x b = Some 0.
Proof.
  destruct (side_param (v0 0) (v2 1 2) (-1) 0 1 (far02 1 0 2 ltac:(lra))) as (e & P & _ & _ & _ & _ & _ & Pe & _ & Sm).
  destruct (C65_mesh_plot_total (sides 1 0 1 2) [1%nat] (PInt 4) dict4 false dict4_ok) as (H' & E); [intros i [<-|[]]; eexists; split; [reflexivity|]; right; exists e; exact P|right; reflexivity|idtac].
  destruct (C65_mesh_plot _ _ _ _ _ E) as (qd & Q & _ & _ & I). rewrite dict4_ok in Q. apply Ok_inj in Q. subst qd. destruct (I 1%nat (or_introl eq_refl)) as (e1 & e' & E1 & E2 & _ & _ & E5). injection E1 as <-. specialize (E5 (or_introl eq_refl) (or_intror eq_refl)). assert (e' = e) by congruence. subst e'.
  assert (D : Forall drawable [e]) by (constructor; [split; [exact Pe|rewrite Sm; discriminate]|constructor]). destruct (C65_limits [e] (1 / 10) ltac:(discriminate) D) as (x0 & x1 & y0 & y1 & T1 & T2 & L). cbv zeta in L. exists H', e. eexists. split; [exact E|]. split; [exact E2|]. split; [exact L|]. cbn [min_x max_x min_y max_y].
  assert (Inn : forall i, (i < 9)%nat -> sampled [e] (0, INR i / 8)). { intros i Hi. exists e, (seg (v0 0) (v2 1 2) i). split; [left; reflexivity|]. split; [rewrite Sm; apply in_map, in_seq; lia|]. unfold seg. cbn [sx v0 v2 vx vy]. f_equal; field. }
  assert (Out : forall z, sampled [e] z -> exists i, (i < 9)%nat /\ z = (0, INR i / 8)). { intros z (e' & s & [<-|[]] & Is & ->). rewrite Sm in Is. apply in_map_iff in Is. destruct Is as (i & <- & Is). apply in_seq in Is. exists i. split; [lia|]. unfold seg. cbn [sx v0 v2 vx vy]. f_equal; field. }
  destruct T1 as (_ & (z & Z & <-) & (z' & Z' & <-)). destruct (Out z Z) as (i & _ & ->). destruct (Out z' Z') as (i' & _ & ->). destruct T2 as (B & (w & W & <-) & (w' & W' & <-)). destruct (Out w W) as (j & J & ->). destruct (Out w' W') as (j' & J' & ->). cbn [fst snd] in *.
  pose proof (B _ (Inn 0%nat ltac:(lia))) as B0. pose proof (B _ (Inn 8%nat ltac:(lia))) as B8. cbn [fst snd] in B0, B8. simpl (INR 0) in B0. simpl (INR 8) in B8. assert (0 <= INR j) by apply pos_INR. assert (INR j' <= 8) by (replace 8 with (INR 8) by (simpl; ring); apply le_INR; lia). rewrite Rmax_right by lra. repeat split; f_equal; lra.
Qed.
