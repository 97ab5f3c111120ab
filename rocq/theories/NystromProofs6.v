(** The Nyström solver as a whole, continued: preconditioner and construction. *)
From Coq Require Import List ZArith Reals Lia Lra Bool.
From Coquelicot Require Import Coquelicot.
From Verif Require Import PyBase PolyModel PolySpec BaryModel QuadModel VertModel EdgeModel EdgeSpec EdgeProps4 ContourModel CellModel CellSpec CellProofs CellProps ContourProofs ContourProofs2 ContourProofs3 InteriorProofs ContourProofs4 ContourProps CellProps3 TraceModel TraceSpec TraceProofs LocalProofs3 LocalModel LocalSpec LocalProofs LocalProofs2 LocalProofs5 FftModel FftSpec FftProofs FftProofs2 FftProofs3 FftProps AntilapModel AntilapSpec AntilapProofs AntilapProofs2 AntilapProofs3 AntilapProofs4 AntilapProps2 NystromModel NystromSpec NystromProofs NystromProofs2 NystromProofs4 NystromProofs5.
Import List ListNotations.
Open Scope R_scope.

Section Cell.
Context {contains : R -> list pt -> pt -> bool} {H : heap} {c : cell} {ess : list (list edge)}.
Hypothesis Rd : ready contains H c.
Hypothesis B : boundary_edges H c ess.
Local Notation es := (concat ess).
Local Notation N := (Z.to_nat (csize es)).
Local Notation h := (Z.to_nat (c_holes c)).
Let F := NpF Rd B.

(** ** The preconditioner *)
Definition jacobi (e : edge) (s : sample) : R := 5 / 10 + 5 / 10 * sk s * sw s * (1 / IZR (e_npts e - 1)).
Definition jacobis (l : list edge) : list R := concat (map (fun e => map (jacobi e) (open_smp e)) l).
Lemma jacobis_length l : Forall well_sampled l -> Z.of_nat (List.length (jacobis l)) = csize l.
Proof. unfold jacobis. induction 1 as [|e l We W IH]; [reflexivity|]. cbn [map concat]. rewrite app_length, map_length, csize_cons, Nat2Z.inj_add, IH. rewrite (proj2 (open_pos e We)). reflexivity. Qed.
Lemma jacobis_app a b : jacobis (a ++ b) = jacobis a ++ jacobis b.
Proof. unfold jacobis. rewrite map_app, concat_app. reflexivity. Qed.
Lemma diag_run ids l : refs H ids l -> Forall well_sampled l -> forall p z r a, Z.of_nat (List.length p) = a -> Z.of_nat (List.length z) = csize l ->
  fold_res (fun Da q => do e <- deref H q; do st <- step_of 1 e; let stop := (snd Da + (e_npts e - 1))%Z in
      do D <- set_slice (fst Da) (snd Da) stop (map (fun s => 5 / 10 + 5 / 10 * sk s * sw s * st) (removelast (e_smp e))); Ok (D, stop)) ids (p ++ z ++ r, a) = Ok (p ++ jacobis l ++ r, (a + csize l)%Z).
Proof.
  induction 1 as [|q e ids l Eq Rf IH]; intros W p z r a La Lz.
  - assert (z = []) by (destruct z; [reflexivity|cbn in Lz; lia]). subst z. cbn [fold_res jacobis map concat app]. change (csize []) with 0%Z. rewrite Z.add_0_r. reflexivity.
  - inversion W as [|? ? We Wl]; subst. rewrite csize_cons in Lz. pose proof (open_pos e We) as [O1 O2]. pose proof (csize_nonneg l Wl) as O3. cbn [fold_res]. unfold deref at 1. rewrite Eq. cbn [bind]. unfold step_of. rewrite (proj2 (Z.eqb_neq _ _)) by (destruct We as (_ & _ & Q & _); lia). cbn [bind fst snd].
    rewrite <- (firstn_skipn (Z.to_nat (open_num e)) z). set (z1 := firstn _ z). set (z2 := skipn (Z.to_nat (open_num e)) z). assert (L1 : List.length z1 = Z.to_nat (open_num e)) by (unfold z1; rewrite firstn_length; lia). assert (L2 : Z.of_nat (List.length z2) = csize l) by (unfold z2; rewrite skipn_length; lia). change (map (fun s => 5 / 10 + 5 / 10 * sk s * sw s * (1 / IZR (e_npts e - 1))) (removelast (e_smp e))) with (map (jacobi e) (open_smp e)).
    rewrite <- app_assoc. rewrite (set_slice_block p z1 (z2 ++ r)); [|lia|fold (open_num e); lia|rewrite map_length; lia]. cbn [bind]. rewrite (app_assoc p). rewrite (IH Wl (p ++ map (jacobi e) (open_smp e)) z2 r); [|rewrite app_length, map_length; fold (open_num e); lia|exact L2]. cbn [jacobis map concat]. fold (jacobis l). rewrite <- !app_assoc. f_equal. f_equal. rewrite csize_cons. fold (open_num e). lia.
Qed.
Lemma diagonal_ok A d : map_res (fun i => do r <- geti A i; geti r i) (holes c) = Ok d -> layer_diagonal H c A = Ok (jacobis es ++ d).
Proof using Rd B.
  intros Ed. pose proof F as (F2 & _ & _ & Es). pose proof (cell_wf Rd B) as W. unfold layer_diagonal. rewrite (npts_cell F). cbn [attr bind]. rewrite (comps_len H c ess F).
  set (G := fun i => jacobis (concat (firstn i ess)) ++ repeat 0 (N - List.length (jacobis (concat (firstn i ess))))).
  assert (G0 : repeat 0 N = G 0%nat) by (unfold G; cbn [firstn concat jacobis map List.length app]; rewrite Nat.sub_0_r; reflexivity). rewrite G0.
  rewrite (fold_seq _ G (List.length ess) 0).
  - cbn [bind Nat.add]. rewrite Ed. cbn [bind]. unfold G. rewrite firstn_all. pose proof (jacobis_length es (proj2 (Forall_concat _ _) W)) as L. replace (N - List.length (jacobis es))%nat with 0%nat by lia. cbn [repeat]. rewrite app_nil_r. reflexivity.
  - intros i Li. cbn [Nat.add]. destruct (comps_at H c ess F i Li) as (k & l & Ek & El & Fk). rewrite (geti_nth _ _ _ Ek). cbn [bind]. rewrite Es. cbn [attr bind]. rewrite (geti_nth _ _ _ (offset_at (map csize ess) i ltac:(rewrite map_length; lia))). cbn [bind].
    assert (Wi : Forall well_sampled (concat (firstn i ess))) by (apply Forall_concat; apply Forall_forall; intros x Ix; rewrite Forall_forall in W; apply W; rewrite <- (firstn_skipn i ess); apply in_or_app; left; exact Ix).
    assert (Off : total (firstn i (map csize ess)) = csize (concat (firstn i ess))). { rewrite firstn_map. generalize (firstn i ess). clear. intros ls. induction ls as [|x ls IH]; [reflexivity|]. cbn [map concat]. rewrite csize_app, <- IH. reflexivity. }
    assert (Wl : Forall well_sampled l) by (rewrite Forall_forall in W; apply W; eapply nth_error_In, El). pose proof (jacobis_length _ Wi) as J1. pose proof (csize_nonneg l Wl) as P1. pose proof (csize_nonneg _ Wi) as P2.
    assert (Fit : (csize (concat (firstn i ess)) + csize l <= csize es)%Z). { rewrite <- (firstn_skipn i ess) at 2. rewrite concat_app, csize_app. assert (Esk : skipn i ess = l :: skipn (S i) ess). { clear -El. revert i El. induction ess as [|x ls IH]; intros [|i] El; try discriminate; [injection El as <-; reflexivity|]. cbn [skipn]. apply IH, El. } rewrite Esk. cbn [concat]. rewrite csize_app. assert (0 <= csize (concat (skipn (S i) ess)))%Z; [|lia]. apply csize_nonneg, Forall_concat, Forall_forall. intros x Ix. rewrite Forall_forall in W. apply W. rewrite <- (firstn_skipn (S i) ess). apply in_or_app. right. exact Ix. }
    unfold G at 1. set (m := (N - List.length (jacobis (concat (firstn i ess))))%nat). replace m with (Z.to_nat (csize l) + (m - Z.to_nat (csize l)))%nat by (unfold m; lia). rewrite repeat_app. rewrite (diag_run (k_edges k) l (proj1 Fk) Wl); [|rewrite Off; exact J1|rewrite repeat_length; lia]. cbn [bind]. unfold G. rewrite (firstn_snoc _ _ _ El), concat_app, jacobis_app. cbn [concat]. rewrite app_nil_r, <- app_assoc. do 3 f_equal. f_equal. rewrite app_length. pose proof (jacobis_length l Wl). unfold m. lia.
Qed.

(** ** Sizes *)
Context (gm : (list R -> res (list R)) -> list R -> (list R -> res (list R)) -> res (list R)).
Hypothesis Gm : solves_sizes gm.
Lemma quot_sizable n d : (0 <= n)%Z -> List.length d = Z.to_nat n -> sizable (Z.to_nat n) (lin_call n (fun x => np_quot x d)).
Proof.
  intros Pos Ld u Lu. unfold lin_call, np_quot. rewrite (proj2 (Z.eqb_eq _ _)) by lia. rewrite LocalProofs.np_mul_zip by (rewrite map_length; congruence). cbn [bind]. assert (Lz : List.length (zip_with Rmult u (map Rinv d)) = Z.to_nat n) by (rewrite zip_length; [exact Lu|rewrite map_length; congruence]). rewrite (proj2 (Z.eqb_eq _ _)) by lia. eauto.
Qed.
Context (L : layers).
Hypothesis EL : build_layers H c = Ok L.
Lemma neumann_sizable : sizable N (neumann_op H c L).
Proof using Rd B EL. intros u Lu. rewrite (neumann_ok Rd B L u EL Lu). eexists. split; [reflexivity|]. rewrite map_length. apply seq_length. Qed.
Lemma solve_ok d w : List.length w = N -> exists v, solve_neumann gm H c L (jacobis es ++ d) w = Ok v /\ List.length v = N.
Proof using Rd B EL Gm.
  intros Lw. pose proof (cell_wf Rd B) as W. pose proof (jacobis_length es (proj2 (Forall_concat _ _) W)) as Lj. unfold solve_neumann. rewrite (single_ok Rd B L w EL Lw). cbn [bind]. rewrite (npts_cell F). cbn [attr bind]. set (b := map _ _). assert (Lb : List.length b = N) by (unfold b; rewrite map_length; apply seq_length).
  assert (Ef : firstn N (jacobis es ++ d) = jacobis es) by (replace N with (List.length (jacobis es)) by lia; rewrite firstn_app, firstn_all, Nat.sub_diag, firstn_O, app_nil_r; reflexivity). rewrite Ef. destruct (Gm (neumann_op H c L) b (lin_call (csize es) (fun x => np_quot x (jacobis es)))) as (v & Ev & Lv); [rewrite Lb; apply neumann_sizable|rewrite Lb; apply quot_sizable; lia|]. exists v. split; [exact Ev|congruence].
Qed.
Context (T : logterms) (xs : list pt).
Hypothesis ET : compute_log_terms H c L = Ok T.
Hypothesis Cx : centers c xs.
Lemma conj_sizable : sizable (N + h) (conjugate_op H c L T).
Proof using Rd B EL ET Cx.
  intros u Lu. rewrite <- (firstn_skipn N u). rewrite (conjugate_ok Rd B L T xs) by (try assumption; rewrite ?firstn_length, ?skipn_length; lia). eexists. split; [reflexivity|]. rewrite app_length, !map_length, !seq_length. reflexivity.
Qed.
Lemma terms_facts : Forall2 (log_samples es) xs (lt_trace T) /\ shape h h (lt_Sn T) /\ List.length xs = h.
Proof using Rd B EL ET Cx.
  destruct (terms_ok Rd B L xs EL Cx) as (T' & ET' & Fl & _ & S2 & _). assert (T' = T) by (rewrite ET in ET'; apply Ok_inj in ET'; congruence). subst T'. split; [exact Fl|]. split; [exact S2|]. rewrite <- (Forall2_len _ _ _ Cx). apply (comps_holes Rd B).
Qed.
Lemma holes_conj_ok d v w : List.length v = N -> List.length w = N -> List.length d = h -> exists x lc, conjugate_holes gm H c L T (jacobis es ++ d) v w = Ok (x, lc) /\ List.length x = N /\ List.length lc = h.
Proof using Rd B EL Gm ET Cx.
  intros Lv Lw Ld. destruct terms_facts as (Fl & _ & Lx). pose proof (cell_wf Rd B) as W. pose proof (jacobis_length es (proj2 (Forall_concat _ _) W)) as Lj. pose proof (holes_Z Rd B) as HZ. unfold conjugate_holes. rewrite (npts_cell F). cbn [attr bind]. rewrite (single_ok Rd B L _ EL) by (rewrite map_length; exact Lw). cbn [bind].
  unfold Sn. rewrite (moments_ok Rd B tr_wnd (lt_trace T) v (fun j => match nth_error (lt_trace T) j with Some t => match tr_wnd t with Some w => w | None => [] end | None => [] end)); [|intros j Lt; destruct (F2_at _ _ _ j Fl) as (xi & t & _ & Et & (_ & Ew & _)); [rewrite <- (Forall2_len _ _ _ Fl); lia|]; exists t; split; [exact Et|]; rewrite Et, Ew; split; [reflexivity|apply (fit_samples Rd B)]|exact Lv]. cbn [bind].
  set (b := map _ _ ++ map _ _). assert (Lb : List.length b = (N + h)%nat) by (unfold b; rewrite app_length, !map_length, !seq_length; reflexivity).
  destruct (Gm (conjugate_op H c L T) b (lin_call (csize es + c_holes c) (fun x => np_quot x (jacobis es ++ d)))) as (x & Ex & Lxx); [rewrite Lb; apply conj_sizable|rewrite Lb; replace (N + h)%nat with (Z.to_nat (csize es + c_holes c)) by lia; apply quot_sizable; [lia|rewrite app_length; lia]|]. rewrite Ex. cbn [bind]. do 2 eexists. split; [reflexivity|]. rewrite firstn_length, skipn_length. lia.
Qed.
Lemma F2_split {X Y} (P : X -> Y -> Prop) l k l2 l' : Forall2 P (l ++ k :: l2) l' -> exists a b a2, l' = a ++ b :: a2 /\ List.length a = List.length l /\ P k b.
Proof. intros F2. apply Forall2_app_inv_l in F2. destruct F2 as (a & b' & Fa & Fb & ->). inversion Fb as [|? b ? a2 Pb]; subst. exists a, b, a2. split; [reflexivity|]. split; [symmetry; exact (Forall2_len _ _ _ Fa)|exact Pb]. Qed.
Lemma indicators_ok d : exists l, normal_indicators gm H c L (jacobis es ++ d) = Ok l /\ List.length l = h /\ Forall (fun t => exists v, tr_vals t = Some v /\ fitting es v) l.
Proof using Rd B EL Gm.
  pose proof (ready_nonempty _ _ _ _ Rd B) as Ne. pose proof F as (F2 & _). unfold normal_indicators. rewrite <- (comps_holes Rd B). destruct (c_comps c) as [|c0 ks] eqn:Ec; [inversion F2 as [Q1 Q2|]; destruct Ne; rewrite <- Q2; reflexivity|]. cbn [geti nth_error bind tl]. inversion F2 as [|? e0 ? rest F0 Fr Q1 Q2]; symmetry in Q2; rename Q2 into Ee. assert (K0 : k_num c0 = List.length e0) by (unfold k_num; exact (refs_length _ _ _ (proj1 F0))).
  assert (G : forall post pre lpre l0, ks = pre ++ post -> (exists lpost, rest = lpre ++ lpost /\ List.length lpre = List.length pre) -> List.length l0 = List.length pre -> Forall (fun t => exists v, tr_vals t = Some v /\ fitting es v) l0 ->
    exists l z, fold_res (fun la k => do chi <- indicator H c (snd la) k; do v <- attr (tr_vals chi); do w <- cell_dx_norm v H c; do y <- solve_neumann gm H c L (jacobis es ++ d) w; do t <- cell_trace H c (VArr y); Ok (fst la ++ [t], (snd la + k_num k)%nat)) post (l0, List.length (e0 ++ concat lpre)) = Ok (l, z) /\ List.length l = List.length ks /\ Forall (fun t => exists v, tr_vals t = Some v /\ fitting es v) l).
  { induction post as [|k post IH]; intros pre lpre l0 Ek (lpost & El & Lpre) Ll0 Fl0; [exists l0; eexists; split; [reflexivity|]; split; [rewrite Ek, app_nil_r; exact Ll0|exact Fl0]|].
    assert (X : exists ej lpost', lpost = ej :: lpost' /\ fresh H k ej). { rewrite Ek, El in Fr. pose proof (Forall2_app_inv_l _ _ Fr) as (a & b & Fa & Fb & Eab). assert (Hq : a = lpre /\ b = lpost). { assert (Hab : List.length a = List.length lpre) by (rewrite Lpre; symmetry; exact (Forall2_len _ _ _ Fa)). clear -Eab Hab. revert lpre Eab Hab. induction a as [|x a IHa]; intros [|y lp] E Hl; cbn in Hl; try discriminate; [split; [reflexivity|symmetry; exact E]|]. cbn in E. injection E as -> E. destruct (IHa lp E ltac:(lia)) as [-> ->]. split; reflexivity. } destruct Hq as [-> ->]. inversion Fb as [|? ej ? lp' Fk Fb']. exists ej, lp'. split; [reflexivity|exact Fk]. }
    destruct X as (ej & lpost' & -> & Fk). cbn [fold_res fst snd]. destruct (indicator_ok Rd B e0 lpre ej lpost' k) as (t & Et & Vt); [rewrite Ee, El; reflexivity|rewrite Ec; cbn [nth_error]; rewrite Ek, nth_error_app2, Lpre, Nat.sub_diag by lia; reflexivity|].
    rewrite Et. cbn [bind]. rewrite Vt. cbn [attr bind]. set (v := _ ++ _). assert (Fv : fitting es v).
    { pose proof (cell_wf Rd B) as W. rewrite Ee, El in W. inversion W as [|? ? W0 Wr]. apply Forall_app in Wr. destruct Wr as [Wp Wq]. inversion Wq as [|? ? Wj Wl]. unfold fitting, v. rewrite !app_length, !repeat_length. rewrite Ee, El. cbn [concat]. rewrite concat_app. cbn [concat]. rewrite !csize_app. pose proof (csize_nonneg _ W0). pose proof (csize_nonneg _ (proj2 (Forall_concat _ _) Wp)). pose proof (csize_nonneg _ Wj). pose proof (csize_nonneg _ (proj2 (Forall_concat _ _) Wl)). lia. }
    destruct (f_dx Rd B v Fv) as (w & Ew & Fw). rewrite Ew. cbn [bind]. destruct (solve_ok d w) as (y & Ey & Ly); [apply (fit_N Rd B), Fw|]. rewrite Ey. cbn [bind]. rewrite (trace_arr F) by (apply (fit_N Rd B), Ly). cbn [bind].
    destruct (IH (pre ++ [k]) (lpre ++ [ej]) (l0 ++ [made es y None None])) as (l3 & z & E & R1); [rewrite <- app_assoc; exact Ek|exists lpost'; split; [rewrite <- app_assoc; exact El|rewrite !app_length, Lpre; reflexivity]|rewrite !app_length, Ll0; reflexivity|apply Forall_app; split; [exact Fl0|constructor; [|constructor]; exists y; split; [reflexivity|apply (fit_N Rd B), Ly]]|].
    exists l3, z. split; [|exact R1]. rewrite <- E. f_equal. f_equal. rewrite concat_app. cbn [concat]. rewrite app_nil_r, !app_length. rewrite (refs_length _ _ _ (proj1 Fk) : k_num k = List.length ej). lia. }
  destruct (G ks [] [] []) as (lr & z & E & Ll & Fl); [reflexivity|exists rest; split; reflexivity|reflexivity|constructor|]. cbn [concat] in E. rewrite app_nil_r in E. rewrite <- ?Ee, K0, E. cbn [bind]. exists lr. split; [reflexivity|]. split; [exact Ll|exact Fl].
Qed.
End Cell.
