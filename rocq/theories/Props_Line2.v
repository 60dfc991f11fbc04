(** * Lifting line: C164-C166 *)
From Coq Require Import Reals List Arith Bool Lia Lra Psatz.
From Verif Require Import PyBase M_Opt P_Opt M_Mission P_Mission P_Cheb M_Line S_Line P_Line Props_Line.
Import ListNotations.
Local Open Scope R_scope.

(** ** C164 *)
(** without stations the chord runs straight from the root to taper times the root *)
Theorem C164_taper w eta : lw_stations w = [] -> exists t, chord_twist w eta = Ok (between 0 (lw_root w) 1 (lw_taper w * lw_root w) eta, t).
Proof. intro E. unfold chord_twist. rewrite E. eexists. f_equal. f_equal. unfold between. field. Qed.
(** but the twist of the root is given to the tip and that of the tip to the root *)
Theorem C164_twist_refuted w eta : lw_stations w = [] -> exists c, chord_twist w eta = Ok (c, between 0 (lw_tip_twist w) 1 (lw_root_twist w) eta).
Proof. intro E. unfold chord_twist. rewrite E. eexists. f_equal. f_equal. unfold between. field. Qed.
Lemma paint_out root x1 l1 t1 x2 l2 t2 eta ca : eta <= x1 \/ x2 <= eta -> paint root x1 l1 t1 x2 l2 t2 eta ca = ca.
Proof. intro H. unfold paint. destruct (Rltb x1 eta) eqn:E1; [|reflexivity]. destruct (Rltb eta x2) eqn:E2; [|reflexivity]. apply Rltb_true in E1. apply Rltb_true in E2. lra. Qed.
Lemma paint_in root x1 l1 t1 x2 l2 t2 eta ca : x1 < eta < x2 -> paint root x1 l1 t1 x2 l2 t2 eta ca = (between x1 (l1 * root) x2 (l2 * root) eta, between x1 t1 x2 t2 eta).
Proof. intro H. unfold paint. rewrite (proj2 (Rltb_true x1 eta)), (proj2 (Rltb_true eta x2)) by lra. cbn. unfold between. f_equal; field; lra. Qed.
Lemma paint_step w s s' t eta ca : paint_all w (s :: s' :: t) eta ca = paint_all w (s' :: t) eta (paint (lw_root w) (st_x s) (st_chord s) (st_twist s) (st_x s') (st_chord s') (st_twist s') eta ca).
Proof. reflexivity. Qed.
Lemma paint_one w s eta ca : st_x s = 1 -> paint_all w [s] eta ca = Ok (paint (lw_root w) (st_x s) (st_chord s) (st_twist s) 1 (lw_tip w / lw_root w) (lw_tip_twist w) eta ca).
Proof. intro E. cbn. destruct (Req_EM_T (st_x s) 1); [reflexivity|contradiction]. Qed.
Lemma last_any {A} (l : list A) x d d' : last (x :: l) d = last (x :: l) d'.
Proof. revert x. induction l as [|y l IH]; intro x; [reflexivity|apply (IH y)]. Qed.
Lemma paint_inner w l eta ca s t : l = s :: t -> st_x (last l s) = 1 -> outward l -> eta <= st_x s -> paint_all w l eta ca = Ok ca.
Proof.
  revert s t ca. induction l as [|x l IH]; intros s t ca E L O H; [discriminate|]. injection E as -> ->. destruct t as [|s' t].
  - rewrite paint_one by exact L. rewrite paint_out by (left; exact H). reflexivity.
  - destruct O as (F & O). inversion F; subst. rewrite paint_step, paint_out by (left; exact H). apply (IH s' t); [reflexivity| |exact O|lra]. rewrite <- L. f_equal. apply (last_any t s' s' s).
Qed.
(** between two neighbouring stations chord and twist are interpolated *)
Theorem C164_between w pre s s' post eta : lw_stations w = pre ++ s :: s' :: post -> outward (lw_stations w) -> st_x (last (s' :: post) s') = 1 -> st_x s < eta < st_x s' ->
  chord_twist w eta = Ok (between (st_x s) (st_chord s * lw_root w) (st_x s') (st_chord s' * lw_root w) eta, between (st_x s) (st_twist s) (st_x s') (st_twist s') eta).
Proof.
  intros E O L H. assert (G : forall pre ca, outward (pre ++ s :: s' :: post) -> paint_all w (pre ++ s :: s' :: post) eta ca = Ok (between (st_x s) (st_chord s * lw_root w) (st_x s') (st_chord s' * lw_root w) eta, between (st_x s) (st_twist s) (st_x s') (st_twist s') eta)).
  { clear E O pre. induction pre as [|x pre IH]; intros ca O.
    - cbn [app]. rewrite paint_step, paint_in by exact H. destruct O as (_ & O). apply (paint_inner w _ _ _ s' post); [reflexivity|exact L|exact O|lra].
    - cbn [app] in *. destruct O as (F & O). destruct (pre ++ s :: s' :: post) as [|y l] eqn:Q; [destruct pre; discriminate|]. rewrite paint_step, paint_out; [apply IH, O|]. right. destruct pre as [|z pre]; cbn [app] in Q; injection Q as -> <-; [lra|].
      destruct O as (F' & _). rewrite Forall_forall in F'. specialize (F' s). assert (st_x y < st_x s) by (apply F'; apply in_or_app; right; left; reflexivity). lra. }
  unfold chord_twist. destruct (lw_stations w) as [|y l] eqn:Q; [destruct pre; discriminate|]. rewrite E. apply G. rewrite <- E. exact O.
Qed.
(** but exactly at a station they are those of the root *)
Theorem C164_break_refuted w pre s post eta : lw_stations w = pre ++ s :: post -> outward (lw_stations w) -> st_x (last (s :: post) s) = 1 -> eta = st_x s ->
  chord_twist w eta = Ok (lw_root w, lw_root_twist w).
Proof.
  intros E O L H. assert (G : forall pre ca, outward (pre ++ s :: post) -> paint_all w (pre ++ s :: post) eta ca = Ok ca).
  { clear E O pre. induction pre as [|x pre IH]; intros ca O.
    - cbn [app]. apply (paint_inner w _ _ _ s post); [reflexivity|exact L|exact O|lra].
    - cbn [app] in *. destruct O as (F & O). destruct (pre ++ s :: post) as [|y l] eqn:Q; [destruct pre; discriminate|]. rewrite paint_step, paint_out; [apply IH, O|].
      right. destruct pre as [|z pre]; cbn [app] in Q; injection Q as -> <-; [lra|]. destruct O as (F' & _). rewrite Forall_forall in F'. assert (st_x y < st_x s) by (apply F'; apply in_or_app; right; left; reflexivity). lra. }
  unfold chord_twist. destruct (lw_stations w) as [|y l] eqn:Q; [destruct pre; discriminate|]. rewrite E. apply G. rewrite <- E. exact O.
Qed.
(** stations that end before the tip raise IndexError *)
Theorem C164_open w s t eta : lw_stations w = s :: t -> st_x (last (s :: t) s) <> 1 -> chord_twist w eta = Err IndexError.
Proof.
  intros E N. unfold chord_twist. rewrite E. generalize (lw_root w, lw_root_twist w). clear E. revert s N. induction t as [|s' t IH]; intros s N ca.
  - cbn in *. destruct (Req_EM_T (st_x s) 1); [contradiction|reflexivity].
  - rewrite paint_step. apply (IH s'). intro Q. apply N. rewrite <- Q. f_equal. apply (last_any t s' s s').
Qed.
(** positive chords at all stations and ends make a wing whose equations can be solved *)
Theorem C164_fair w r : (2 <= r)%nat -> 0 < lw_span w -> 0 < lw_root w -> 0 < lw_taper w -> 0 < lw_tip w -> Forall (fun s => 0 < st_chord s) (lw_stations w) ->
  (forall s t, lw_stations w = s :: t -> st_x (last (s :: t) s) = 1) -> fair w r.
Proof.
  intros R2 B RC T TC F L. right. split; [exact R2|]. split; [exact B|]. intros i Li. pose proof (eta_range w r i R2 B Li) as ER. set (eta := etan w r i) in *. unfold chord_twist. destruct (lw_stations w) as [|s t] eqn:E.
  - eexists. eexists. split; [reflexivity|]. replace (lw_root w + lw_root w * (lw_taper w - 1) * eta) with (lw_root w * (1 - eta + lw_taper w * eta)) by ring. apply Rmult_lt_0_compat; [exact RC|]. nra.
  - specialize (L s t eq_refl). clear E. assert (P : forall x1 l1 t1 x2 l2 t2 ca, 0 < l1 -> 0 < l2 -> 0 < fst ca -> 0 < fst (paint (lw_root w) x1 l1 t1 x2 l2 t2 eta ca)).
    { intros x1 l1 t1 x2 l2 t2 ca P1 P2 P3. unfold paint. destruct (Rltb x1 eta) eqn:E1; [|exact P3]. destruct (Rltb eta x2) eqn:E2; [|exact P3]. apply Rltb_true in E1. apply Rltb_true in E2. cbn. apply Rmult_lt_0_compat; [|exact RC].
      replace (l1 + (eta - x1) * (l2 - l1) / (x2 - x1)) with ((l1 * (x2 - eta) + l2 * (eta - x1)) / (x2 - x1)) by (field; lra). apply Rdiv_lt_0_compat; [|lra]. assert (0 < l1 * (x2 - eta)) by (apply Rmult_lt_0_compat; lra). assert (0 < l2 * (eta - x1)) by (apply Rmult_lt_0_compat; lra). lra. }
    assert (G : forall ca, 0 < fst ca -> exists c a, paint_all w (s :: t) eta ca = Ok (c, a) /\ 0 < c); [|apply G; exact RC].
    revert s F L. induction t as [|s' t IH]; intros s F L ca C; inversion F; subst.
    + rewrite paint_one by exact L. rewrite (surjective_pairing (paint _ _ _ _ _ _ _ _ _)). eexists. eexists. split; [reflexivity|]. apply P; [assumption|apply Rdiv_lt_0_compat; assumption|exact C].
    + match goal with Q : Forall _ (s' :: t) |- _ => pose proof (Forall_inv Q) as P' end. rewrite paint_step. apply (IH s'); [assumption|rewrite <- L; f_equal; apply (last_any t s' s' s)|apply P; assumption].
Qed.
Definition kinked : lwing := LWing false 10 10 10 1 (1 / 2) 0 0 1 (1 / 2) [Station 0 1 0; Station (1 / 2) (3 / 4) 0; Station 1 (1 / 4) 0].
Example C164_case : outward (lw_stations kinked) /\ chord_twist kinked (3 / 4) = Ok (1 / 2, 0) /\ fair kinked 20.
Proof.
  assert (O : outward (lw_stations kinked)) by (cbn; repeat split; repeat constructor; cbn; lra). split; [exact O|]. split.
  - rewrite (C164_between kinked [Station 0 1 0] (Station (1 / 2) (3 / 4) 0) (Station 1 (1 / 4) 0) [] (3 / 4)); [|reflexivity|exact O|reflexivity|cbn; lra]. cbn. unfold between. f_equal. f_equal; field.
  - apply C164_fair; [lia|cbn; lra|cbn; lra|cbn; lra|cbn; lra|cbn; repeat constructor; cbn; lra|]. intros s t E. injection E as <- <-. reflexivity.
Qed.

(** ** C165 *)
Theorem C165_vertical w r alpha out : lw_vertical w = true -> (lifting_line w r alpha out <-> out = (0, 0)).
Proof. intro V. unfold lifting_line. rewrite V. reflexivity. Qed.
Lemma drag_neg AR b mac c r A : drag_of AR b mac c r (fun j => - A j) = - drag_of AR b mac c r A.
Proof.
  unfold drag_of. rewrite !(Sum_zero (r - 1) (fun i => 0 * c i * etam r i)) by (intros; ring). replace (- (Sum (r - 1) (fun i => section_lift b c r A i * section_angle r A i * AR * etam r i) + 0 / mac)) with (-1 * Sum (r - 1) (fun i => section_lift b c r A i * section_angle r A i * AR * etam r i) + 0 / mac) by (unfold Rdiv; ring). rewrite <- Sum_scal.
  f_equal. apply Sum_ext. intros i _. assert (E1 : section_lift b c r (fun j => - A j) i = - section_lift b c r A i).
  { unfold section_lift. rewrite (Sum_ext _ _ (fun j => -1 * (4 * A j * sin (INR (j + 1) * theta r j)))) by (intros; ring). rewrite Sum_scal. unfold Rdiv. ring. }
  assert (E2 : section_angle r (fun j => - A j) i = section_angle r A i).
  { unfold section_angle. apply Sum_ext. intros j _. replace (INR (j + 1) * - A j) with (- (INR (j + 1) * A j)) by ring. rewrite sin_neg. unfold Rdiv. ring. }
  rewrite E1, E2. ring.
Qed.
Lemma untwisted_zero w r c a : untwisted w r -> (forall i, (i < r - 1)%nat -> chord_twist w (etan w r i) = Ok (c i, a i)) -> forall i, (i < r - 1)%nat -> a i = 0.
Proof. intros U H i L. apply (U i (c i) (a i) L). apply H, L. Qed.
(** turning the angle of attack of an untwisted wing round turns lift round, but also drag *)
Theorem C165_odd_refuted w r alpha out out' : fair w r -> untwisted w r -> lifting_line w r alpha out -> lifting_line w r (- alpha) out' -> fst out' = - fst out /\ snd out' = - snd out.
Proof.
  intros F U L L'. destruct (lw_vertical w) eqn:V; [unfold lifting_line in *; rewrite V in *; subst; cbn; split; ring|]. destruct (fair_chords w r F V) as (R2 & B & c & a & H & P).
  destruct (open_call w r _ _ c a V H L) as (A & S & ->). destruct (open_call w r _ _ c a V H L') as (A' & S' & ->). assert (Z := untwisted_zero w r c a U H).
  assert (E : forall j, (j < r - 1)%nat -> A' j = - A j).
  { intros j Lj. symmetry. apply (sol_unique r (lw_span w) c a (- alpha) A' (fun j => - A j)); try assumption. intros i Li. rewrite (Sum_ext _ _ (fun j => -1 * (coefficient (lw_span w) c r i j * A j))) by (intros; ring). rewrite Sum_scal, (S i Li). unfold downwash. rewrite (Z i Li). ring. }
  cbn. split; [unfold lift_of; rewrite E by lia; ring|]. rewrite <- drag_neg. apply drag_ext; [reflexivity|exact E].
Qed.
(** so with two divisions drag is negative at all small negative angles *)
Theorem C165_negative_refuted w alpha out : fair w 2 -> untwisted w 2 -> lw_vertical w = false -> 0 < lw_aspect w -> 0 < lw_mac w -> -1 < alpha < 0 -> lifting_line w 2 alpha out -> snd out < 0.
Proof.
  intros F U V P MC AL L. destruct (fair_chords w 2 F V) as (R2 & B & c & a & H & PC). destruct (open_call w 2 _ _ c a V H L) as (A & S & ->). assert (Z := untwisted_zero w 2 c a U H 0%nat ltac:(cbn; lia)). pose proof PI_RGT_0. pose proof PI2_1.
  assert (T : theta 2 0 = PI / 2) by (unfold theta; cbn; field). specialize (S 0%nat ltac:(cbn; lia)). cbn [Nat.sub Sum] in S. unfold coefficient, downwash in S. rewrite T, Z in S. cbn [Nat.add INR] in S. rewrite !Rmult_1_l, sin_PI2 in S.
  specialize (PC 0%nat ltac:(cbn; lia)). assert (K : 0 < grouped (lw_span w) (c 0%nat)) by (unfold grouped; apply Rdiv_lt_0_compat; [apply Rmult_lt_0_compat; lra|lra]). set (k := grouped (lw_span w) (c 0%nat)) in *.
  assert (A0 : -1 < A 0%nat < 0) by (split; nra).
  assert (SN : sin (A 0%nat) < 0) by (apply sin_lt_0_var; lra).
  cbn [snd]. unfold drag_of. cbn [Nat.sub Sum]. unfold section_lift, section_angle, etam. cbn [Nat.add Sum]. rewrite T. cbn [INR]. rewrite !Rmult_1_l, sin_PI2.
  replace (0 + lw_span w * (0 + 4 * A 0%nat * 1) / c 0%nat * (0 + A 0%nat * sin (A 0%nat) / 1) * lw_aspect w * (PI * 1 / (2 * (1 + 1))) + (0 + 0 * c 0%nat * (PI * 1 / (2 * (1 + 1)))) / lw_mac w)
    with (- (lw_span w / c 0%nat * lw_aspect w * PI * (A 0%nat ^ 2 * - sin (A 0%nat)))) by (field; split; lra).
  apply Ropp_lt_gt_0_contravar. apply Rmult_lt_0_compat; [apply Rmult_lt_0_compat; [apply Rmult_lt_0_compat; [apply Rdiv_lt_0_compat; assumption|exact P]|lra]|]. apply Rmult_lt_0_compat; [nra|lra].
Qed.
Example C165_case : fair plain_wing 2 /\ untwisted plain_wing 2 /\ exists out, lifting_line plain_wing 2 (- (1 / 2)) out /\ snd out < 0.
Proof.
  assert (F : fair plain_wing 2) by (apply C164_fair; [lia|cbn; lra|cbn; lra|cbn; lra|cbn; lra|constructor|intros s t E; discriminate E]).
  assert (U : untwisted plain_wing 2).
  { intros i c a _ E. unfold chord_twist in E. cbn [lw_stations plain_wing lw_root_twist lw_tip_twist] in E. apply (f_equal (fun x => match x with Ok (_, a) => a | _ => 0 end)) in E. cbv beta iota zeta in E. lra. }
  split; [exact F|]. split; [exact U|]. destruct (C162_one_answer plain_wing 2 (- (1 / 2)) F) as (out & L & _). exists out. split; [exact L|]. apply (C165_negative_refuted plain_wing (- (1 / 2)) out F U); [reflexivity|cbn; lra|cbn; lra|lra|exact L].
Qed.
Print Assumptions C164_taper.
Print Assumptions C164_twist_refuted.
Print Assumptions C164_between.
Print Assumptions C164_break_refuted.
Print Assumptions C164_open.
Print Assumptions C164_fair.
Print Assumptions C165_vertical.
Print Assumptions C165_odd_refuted.
Print Assumptions C165_negative_refuted.
