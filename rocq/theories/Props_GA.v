(** * Weight estimation: properties C100 to C102 *)
From Coq Require Import Reals List Bool Arith Lra Lia Psatz.
From Verif Require Import PyBase M_Opt P_Opt M_Drag P_Friction M_Stab P_Stab M_Elec S_Elec P_Elec M_Weight S_Weight P_Weight.
Import ListNotations.
Local Open Scope R_scope.

(** ** C100: general aviation *)
Theorem C100_success g : (exists o, ga_empty g = Ok o) <-> ga_htail g <> None /\ (ga_gear g <> None -> ga_fuel_of g <> None).
Proof.
  unfold ga_empty. destruct (ga_fuel_of g) as [f|]; destruct (ga_htail g) as [h|]; destruct (ga_gear g) as [[lm ln]|]; simpl;
    (split; [intros [o H]; try discriminate H; split; try discriminate; intros K; try discriminate; try (exfalso; apply K; reflexivity)|
             intros [A B]; try (exfalso; apply A; reflexivity); try (exfalso; apply B; [discriminate|reflexivity]); eexists; reflexivity]).
Qed.
Theorem C100_failure g e : ga_empty g = Err e -> e = UnboundLocalError.
Proof.
  unfold ga_empty. destruct (ga_fuel_of g) as [f|]; destruct (ga_htail g) as [h|]; destruct (ga_gear g) as [[lm ln]|]; simpl; intro H;
    try discriminate H; injection H as <-; reflexivity.
Qed.
(** the statement closes, but the weight of the fuel system is in none of its sums *)
Theorem C100_closes g o : ga_empty g = Ok o ->
  go_structures o = go_wing o + go_h o + go_v o + go_fuse o + r_main (go_gear o) + r_nose (go_gear o) /\
  go_systems o = gs_ctrl (go_sys o) + gs_elec (go_sys o) + gs_avi (go_sys o) + gs_hyd (go_sys o) + gs_furn (go_sys o) + gs_ac (go_sys o) /\
  go_empty o = go_structures o + go_prop o + go_systems o /\ go_oe o = go_empty o /\ go_zfw o = go_oe o + p_total (go_payload o) /\
  p_total (go_payload o) = payload_items (go_payload o) /\
  go_zfw o + go_fuel o = ga_mtow g /\
  go_prop o = ga_prop_weight g.
Proof.
  intro H. unfold ga_empty in H. destruct (ga_htail g) as [h|]; [|destruct (ga_fuel_of g); discriminate H].
  destruct (ga_fuel_of g) as [f|]; (destruct (ga_gear g) as [[lm ln]|]; simpl in H; [|]); try discriminate H; injection H as <-; unfold payload_items, ga_payload; simpl;
    repeat split; ring.
Qed.
Theorem C100_fuel_system_refuted g o : ga_empty g = Ok o ->
  gs_total (go_sys o) = go_systems o + go_fuel_system o /\ go_fuel_system o = gs_fuel (go_sys o) /\
  (forall f, ga_fuel_of g = Some f -> 0 < gf_mass f -> 0 < gf_density f -> 0 <= gf_internal f -> (0 < gf_tanks f)%nat -> (0 < ga_engines g)%nat -> 0 < go_fuel_system o).
Proof.
  intro H. unfold ga_empty in H. destruct (ga_htail g) as [h|]; [|destruct (ga_fuel_of g); discriminate H].
  assert (Q : forall f, 0 < gf_mass f -> 0 < gf_density f -> 0 <= gf_internal f -> (0 < gf_tanks f)%nat -> (0 < ga_engines g)%nat ->
     0 < dec 249 2 * pw (gf_mass f / gf_density f / gallon) (dec 726 3) * pw (gf_mass f / gf_density f / gallon / (gf_mass f / gf_density f / gallon + gf_internal f / gallon)) (dec 363 3)
         * pw (INR (gf_tanks f)) (dec 242 3) * pw (INR (ga_engines g)) (dec 157 3) * lb).
  { intros f M D I T E. assert (G : 0 < gallon) by (unfold gallon, inch; lra). assert (V : 0 < gf_mass f / gf_density f / gallon) by (apply Rdiv_lt_0_compat; [apply Rdiv_lt_0_compat|]; lra).
    assert (I' : 0 <= gf_internal f / gallon) by (apply Rmult_le_pos; [lra|left; apply Rinv_0_lt_compat; lra]).
    pose proof lb_pos. apply lt_INR in T, E. simpl in T, E.
    apply Rmult_lt_0_compat; [apply Rmult_lt_0_compat; [apply Rmult_lt_0_compat; [apply Rmult_lt_0_compat; [apply Rmult_lt_0_compat|]|]|]|assumption];
      try (apply dec_pos; lia); apply pw_pos; try assumption. apply Rdiv_lt_0_compat; lra. }
  destruct (ga_fuel_of g) as [f|]; (destruct (ga_gear g) as [[lm ln]|]; simpl in H; [|]); try discriminate H; injection H as <-; simpl;
    (split; [ring|split; [reflexivity|]]); intros f' E; try discriminate E; injection E as <-; apply Q.
Qed.
(** the taper of the horizontal tail has no effect: its span is used instead *)
Theorem C100_taper_refuted g w : ga_htail g = Some w -> 0 < w_span w -> 0 < w_taper w ->
  ga_htail_weight g = Rpower (w_span w / w_taper w) (- (2 / 100)) *
                      ga_h (w_area w) (w_span w * w_span w / w_area w) (w_sweep w) (ga_q g) (w_taper w) (w_tc w) (ga_nult g) (ga_mtow g).
Proof.
  intros H S T. unfold ga_htail_weight. rewrite H. unfold ga_h.
  assert (E : Rpower (w_span w) (- dec 2 2) = Rpower (w_span w / w_taper w) (- (2 / 100)) * Rpower (w_taper w) (- dec 2 2)).
  { replace (dec 2 2) with (2 / 100) by (unfold dec; simpl; lra). rewrite Rpower_mult_distr; [|apply Rdiv_lt_0_compat; lra|lra]. f_equal. field. lra. }
  rewrite E. ring.
Qed.
(** a parenthesis: the flight controls barely depend on the take-off weight *)
Theorem C100_controls_refuted uav vf vi nt ne l span tow nult seats mach ac : 0 < tow -> 0 < nult ->
  gs_ctrl (ga_systems uav vf vi nt ne l span (2 * tow) nult seats mach ac) = Rpower 2 (8 / 100000) * gs_ctrl (ga_systems uav vf vi nt ne l span tow nult seats mach ac) /\
  Rpower 2 (8 / 100000) < 1 + 1 / 5000.
Proof.
  intros T N. pose proof lb_pos as L. split.
  - simpl. assert (E : pw (nult * pw (2 * tow / lb) (dec 1 4)) (dec 8 1) = Rpower 2 (8 / 100000) * pw (nult * pw (tow / lb) (dec 1 4)) (dec 8 1)).
    { assert (T0 : 0 < tow / lb) by (apply Rdiv_lt_0_compat; lra). assert (T2 : 0 < 2 * tow / lb) by (apply Rdiv_lt_0_compat; lra).
      pose proof (pw_pos (tow / lb) (dec 1 4) T0). pose proof (pw_pos (2 * tow / lb) (dec 1 4) T2).
      rewrite (pw_eq (nult * _)) by (apply Rmult_lt_0_compat; assumption). rewrite (pw_eq (nult * pw (tow / lb) _)) by (apply Rmult_lt_0_compat; assumption).
      rewrite !pw_eq by assumption. replace (2 * tow / lb) with (2 * (tow / lb)) by (unfold Rdiv; ring). rewrite <- (Rpower_mult_distr 2 (tow / lb)) by lra.
      replace (nult * (Rpower 2 (dec 1 4) * Rpower (tow / lb) (dec 1 4))) with (Rpower 2 (dec 1 4) * (nult * Rpower (tow / lb) (dec 1 4))) by ring.
      rewrite <- Rpower_mult_distr; [|apply exp_pos|apply Rmult_lt_0_compat; [exact N|apply exp_pos]]. rewrite Rpower_mult. f_equal. f_equal. unfold dec. simpl. lra. }
    rewrite E. ring.
  - unfold Rpower. apply Rlt_trans with (exp (8 / 100000)).
    + apply exp_increasing. assert (ln 2 < 1); [|lra]. rewrite <- (ln_exp 1). apply ln_increasing; [lra|]. pose proof (exp_ineq1 1). lra.
    + pose proof (exp_ineq1 (- (8 / 100000)) ltac:(lra)) as E. rewrite exp_Ropp in E. pose proof (exp_pos (8 / 100000)) as P. apply Rmult_lt_reg_r with (/ exp (8 / 100000)).
      * apply Rinv_0_lt_compat, P.
      * rewrite Rinv_r by lra. nra.
Qed.
(** furnishings are credited, not charged, to an aircraft under some 507 kg *)
Theorem C100_furnishings_refuted uav vf vi nt ne l span tow nult seats mach ac :
  gs_furn (ga_systems uav vf vi nt ne l span tow nult seats mach ac) < 0 <-> tow < 650000 / 582 * lb.
Proof.
  pose proof lb_pos as L. simpl. unfold dec. simpl. split; intro H.
  - assert (X : 582 / 10000 * (tow / lb) - 65 < 0) by nra. assert (Y : tow / lb < 650000 / 582) by lra. apply (Rmult_lt_compat_r lb) in Y; [|exact L]. unfold Rdiv at 1 in Y.
    rewrite Rmult_assoc, Rinv_l in Y by lra. lra.
  - assert (Y : tow / lb < 650000 / 582). { apply Rmult_lt_reg_r with lb; [exact L|]. unfold Rdiv at 1. rewrite Rmult_assoc, Rinv_l by lra. lra. }
    nra.
Qed.
(** dynamic pressure is divided by pounds of mass: a constant error in the wing, and no other weight depends on the taper of the wing *)
Theorem C100_wing_units q y : 0 < q -> pw (q / (lb / (ft * ft))) y = Rpower (980665 / 100000) y * pw (q / (lbf / (ft * ft))) y.
Proof.
  intro Q. pose proof lb_pos. pose proof lbf_pos. pose proof ft2_pos. assert (A : 0 < lb / (ft * ft)) by (apply Rdiv_lt_0_compat; lra). assert (B : 0 < lbf / (ft * ft)) by (apply Rdiv_lt_0_compat; lra).
  rewrite !pw_eq by (apply Rdiv_lt_0_compat; lra). rewrite Rpower_mult_distr; [|lra|apply Rdiv_lt_0_compat; lra]. f_equal. unfold lbf. pose proof ft_pos. field. split; lra.
Qed.
Definition ex_ga_wing : wing := Wing MainWing 11 (6 / 10) 0 16 (12 / 100) (17 / 10) (Some (15 / 10)) (Some 2) 14 32 7 TFalse (1 / 10) [] 2.
Definition ex_ga_tail : wing := Wing HorizontalTail 3 (6 / 10) 0 3 (12 / 100) 1 (Some 1) (Some 6) 3 6 3 TFalse 0 [] 0.
Definition ex_ga : ga :=
  GA 16 5 1100 4 0 1500 (2 / 10) 1 (GPiston 120000) (Some (GFuel 140 720 (1 / 10) 2)) ex_ga_wing (Some ex_ga_tail) None 5 (GFuse 30 0 1 1 8 5 4)
     (Some (1, 1)) (Some 10) false.
Example C100_ex : exists o, ga_empty ex_ga = Ok o /\ 0 < go_fuel_system o.
Proof.
  destruct (proj2 (C100_success ex_ga)) as [o H]; [split; [discriminate|intros _; discriminate]|]. exists o. split; [exact H|].
  destruct (C100_fuel_system_refuted _ _ H) as [_ [_ P]]. apply (P (GFuel 140 720 (1 / 10) 2)); simpl; try lra; try lia. reflexivity.
Qed.

(** ** C101: an estimate does not depend on the estimates before it *)
(** an estimate of a light aircraft with its own landing gear *)
Definition light_with_gear (e : estimate) : bool := match e with LightAircraft Owned _ _ _ _ => true | _ => false end.
Lemma session_class l : session l = None <-> existsb light_with_gear l = false.
Proof.
  unfold session. assert (Q : forall l c, fold_left (fun c e => fst (session_step c e)) l c = None <-> c = None /\ existsb light_with_gear l = false).
  { clear. intro l. induction l as [|e l IH]; intro c; simpl; [split; [auto|intros [A _]; exact A]|]. rewrite IH.
    destruct e as [k|k w n lm ln]; simpl; [split; intros [A B]; auto|]. destruct k; simpl.
    - split; [intros [A _]; discriminate A|intros [_ A]; discriminate A].
    - destruct c; simpl; split; intros [A B]; auto. }
  rewrite Q. split; [intros [_ A]; exact A|auto].
Qed.
(** a vehicle that has landing gear components is estimated the same way whatever came before *)
Theorem C101_own_gear l e : match e with Transport k => k = Owned | LightAircraft k _ _ _ _ => k = Owned end ->
  snd (session_step (session l) e) = snd (session_step (session []) e) /\ snd (session_step (session l) e) = Ok Owned.
Proof. destruct e as [k|k w n lm ln]; intros ->; split; reflexivity. Qed.
(** a transport without them is estimated if and only if no light aircraft with gear was estimated before in the session *)
Theorem C101_history l : snd (session_step (session l) (Transport NotOwned)) = (if existsb light_with_gear l then Err AttributeError else Ok Owned).
Proof.
  simpl. unfold store_leg, read_leg. pose proof (session_class l) as S. destruct (session l) as [g|]; destruct (existsb light_with_gear l); try reflexivity.
  - destruct S as [_ S]. specialize (S eq_refl). discriminate S.
  - destruct S as [S _]. specialize (S eq_refl). discriminate S.
Qed.
Theorem C101_independent_refuted : exists l e, snd (session_step (session []) e) = Ok Owned /\ snd (session_step (session l) e) = Err AttributeError.
Proof. exists [LightAircraft Owned 1000 5 1 1], (Transport NotOwned). split; reflexivity. Qed.
(** what the class holds is the gear of the last such light aircraft, in every object without its own *)
Theorem C101_last l w n lm ln l' : existsb light_with_gear l' = false -> session (l ++ LightAircraft Owned w n lm ln :: l') = Some (ga_landing_gear w n lm ln).
Proof.
  intro H. unfold session. rewrite fold_left_app. simpl. generalize (Some (ga_landing_gear w n lm ln)) as c. revert H. induction l' as [|e l' IH]; intros H c; simpl; [reflexivity|].
  simpl in H. apply orb_false_iff in H. destruct H as [A B]. destruct e as [k|k w' n' lm' ln']; [apply IH; exact B|]. destruct k; [discriminate A|].
  destruct c as [g|]; simpl; apply IH; exact B.
Qed.
Example C101_ex : existsb light_with_gear [Transport NotOwned; LightAircraft NotOwned 900 5 1 1] = false /\
  snd (session_step (session [Transport NotOwned; LightAircraft NotOwned 900 5 1 1]) (Transport NotOwned)) = Ok Owned.
Proof. split; reflexivity. Qed.

(** ** C102: blended wing bodies, small UAVs, human powered aircraft *)
Theorem C102_bwb_closes v n prop ww ca aa at_ : let o := bwb_empty v n prop ww ca aa at_ in
  bo_structures o = bo_wing o + bo_aft o + bo_cabin o + r_main (bo_gear o) + r_nose (bo_gear o) /\
  bo_systems o = s_total (systems_common v) /\
  bo_empty o = bo_structures o + bo_prop o + bo_systems o /\ bo_oe o = bo_empty o + oper_sum (bo_oper o) /\
  bo_zfw o = bo_oe o + payload_items (bo_payload o) /\ bo_zfw o + bo_fuel o = v_mtow v /\
  r_main (bo_gear o) + r_nose (bo_gear o) = 4 / 100 * v_mtow v.
Proof. pose proof ft_pos. unfold oper_sum, payload_items. simpl. unfold dec. simpl. repeat split; try field; lra. Qed.
(** the mass stored in the fuselage leaves the aft centre body out *)
Theorem C102_bwb_fuselage_refuted v n prop ww ca aa at_ : let o := bwb_empty v n prop ww ca aa at_ in
  0 < v_mtow v -> 0 < aa -> 0 <= at_ -> bo_fuselage_mass o = bo_cabin o /\ 0 < bo_aft o.
Proof.
  intros o M A T. split; [reflexivity|]. unfold o. simpl. unfold bwb_aft. pose proof lb_pos. pose proof ft2_pos. pose proof (pos_INR n).
  assert (0 < aa / (ft * ft)) by (apply Rdiv_lt_0_compat; lra). assert (0 < pw (v_mtow v / lb) (dec 2 1)) by (apply pw_pos, Rdiv_lt_0_compat; lra).
  assert (0 < dec 5 2) by (apply dec_pos; lia). assert (0 < dec 53 2) by (apply dec_pos; lia). assert (0 < dec 5 1) by (apply dec_pos; lia).
  assert (0 <= dec 5 2 * INR n) by (apply Rmult_le_pos; lra).
  apply Rmult_lt_0_compat; [apply Rmult_lt_0_compat; [apply Rmult_lt_0_compat; [apply Rmult_lt_0_compat; [apply Rmult_lt_0_compat|]|]|]|]; lra.
Qed.
(** the analysis for blended wing bodies cannot be run; those for UAVs and eVTOLs can *)
Theorem C102_bwb_analysis_refuted (A : Type) (r : A) :
  analysis_evaluate W_BWB r = Err TypeError /\ analysis_evaluate W_UAV r = Ok r /\ analysis_evaluate W_eVTOL r = Ok r.
Proof. repeat split. Qed.
Theorem C102_bwb_grows n a a' t m m' c c' : 0 < a < a' -> 0 <= t -> 0 < m < m' -> 0 < c < c' ->
  0 < bwb_cabin c m < bwb_cabin c' m' /\ bwb_aft n a t m < bwb_aft n a' t m' /\ bwb_aft n a t m < bwb_aft (S n) a t m.
Proof.
  intros A T M C. pose proof lb_pos as L. pose proof ft2_pos as F.
  assert (M0 : 0 < m / lb) by (apply Rdiv_lt_0_compat; lra). assert (M1 : m / lb < m' / lb) by (apply div_less; lra).
  assert (C0 : 0 < c / (ft * ft)) by (apply Rdiv_lt_0_compat; lra). assert (C1 : c / (ft * ft) < c' / (ft * ft)) by (apply div_less; lra).
  assert (A0 : 0 < a / (ft * ft)) by (apply Rdiv_lt_0_compat; lra). assert (A1 : a / (ft * ft) < a' / (ft * ft)) by (apply div_less; lra).
  assert (P1 : forall y, 0 < y -> 0 < pw (m / lb) y < pw (m' / lb) y) by (intros y Y; split; [apply pw_pos|apply pw_less]; lra).
  assert (P2 : forall y, 0 < y -> 0 < pw (c / (ft * ft)) y < pw (c' / (ft * ft)) y) by (intros y Y; split; [apply pw_pos|apply pw_less]; lra).
  assert (D : forall n d, (0 < n)%Z -> (0 <= d)%Z -> 0 < dec n d) by (intros; apply dec_pos; assumption).
  split; [|split].
  - unfold bwb_cabin. pose proof (P1 (dec 166552 6) (D 166552 6 ltac:(lia) ltac:(lia))%Z) as X. pose proof (P2 (dec 1061158 6) (D 1061158 6 ltac:(lia) ltac:(lia))%Z) as Y.
    pose proof (D 5698865 6 ltac:(lia) ltac:(lia))%Z as K1. pose proof (D 316422 6 ltac:(lia) ltac:(lia))%Z as K2.
    set (k := dec 5698865 6 * dec 316422 6) in *. assert (K : 0 < k) by (apply Rmult_lt_0_compat; assumption). clearbody k.
    generalize dependent (pw (m / lb) (dec 166552 6)). intros x X. generalize dependent (pw (m' / lb) (dec 166552 6)). intros x' X.
    generalize dependent (pw (c / (ft * ft)) (dec 1061158 6)). intros y Y. generalize dependent (pw (c' / (ft * ft)) (dec 1061158 6)). intros y' Y.
    assert (0 < k * x) by (apply Rmult_lt_0_compat; lra). assert (k * x < k * x') by (apply Rmult_lt_compat_l; lra).
    split; [apply Rmult_lt_0_compat; [apply Rmult_lt_0_compat|]; lra|]. apply Rmult_lt_compat_r; [lra|]. apply Rmult_gt_0_lt_compat; lra.
  - unfold bwb_aft. pose proof (P1 (dec 2 1) (D 2 1 ltac:(lia) ltac:(lia))%Z) as X. pose proof (D 53 2 ltac:(lia) ltac:(lia))%Z as K1. pose proof (D 5 2 ltac:(lia) ltac:(lia))%Z as K2.
    pose proof (D 5 1 ltac:(lia) ltac:(lia))%Z as K3. pose proof (pos_INR n) as N. set (k := (1 + dec 5 2 * INR n) * dec 53 2).
    assert (K : 0 < k) by (unfold k; apply Rmult_lt_0_compat; [assert (0 <= dec 5 2 * INR n) by (apply Rmult_le_pos; lra); lra|lra]). clearbody k.
    apply Rmult_lt_compat_r; [exact L|]. apply Rmult_lt_compat_r; [lra|].
    assert (0 < k * (a / (ft * ft))) by (apply Rmult_lt_0_compat; lra). assert (k * (a / (ft * ft)) < k * (a' / (ft * ft))) by (apply Rmult_lt_compat_l; lra).
    apply Rmult_gt_0_lt_compat; lra.
  - unfold bwb_aft. rewrite S_INR. pose proof (P1 (dec 2 1) (D 2 1 ltac:(lia) ltac:(lia))%Z) as X. pose proof (D 53 2 ltac:(lia) ltac:(lia))%Z as K1. pose proof (D 5 2 ltac:(lia) ltac:(lia))%Z as K2.
    pose proof (D 5 1 ltac:(lia) ltac:(lia))%Z as K3. repeat (apply Rmult_lt_compat_r; [lra|]). lra.
Qed.
Theorem C102_uav s s' ar ar' : 0 < s < s' -> 0 < ar < ar' -> 0 < uav_empty s ar < uav_empty s' ar'.
Proof.
  intros S A. unfold uav_empty. assert (D : forall n d, (0 < n)%Z -> (0 <= d)%Z -> 0 < dec n d) by (intros; apply dec_pos; assumption).
  pose proof (D 558 2 ltac:(lia) ltac:(lia))%Z as K. pose proof (D 159 2 ltac:(lia) ltac:(lia))%Z as Y1. pose proof (D 71 2 ltac:(lia) ltac:(lia))%Z as Y2. pose proof (D 980665 5 ltac:(lia) ltac:(lia))%Z as G.
  pose proof (pw_pos s (dec 159 2) ltac:(lra)). pose proof (pw_less s s' (dec 159 2) ltac:(lra) ltac:(lra) Y1). pose proof (pw_pos ar (dec 71 2) ltac:(lra)). pose proof (pw_less ar ar' (dec 71 2) ltac:(lra) ltac:(lra) Y2).
  assert (0 < dec 558 2 * pw s (dec 159 2)) by (apply Rmult_lt_0_compat; lra). assert (dec 558 2 * pw s (dec 159 2) < dec 558 2 * pw s' (dec 159 2)) by (apply Rmult_lt_compat_l; lra).
  split; [apply Rdiv_lt_0_compat; [apply Rmult_lt_0_compat; lra|exact G]|]. apply div_less; [exact G|]. apply Rmult_gt_0_lt_compat; lra.
Qed.
(** human powered: without a fuselage the empty weight is the sum of wing and tails; with one there is no result *)
Theorem C102_human_powered main h vt : hp_empty main h vt None = Ok (opt0 main + opt0 h + opt0 vt) /\
  forall f, (exists e, hp_empty main h vt (Some f) = Err e).
Proof. split; [simpl; f_equal; ring|]. intro f. simpl. destruct h; eexists; reflexivity. Qed.
Theorem C102_hp_load s b c nr tc ner n n' gw : 0 < b -> 0 < gw -> n < n' -> hp_wing s b c nr tc ner n gw < hp_wing s b c nr tc ner n' gw.
Proof.
  intros B G N. unfold hp_wing. cbv zeta. assert (K : 0 < b * dec 117 3 + dec 11 3 * (b * b)) by (unfold dec; simpl; nra).
  assert (X : (b * dec 117 3 + dec 11 3 * (b * b)) * (1 + (n * gw / 100 - 2) / 4) < (b * dec 117 3 + dec 11 3 * (b * b)) * (1 + (n' * gw / 100 - 2) / 4)).
  { apply Rmult_lt_compat_l; [exact K|]. assert (n * gw < n' * gw) by (apply Rmult_lt_compat_r; lra). lra. }
  lra.
Qed.
Theorem C102_hp_grows s b c nr tc q q' l : 0 < b -> 0 < s -> 0 < l -> q < q' -> hp_tail s b c nr tc q < hp_tail s b c nr tc q' /\ hp_fuselage s q l < hp_fuselage s q' l.
Proof.
  intros B S L Q. assert (X : q * s < q' * s) by (apply Rmult_lt_compat_r; lra). split.
  - unfold hp_tail. cbv zeta. assert (K : 0 < b * dec 415 4 + b * b * dec 391 5) by (unfold dec; simpl; nra).
    assert (Y : (b * dec 415 4 + b * b * dec 391 5) * (1 + (q * s / dec 785 1 - 1) / 12) < (b * dec 415 4 + b * b * dec 391 5) * (1 + (q' * s / dec 785 1 - 1) / 12)).
    { apply Rmult_lt_compat_l; [exact K|]. unfold dec. simpl. lra. }
    lra.
  - unfold hp_fuselage. assert (K : 0 < l * dec 114 3 + dec 196 4 * (l * l)) by (unfold dec; simpl; nra). apply Rmult_lt_compat_l; [exact K|]. unfold dec. simpl. lra.
Qed.
Example C102_ex : hp_empty (Some 20) (Some 2) None None = Ok 22 /\ hp_empty (Some 20) (Some 2) None (Some (Some 1)) = Err AttributeError /\
  hp_empty (Some 20) None None (Some (Some 1)) = Err UnboundLocalError.
Proof. split; [|split; reflexivity]. rewrite (proj1 (C102_human_powered _ _ _)). f_equal. simpl. lra. Qed.
Print Assumptions C100_success.
Print Assumptions C100_failure.
Print Assumptions C100_closes.
Print Assumptions C100_fuel_system_refuted.
Print Assumptions C100_taper_refuted.
Print Assumptions C100_controls_refuted.
Print Assumptions C100_furnishings_refuted.
Print Assumptions C100_wing_units.
Print Assumptions C101_own_gear.
Print Assumptions C101_history.
Print Assumptions C101_independent_refuted.
Print Assumptions C101_last.
Print Assumptions C102_bwb_closes.
Print Assumptions C102_bwb_fuselage_refuted.
Print Assumptions C102_bwb_analysis_refuted.
Print Assumptions C102_bwb_grows.
Print Assumptions C102_uav.
Print Assumptions C102_human_powered.
Print Assumptions C102_hp_load.
Print Assumptions C102_hp_grows.
