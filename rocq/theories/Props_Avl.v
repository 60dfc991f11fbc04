(** * Geometry for AVL: properties C204 to C206 *)
From Coq Require Import Reals Lra Lia Bool Arith String List Permutation Sorted.
From Verif Require Import PyBase M_Opt P_Opt M_Noise P_Noise M_Field P_Field P_Costs M_Drag P_Super M_Perf Props_Perf M_Avl.
Import ListNotations.
Local Open Scope R_scope.
Local Open Scope list_scope.

(** ** Signs *)
Lemma sgn_pos x : 0 < x -> sgn x = 1.
Proof. intro H. unfold sgn. rewrite (proj2 (Rltb_true 0 x) H). reflexivity. Qed.
Lemma sgn_neg x : x < 0 -> sgn x = - 1.
Proof. intro H. unfold sgn. rewrite (proj2 (Rltb_false 0 x)) by lra. rewrite (proj2 (Rltb_true x 0) H). reflexivity. Qed.
Lemma sgn_0 : sgn 0 = 0.
Proof. unfold sgn. rewrite !(proj2 (Rltb_false 0 0)) by lra. reflexivity. Qed.
Lemma way_up d : 0 <= d -> way false d = 1.
Proof.
  intro H. unfold way. destruct (Req_dec d 0) as [->|N].
  - rewrite sgn_0. destruct (Req_EM_T 0 0); lra.
  - rewrite sgn_pos by lra. destruct (Req_EM_T 1 0); lra.
Qed.
Lemma way_down d : d < 0 -> way false d = - 1.
Proof. intro H. unfold way. rewrite sgn_neg by lra. destruct (Req_EM_T (- 1) 0); lra. Qed.
Lemma way_fin d : Rabs d <= PI / 2 -> way true d = 1.
Proof.
  intro H. unfold way. destruct (Req_dec (Rabs d) (PI / 2)) as [E|N].
  - rewrite E. replace (PI / 2 - PI / 2) with 0 by ring. rewrite sgn_0. destruct (Req_EM_T (- 0) 0); lra.
  - rewrite sgn_neg by lra. destruct (Req_EM_T (- - 1) 0); lra.
Qed.

(** ** C204: where the sections of a wing come *)
Fixpoint lay (v : bool) (semi root : R) (sgs : list seg) (o : place) : list sec :=
  match sgs with
  | [] => []
  | a :: r => seg_section root a o :: match r with [] => [] | b :: _ => lay v semi root r (next_place v semi root a b o) end
  end.
Lemma walk_lay v semi root : forall sgs o acc, walk v semi root [] sgs o acc = Ok (acc ++ lay v semi root sgs o).
Proof.
  induction sgs as [|a r IH]; intros o acc; [cbn; rewrite app_nil_r; reflexivity|]. cbn [walk lay]. destruct r as [|b r]; [reflexivity|]. cbn [bind]. rewrite IH, <- app_assoc. reflexivity.
Qed.
Lemma wing_lay v semi root sgs o : wing_sections v semi root [] sgs o = Ok (lay v semi root sgs o).
Proof. unfold wing_sections. rewrite walk_lay. reflexivity. Qed.
Lemma lay_nth v semi root : forall sgs o i s, nth_error sgs i = Some s -> exists p, nth_error (lay v semi root sgs o) i = Some (seg_section root s p).
Proof.
  induction sgs as [|a r IH]; intros o [|i] s H; try discriminate.
  - injection H as H. subst s. exists o. reflexivity.
  - cbn [nth_error] in H. cbn [lay]. destruct r as [|b r]; [destruct i; discriminate|]. destruct (IH (next_place v semi root a b o) i s H) as [p P]. exists p. exact P.
Qed.
Lemma lay_length v semi root : forall sgs o, length (lay v semi root sgs o) = length sgs.
Proof. induction sgs as [|a r IH]; intro o; [reflexivity|]. cbn [lay length]. f_equal. destruct r as [|b r]; [reflexivity|]. apply IH. Qed.
Lemma lay_step v semi root : forall sgs o i a b, nth_error sgs i = Some a -> nth_error sgs (S i) = Some b ->
  exists p, nth_error (lay v semi root sgs o) i = Some (seg_section root a p) /\ nth_error (lay v semi root sgs o) (S i) = Some (seg_section root b (next_place v semi root a b p)).
Proof.
  induction sgs as [|s r IH]; intros o [|i] a b A B; try discriminate.
  - injection A as A. subst s. destruct r as [|b' r]; [discriminate|]. injection B as B. subst b'. exists o. split; [reflexivity|]. destruct r; reflexivity.
  - cbn [nth_error] in A, B. cbn [lay]. destruct r as [|b' r]; [destruct i; discriminate|]. exact (IH (next_place v semi root s b' o) i a b A B).
Qed.
Lemma degree_pos : 0 < degree.
Proof. unfold degree. pose proof PI_RGT_0. lra. Qed.

(** one section for each segment, with its chord, twist and airfoil, the first one where the wing is *)
Theorem C204_sections : forall v semi root sgs o, exists l, wing_sections v semi root [] sgs o = Ok l /\ length l = length sgs /\
  (forall e, nth_error l 0 = Some e -> e_at e = o) /\
  (forall i s, nth_error sgs i = Some s -> exists e, nth_error l i = Some e /\ e_chord e = root * s_chord s /\ e_twist e * degree = s_twist s /\ e_air e = s_air s /\ e_ctl e = []).
Proof.
  intros v semi root sgs o. exists (lay v semi root sgs o). rewrite wing_lay, lay_length. split; [reflexivity|]. split; [reflexivity|]. split.
  - destruct sgs as [|a r]; cbn; intros e H; [discriminate|]. injection H as H. subst e. reflexivity.
  - intros i s H. destruct (lay_nth v semi root sgs o i s H) as [p P]. eexists. split; [exact P|]. cbn. pose proof degree_pos. repeat split. field. lra.
Qed.

(** the symmetric wing: half the span to a side; the whole span otherwise *)
Theorem C204_semispan : forall b, semispan b true = b / 2 /\ semispan b false = b.
Proof. intro b. unfold semispan. split; field. Qed.

(** spanwise stations of a wing without anhedral *)
Theorem C204_stations : forall semi root sgs o l i s0 s e, (forall s, In s sgs -> 0 <= s_dih s) ->
  wing_sections false semi root [] sgs o = Ok l -> nth_error sgs 0 = Some s0 -> nth_error sgs i = Some s -> nth_error l i = Some e ->
  py (e_at e) = py o + semi * (s_span s - s_span s0).
Proof.
  intros semi root sgs o l i s0 s e D E H0 HI HE. rewrite wing_lay in E. injection E as E. subst l. revert o i s0 s e D H0 HI HE.
  induction sgs as [|a r IH]; intros o [|i] s0 s e D H0 HI HE; try discriminate.
  - cbn in *. injection H0 as H0. injection HI as HI. injection HE as HE. subst. cbn. lra.
  - cbn [nth_error] in HI, H0. injection H0 as H0. subst s0. cbn [lay nth_error] in HE. destruct r as [|b r]; [destruct i; discriminate|].
    rewrite (IH (next_place false semi root a b o) i b s e) by (try assumption; try reflexivity; intros x X; apply D; right; exact X).
    unfold next_place, outwards. rewrite way_up by (apply D; left; reflexivity). cbn [py fst snd]. ring.
Qed.
(** and of an upright fin that leans by no more than a right angle: heights *)
Theorem C204_heights : forall semi root sgs o l i s0 s e, (forall s, In s sgs -> Rabs (s_dih s) <= PI / 2) ->
  wing_sections true semi root [] sgs o = Ok l -> nth_error sgs 0 = Some s0 -> nth_error sgs i = Some s -> nth_error l i = Some e ->
  pz (e_at e) = pz o + semi * (s_span s - s_span s0).
Proof.
  intros semi root sgs o l i s0 s e D E H0 HI HE. rewrite wing_lay in E. injection E as E. subst l. revert o i s0 s e D H0 HI HE.
  induction sgs as [|a r IH]; intros o [|i] s0 s e D H0 HI HE; try discriminate.
  - cbn in *. injection H0 as H0. injection HI as HI. injection HE as HE. subst. cbn. lra.
  - cbn [nth_error] in HI, H0. injection H0 as H0. subst s0. cbn [lay nth_error] in HE. destruct r as [|b r]; [destruct i; discriminate|].
    rewrite (IH (next_place true semi root a b o) i b s e) by (try assumption; try reflexivity; intros x X; apply D; right; exact X).
    unfold next_place, outwards. rewrite way_fin by (apply D; left; reflexivity). cbn [pz fst snd]. ring.
Qed.

Lemma two v semi root sgs o l i a b e e' : wing_sections v semi root [] sgs o = Ok l -> nth_error sgs i = Some a -> nth_error sgs (S i) = Some b ->
  nth_error l i = Some e -> nth_error l (S i) = Some e' -> e_at e' = next_place v semi root a b (e_at e) /\ e_chord e = root * s_chord a /\ e_chord e' = root * s_chord b.
Proof.
  intros E A B HE HE'. rewrite wing_lay in E. injection E as E. subst l. destruct (lay_step v semi root sgs o i a b A B) as [p [P Q]]. rewrite P in HE. rewrite Q in HE'.
  injection HE as HE. injection HE' as HE'. subst. cbn. repeat split.
Qed.
(** the rise of each panel follows its dihedral, whatever its sign; a fin leans the same way *)
Theorem C204_rise : forall semi root sgs o l i a b e e', wing_sections false semi root [] sgs o = Ok l -> nth_error sgs i = Some a -> nth_error sgs (S i) = Some b ->
  nth_error l i = Some e -> nth_error l (S i) = Some e' -> pz (e_at e') - pz (e_at e) = tan (s_dih a) * (py (e_at e') - py (e_at e)).
Proof. intros semi root sgs o l i a b e e' E A B HE HE'. destruct (two _ _ _ _ _ _ _ _ _ _ _ E A B HE HE') as [T _]. rewrite T. unfold next_place, outwards. cbn [px py pz fst snd]. ring. Qed.
Theorem C204_lean : forall semi root sgs o l i a b e e', wing_sections true semi root [] sgs o = Ok l -> nth_error sgs i = Some a -> nth_error sgs (S i) = Some b ->
  nth_error l i = Some e -> nth_error l (S i) = Some e' -> py (e_at e') - py (e_at e) = tan (s_dih a) * (pz (e_at e') - pz (e_at e)).
Proof. intros semi root sgs o l i a b e e' E A B HE HE'. destruct (two _ _ _ _ _ _ _ _ _ _ _ E A B HE HE') as [T _]. rewrite T. unfold next_place, outwards. cbn [px py pz fst snd]. ring. Qed.

Lemma tan_atan x : tan (atan x) = x.
Proof. apply tan_atan. Qed.
Lemma cos_up d : - (PI / 2) < d < PI / 2 -> 0 < cos d.
Proof. intro H. apply cos_gt_0; lra. Qed.
Lemma hyp d y : 0 < cos d -> 0 <= y -> sqrt (y ^ 2 + (y * tan d) ^ 2) = y / cos d.
Proof.
  intros C Y. unfold tan. replace (y ^ 2 + (y * (sin d / cos d)) ^ 2) with ((y / cos d) ^ 2).
  - rewrite <- Rsqr_pow2. apply sqrt_Rsqr. apply Rmult_le_pos; [lra|]. left. apply Rinv_0_lt_compat. exact C.
  - pose proof (sin2_cos2 d) as S. unfold Rsqr in S. field_simplify; try lra. f_equal. nra.
Qed.
(** with a leading-edge sweep given, each panel of a wing without anhedral goes back by its length times the tangent of the sweep *)
Theorem C204_leading_edge : forall semi root sgs o l i a b e e' s, 0 < semi -> 0 <= s_dih a < PI / 2 -> s_span a <= s_span b -> s_le a = Some s ->
  wing_sections false semi root [] sgs o = Ok l -> nth_error sgs i = Some a -> nth_error sgs (S i) = Some b -> nth_error l i = Some e -> nth_error l (S i) = Some e' ->
  px (e_at e') - px (e_at e) = tan s * sqrt ((py (e_at e') - py (e_at e)) ^ 2 + (pz (e_at e') - pz (e_at e)) ^ 2).
Proof.
  intros semi root sgs o l i a b e e' s S D SP L E A B HE HE'. destruct (two _ _ _ _ _ _ _ _ _ _ _ E A B HE HE') as [T _]. rewrite T. unfold next_place, outwards.
  rewrite way_up by lra. unfold le_sweep. rewrite L. cbn [px py pz fst snd].
  replace (py (e_at e) + 1 * semi * (s_span b - s_span a) - py (e_at e)) with (semi * (s_span b - s_span a)) by ring.
  replace (pz (e_at e) + 1 * semi * (s_span b - s_span a) * tan (s_dih a) - pz (e_at e)) with (semi * (s_span b - s_span a) * tan (s_dih a)) by ring.
  rewrite hyp by (try (apply cos_up; lra); apply Rmult_le_pos; lra). field. pose proof (cos_up (s_dih a)). lra.
Qed.
(** with the quarter-chord sweep given, the quarter-chord line of a flat panel goes back by the tangent of the sweep; the line of a panel with dihedral does so exactly
    when the chords at its ends are equal *)
Theorem C204_quarter_chord : forall semi root sgs o l i a b e e', 0 < semi -> 0 <= s_dih a < PI / 2 -> s_span a < s_span b -> s_le a = None ->
  wing_sections false semi root [] sgs o = Ok l -> nth_error sgs i = Some a -> nth_error sgs (S i) = Some b -> nth_error l i = Some e -> nth_error l (S i) = Some e' ->
  (px (e_at e') + e_chord e' / 4 - (px (e_at e) + e_chord e / 4) = tan (s_qc a) * sqrt ((py (e_at e') - py (e_at e)) ^ 2 + (pz (e_at e') - pz (e_at e)) ^ 2) <->
   s_dih a = 0 \/ e_chord e' = e_chord e).
Proof.
  intros semi root sgs o l i a b e e' S D SP L E A B HE HE'. destruct (two _ _ _ _ _ _ _ _ _ _ _ E A B HE HE') as [T [C C']]. rewrite T. unfold next_place, outwards.
  rewrite way_up by lra. unfold le_sweep. rewrite L, tan_atan, C, C'. cbn [px py pz fst snd].
  replace (py (e_at e) + 1 * semi * (s_span b - s_span a) - py (e_at e)) with (semi * (s_span b - s_span a)) by ring.
  replace (pz (e_at e) + 1 * semi * (s_span b - s_span a) * tan (s_dih a) - pz (e_at e)) with (semi * (s_span b - s_span a) * tan (s_dih a)) by ring.
  pose proof (cos_up (s_dih a) ltac:(lra)) as CP. rewrite hyp by (try exact CP; apply Rmult_le_pos; lra).
  set (y := semi * (s_span b - s_span a)). assert (Y : 0 < y) by (apply Rmult_lt_0_compat; lra).
  replace (1 * semi * (s_span b - s_span a)) with y by (unfold y; ring).
  set (ca := root * s_chord a). set (cb := root * s_chord b). set (k := cos (s_dih a)) in *. set (t := tan (s_qc a)).
  assert (F : px (e_at e) + y / k * ((ca * (1 / 4) + (t * y - 1 / 4 * cb)) / y) + cb / 4 - (px (e_at e) + ca / 4) - t * (y / k) = (ca - cb) / 4 * (1 / k - 1)) by (field; lra).
  split.
  - intro H. assert (Z : (ca - cb) / 4 * (1 / k - 1) = 0) by lra. apply Rmult_integral in Z. destruct Z as [Z|Z]; [right; lra|]. left.
    assert (K : k = 1). { assert (1 / k * k = 1) by (field; lra). replace (1 / k) with 1 in H0 by lra. lra. }
    destruct (Req_dec (s_dih a) 0) as [Q|Q]; [exact Q|]. exfalso. pose proof PI_RGT_0. assert (cos (s_dih a) < cos 0) by (apply cos_decreasing_1; lra). rewrite cos_0 in H1. unfold k in K. lra.
  - intros [H|H].
    + assert (K : k = 1) by (unfold k; rewrite H; apply cos_0). rewrite K in *. replace (1 / 1 - 1) with 0 in F by lra. lra.
    + rewrite H in F. replace ((ca - ca) / 4) with 0 in F by lra. rewrite H. lra.
Qed.
(** the wing without segments: the tip is at the end of the semispan, raised by the dihedral, lowered by an anhedral; the quarter-chord line is swept as given, along the span *)
Theorem C204_plain : forall w o, w_vertical w = false -> 0 < w_semi w -> exists r t, plain_sections w [] o = Ok [r; t] /\
  e_at r = o /\ e_chord r = w_root w /\ e_chord t = w_tip w /\ e_twist r * degree = w_roott w /\ e_twist t * degree = w_tipt w /\
  py (e_at t) = py o + w_semi w /\ pz (e_at t) = pz o + w_semi w * tan (w_dih w) /\
  (forall s, w_le w = Some s -> px (e_at t) - px o = tan s * w_semi w) /\
  (w_le w = None -> px (e_at t) + e_chord t / 4 - (px o + e_chord r / 4) = tan (w_qc w) * w_semi w).
Proof.
  intros w o V S. unfold plain_sections. rewrite V. do 2 eexists. split; [reflexivity|]. cbn [e_at e_chord e_twist px py pz fst snd]. pose proof degree_pos. repeat split; try (field; lra).
  - intros s L. unfold plain_sweep. rewrite L. ring.
  - intro L. unfold plain_sweep. rewrite L, tan_atan. field. lra.
Qed.
(** a flat wing of one panel is laid out the same with and without segments *)
Theorem C204_same_wing : forall w a b o, w_vertical w = false -> 0 < w_semi w -> w_dih w = 0 -> s_dih a = 0 -> s_span a = 0 -> s_span b = 1 -> s_chord a = 1 -> w_root w * s_chord b = w_tip w ->
  s_twist a = w_roott w -> s_twist b = w_tipt w -> s_le a = w_le w -> s_qc a = w_qc w -> s_air a = s_air b -> w_foil w = (match s_air a with None => None | Some f => Some (Some f) end) ->
  wing_sections false (w_semi w) (w_root w) [] [a; b] o = plain_sections w [] o.
Proof.
  intros w a b o V S D DA SA SB CA CB TA TB L Q AB F. rewrite wing_lay. unfold plain_sections. rewrite V. cbn [bind append_controls breaks flat_map ordered fold_right append_breaks app lay].
  assert (SW : le_sweep (w_root w) (w_semi w) a b = plain_sweep w).
  { unfold le_sweep, plain_sweep. rewrite L. destruct (w_le w); [reflexivity|]. rewrite CA, SA, SB, Q, CB. f_equal. field. lra. }
  unfold next_place. rewrite SW, DA, SA, SB. unfold seg_section, outwards. rewrite CA, CB, TA, TB, F, D. rewrite way_up by lra. rewrite tan_0, cos_0.
  repeat f_equal; try ring; try (destruct (s_air a); reflexivity); try (rewrite <- AB; destruct (s_air a); reflexivity).
  field.
Qed.
(** finding: a panel with anhedral is laid towards the other side, and so upwards, and forwards where the sweep is backwards *)
Theorem C204_anhedral_refuted : forall semi root sgs o l i a b e e' s, 0 < semi -> - (PI / 2) < s_dih a < 0 -> s_span a < s_span b -> s_le a = Some s -> 0 < s < PI / 2 ->
  wing_sections false semi root [] sgs o = Ok l -> nth_error sgs i = Some a -> nth_error sgs (S i) = Some b -> nth_error l i = Some e -> nth_error l (S i) = Some e' ->
  py (e_at e') = py (e_at e) - semi * (s_span b - s_span a) /\ pz (e_at e) < pz (e_at e') /\ px (e_at e') < px (e_at e).
Proof.
  intros semi root sgs o l i a b e e' s S D SP L HS E A B HE HE'. destruct (two _ _ _ _ _ _ _ _ _ _ _ E A B HE HE') as [T _]. rewrite T. unfold next_place, outwards.
  rewrite way_down by lra. unfold le_sweep. rewrite L. cbn [px py pz fst snd]. pose proof (cos_up (s_dih a) ltac:(lra)) as CP.
  assert (Y : 0 < semi * (s_span b - s_span a)) by (apply Rmult_lt_0_compat; lra).
  assert (TN : tan (s_dih a) < 0). { pose proof (tan_gt_0 (- s_dih a) ltac:(lra) ltac:(lra)) as G. rewrite tan_neg in G. lra. }
  pose proof (tan_gt_0 s ltac:(lra) ltac:(lra)) as TS. split; [ring|]. split; [nra|].
  assert (0 < semi * (s_span b - s_span a) / cos (s_dih a)) by (apply Rdiv_lt_0_compat; lra).
  replace (-1 * semi * (s_span b - s_span a) / cos (s_dih a) * tan s) with (- (semi * (s_span b - s_span a) / cos (s_dih a) * tan s)) by (field; lra). nra.
Qed.
Example C204_case :
  let a := Seg (Some (PI / 4)) 0 1 0 0 (PI / 180) None in let b := Seg (Some (PI / 4)) 0 (3 / 4) (1 / 2) 0 0 None in let c := Seg None 0 (1 / 4) 1 0 0 None in
  exists r m t, wing_sections false 10 4 [] [a; b; c] (1, 0, 2) = Ok [r; m; t] /\ e_at m = (6, 5, 2) /\ e_at t = (11, 10, 2) /\ e_chord m = 3 /\ e_chord t = 1 /\ e_twist r = 1.
Proof.
  cbv zeta. rewrite wing_lay. do 3 eexists. split; [reflexivity|]. cbn [e_at e_chord e_twist]. unfold next_place, outwards, le_sweep. cbn [s_le s_dih s_span s_chord s_twist].
  rewrite way_up by lra. rewrite tan_0, cos_0, tan_PI4. cbn [px py pz fst snd]. pose proof PI_RGT_0. unfold degree.
  unfold seg_section. cbn [e_at e_chord e_twist s_le s_dih s_span s_chord s_twist].
  repeat split; try match goal with |- _ = (_, _, _) => f_equal; [f_equal|] end; try lra. unfold degree. field. lra.
Qed.
Example C204_anhedral_case :
  let a := Seg (Some (PI / 4)) 0 1 0 (- (PI / 4)) 0 None in let b := Seg None 0 (1 / 2) 1 0 0 None in
  (exists r t, wing_sections false 10 4 [] [a; b] (0, 0, 0) = Ok [r; t] /\ py (e_at t) = - 10 /\ pz (e_at t) = 10) /\
  (exists r t, plain_sections (Plain false 10 4 2 (1 / 2) 0 0 (- (PI / 4)) (Some (PI / 4)) 0 None) [] (0, 0, 0) = Ok [r; t] /\ py (e_at t) = 10 /\ pz (e_at t) = - 10).
Proof.
  cbv zeta. pose proof PI_RGT_0. split.
  - rewrite wing_lay. do 2 eexists. split; [reflexivity|]. cbn [e_at]. unfold next_place, outwards. cbn [s_le s_dih s_span s_chord s_twist]. rewrite way_down by lra.
    rewrite tan_neg, tan_PI4. unfold seg_section. cbn [e_at px py pz fst snd]. split; lra.
  - destruct (C204_plain (Plain false 10 4 2 (1 / 2) 0 0 (- (PI / 4)) (Some (PI / 4)) 0 None) (0, 0, 0) eq_refl ltac:(cbn; lra)) as (r & t & P & _ & _ & _ & _ & _ & Y & Z & _).
    exists r, t. split; [exact P|]. rewrite Y, Z. cbn. rewrite tan_neg, tan_PI4. split; lra.
Qed.

(** ** C205: sections at the ends of control surfaces *)
(** what a control surface is for AVL: the hinge line as a part of the chord, the way the other side goes, the sense of the deflection; deflections in degrees *)
Definition as_told (c : ctl) (d : csurf) : Prop :=
  c_name d = k_name c /\ c_defl d * degree = k_defl c /\ c_hinge d = (match k_class c with Slat => - k_chord c | _ => 1 - k_chord c end) /\
  c_sign d = (match k_class c with Aileron => - 1 | _ => 1 end) /\ c_gain d = (match k_class c with Aileron | Slat => - 1 | _ => 1 end).
Lemma control_told n c d : control n c = Ok d -> as_told c d.
Proof. unfold control, as_told. pose proof degree_pos. destruct (k_class c); intro H0; try discriminate; injection H0 as H0; subst d; cbn; repeat split; field; lra. Qed.
Lemma covers_iff semi c x : 0 < semi -> k_start c <= k_end c -> covers semi c (semi * x) = true <-> k_start c <= x <= k_end c.
Proof.
  intros S O. unfold covers. destruct (Req_EM_T (semi * k_start c) (semi * x)) as [E|E]; cbn [orb].
  - assert (k_start c = x) by (apply Rmult_eq_reg_l with semi; lra). split; [lra|reflexivity].
  - destruct (Req_EM_T (semi * x) (semi * k_end c)) as [F|F]; cbn [orb].
    + assert (x = k_end c) by (apply Rmult_eq_reg_l with semi; lra). split; [lra|reflexivity].
    + rewrite andb_true_iff, !Rltb_true. assert (k_start c <> x) by (intro; subst; lra). assert (x <> k_end c) by (intro; subst; lra). split.
      * intros [A B]. split; left; apply Rmult_lt_reg_l with semi; lra.
      * intros [A B]. split; apply Rmult_lt_compat_l; lra.
Qed.
Lemma carried_spec semi x : forall cs n l, carried semi x cs n = Ok l ->
  (forall c, In c cs -> covers semi c x = true -> exists d, In d l /\ as_told c d) /\ (forall d, In d l -> exists c, In c cs /\ covers semi c x = true /\ as_told c d).
Proof.
  induction cs as [|c r IH]; intros n l E; cbn in E.
  - injection E as E. subst l. split; [intros c []|intros d []].
  - destruct (covers semi c x) eqn:C.
    + destruct (control n c) as [d|] eqn:D; [|discriminate]. cbn [bind] in E. destruct (carried semi x r (S n)) as [l'|] eqn:E'; [|discriminate]. cbn [bind] in E. injection E as E. subst l.
      destruct (IH _ _ E') as [P Q]. split.
      * intros c' [<-|I] V; [exists d; split; [left; reflexivity|exact (control_told _ _ _ D)]|]. destruct (P c' I V) as [d' [I' T]]. exists d'. split; [right; exact I'|exact T].
      * intros d' [<-|I]; [exists c; repeat split; [left; reflexivity|exact C|..]; apply (control_told _ _ _ D)|]. destruct (Q d' I) as [c' [I' T]]. exists c'. split; [right; exact I'|exact T].
    + destruct (IH _ _ E) as [P Q]. split.
      * intros c' [<-|I] V; [congruence|]. exact (P c' I V).
      * intros d' I. destruct (Q d' I) as [c' [I' T]]. exists c'. split; [right; exact I'|exact T].
Qed.
Lemma carried_ok semi x : forall cs n, (forall c, In c cs -> k_class c <> Strange) -> exists l, carried semi x cs n = Ok l.
Proof.
  induction cs as [|c r IH]; intros n H; [exists []; reflexivity|]. cbn. destruct (IH (S n)) as [l L]; [intros c' I; apply H; right; exact I|].
  destruct (covers semi c x); [|exists l; exact L]. assert (K : exists d, control n c = Ok d) by (unfold control; pose proof (H c (or_introl eq_refl)); destruct (k_class c); try (eexists; reflexivity); contradiction).
  destruct K as [d D]. rewrite D. cbn [bind]. rewrite L. cbn [bind]. eexists; reflexivity.
Qed.
Lemma carried_err semi x : forall cs n e, carried semi x cs n = Err e -> e = AttributeError.
Proof.
  induction cs as [|c r IH]; intros n e E; cbn in E; [discriminate|]. destruct (covers semi c x); [|exact (IH _ _ E)].
  destruct (control n c) as [d|e'] eqn:D; cbn [bind] in E.
  - destruct (carried semi x r (S n)) as [l|e'] eqn:L; cbn [bind] in E; [discriminate|]. injection E as E. subst e'. exact (IH _ _ L).
  - injection E as E. subst e'. unfold control in D. destruct (k_class c); try discriminate. injection D as D. symmetry. exact D.
Qed.
Lemma carried_strange semi x c : forall cs n, In c cs -> k_class c = Strange -> covers semi c x = true -> carried semi x cs n = Err AttributeError.
Proof.
  induction cs as [|c' r IH]; intros n I K C; [destruct I|]. destruct (carried semi x (c' :: r) n) as [l|e] eqn:E; [exfalso|f_equal; exact (carried_err _ _ _ _ _ E)].
  cbn in E. destruct I as [<-|I].
  - rewrite C in E. unfold control in E. rewrite K in E. discriminate.
  - destruct (covers semi c' x); [|rewrite (IH _ I K C) in E; discriminate]. destruct (control n c'); cbn [bind] in E; [|discriminate]. rewrite (IH _ I K C) in E. discriminate.
Qed.

(** the breaks of a panel *)
Lemma insert_new_in y x : forall l, In y (insert_new x l) <-> y = x \/ In y l.
Proof.
  induction l as [|a l IH]; cbn; [intuition|]. destruct (Rltb x a) eqn:L; [cbn; intuition|]. destruct (Rltb a x) eqn:G; cbn; [rewrite IH; intuition|].
  apply Rltb_false in L. apply Rltb_false in G. assert (x = a) by lra. subst a. intuition.
Qed.
Lemma insert_new_sorted x : forall l, StronglySorted Rlt l -> StronglySorted Rlt (insert_new x l).
Proof.
  induction l as [|a l IH]; intro S; cbn; [repeat constructor|]. inversion S as [|? ? S' F]; subst. destruct (Rltb x a) eqn:L.
  - apply Rltb_true in L. constructor; [exact S|]. constructor; [exact L|]. eapply Forall_impl; [|exact F]. cbn. intros; lra.
  - destruct (Rltb a x) eqn:G; [|exact S]. apply Rltb_true in G. constructor; [exact (IH S')|]. rewrite Forall_forall in *. intros y I. apply insert_new_in in I. destruct I as [->|I]; [exact G|exact (F y I)].
Qed.
Lemma ordered_in y : forall l, In y (ordered l) <-> In y l.
Proof. induction l as [|a l IH]; cbn; [intuition|]. rewrite insert_new_in, IH. intuition. Qed.
Lemma ordered_sorted : forall l, StronglySorted Rlt (ordered l).
Proof. induction l as [|a l IH]; cbn; [constructor|]. apply insert_new_sorted. exact IH. Qed.
Lemma within_in semi root tip x y : 0 < semi -> In y (within semi root tip x) <-> y = semi * x /\ root <= x < tip.
Proof.
  intro S. unfold within. destruct (Rltb (semi * x) (semi * tip) && negb (Rltb (semi * x) (semi * root))) eqn:E.
  - apply andb_true_iff in E. destruct E as [A B]. apply Rltb_true in A. apply negb_true_iff, Rltb_false in B. cbn.
    assert (root <= x) by (apply Rmult_le_reg_l with semi; lra). assert (x < tip) by (apply Rmult_lt_reg_l with semi; lra). intuition.
  - cbn. split; [intros []|]. intros [_ [A B]]. apply andb_false_iff in E. destruct E as [E|E].
    + apply Rltb_false in E. assert (semi * x < semi * tip) by (apply Rmult_lt_compat_l; lra). lra.
    + apply negb_false_iff, Rltb_true in E. assert (semi * root <= semi * x) by (apply Rmult_le_compat_l; lra). lra.
Qed.
Lemma breaks_in semi root tip cs y : 0 < semi -> In y (breaks semi root tip cs) <-> exists c x, In c cs /\ (x = k_start c \/ x = k_end c) /\ root <= x < tip /\ y = semi * x.
Proof.
  intro S. unfold breaks. rewrite ordered_in, in_flat_map. split.
  - intros [c [I H]]. apply in_app_or in H. destruct H as [H|H]; apply within_in in H; try exact S; destruct H as [H R]; exists c; eexists; (split; [exact I|]); (split; [|split; [exact R|exact H]]); [left|right]; reflexivity.
  - intros (c & x & I & D & R & ->). exists c. split; [exact I|]. apply in_or_app. destruct D as [->| ->]; [left|right]; apply within_in; auto.
Qed.

(** the sections of one panel *)
Definition panel (v : bool) (semi root : R) (cs : list ctl) (a b : seg) (o : place) : result (list sec) :=
  let bs := breaks semi (s_span a) (s_span b) cs in
  bind (mapE (break_section (between v semi root a b o) cs) bs) (fun l =>
  Ok ((match bs with x :: _ => if Req_EM_T x (semi * s_span a) then [] else [seg_section root a o] | [] => [seg_section root a o] end) ++ l)).
Lemma append_later p cs : forall xs acc, (forall x, In x xs -> x <> r_semi p * r_root p) -> append_breaks p cs xs acc = bind (mapE (break_section p cs) xs) (fun l => Ok (acc ++ l)).
Proof.
  induction xs as [|x r IH]; intros acc H; [cbn; rewrite app_nil_r; reflexivity|]. cbn. destruct (Req_EM_T x (r_semi p * r_root p)) as [E|E]; [exfalso; exact (H x (or_introl eq_refl) E)|].
  cbn [bind]. destruct (break_section p cs x) as [s|e]; cbn [bind]; [|reflexivity]. rewrite IH by (intros y I; apply H; right; exact I).
  destruct (mapE (break_section p cs) r) as [l|e]; cbn [bind]; [|reflexivity]. rewrite <- app_assoc. reflexivity.
Qed.
Lemma append_panel v semi root cs a b o acc : append_controls (between v semi root a b o) cs (acc ++ [seg_section root a o]) = bind (panel v semi root cs a b o) (fun l => Ok (acc ++ l)).
Proof.
  unfold append_controls, panel. cbn [r_semi r_root r_tip between].
  assert (SS : StronglySorted Rlt (breaks semi (s_span a) (s_span b) cs)) by apply ordered_sorted.
  destruct (breaks semi (s_span a) (s_span b) cs) as [|x r] eqn:EB; [reflexivity|].
  destruct (Req_EM_T x (semi * s_span a)) as [E|E].
  - cbn [append_breaks mapE]. cbn [r_semi r_root between]. destruct (Req_EM_T x (semi * s_span a)) as [_|N]; [|contradiction].
    destruct (acc ++ [seg_section root a o]) as [|h t] eqn:EA; [destruct acc; discriminate|]. rewrite <- EA, removelast_last. cbn [bind].
    destruct (break_section (between v semi root a b o) cs x) as [s|e]; cbn [bind]; [|reflexivity]. rewrite append_later.
    + destruct (mapE (break_section (between v semi root a b o) cs) r); cbn [bind]; [|reflexivity]. rewrite <- app_assoc. reflexivity.
    + intros y I. cbn [r_semi r_root between]. inversion SS as [|? ? _ F]; subst. rewrite Forall_forall in F. specialize (F y I). lra.
  - rewrite append_later.
    + destruct (mapE (break_section (between v semi root a b o) cs) (x :: r)); cbn [bind]; [|reflexivity]. rewrite <- app_assoc. reflexivity.
    + intros y I. cbn [r_semi r_root between]. assert (G : semi * s_span a <= x).
      { assert (J : In x (breaks semi (s_span a) (s_span b) cs)) by (rewrite EB; left; reflexivity). unfold breaks in J. rewrite ordered_in, in_flat_map in J. destruct J as [c [_ J]].
        apply in_app_or in J. unfold within in J. destruct J as [J|J];
        match type of J with In _ (if ?q then _ else _) => destruct q eqn:Q end; try (destruct J; fail); apply andb_true_iff in Q; destruct Q as [_ Q]; apply negb_true_iff, Rltb_false in Q; cbn in J; destruct J as [J|[]]; lra. }
      destruct I as [<-|I]; [exact E|]. inversion SS as [|? ? _ F]; subst. rewrite Forall_forall in F. specialize (F y I). lra.
Qed.
Fixpoint whole (v : bool) (semi root : R) (cs : list ctl) (sgs : list seg) (o : place) : result (list sec) :=
  match sgs with
  | [] => Ok []
  | a :: r =>
    match r with
    | [] => Ok [seg_section root a o]
    | b :: _ => bind (panel v semi root cs a b o) (fun l => bind (whole v semi root cs r (next_place v semi root a b o)) (fun m => Ok (l ++ m)))
    end
  end.
Lemma walk_whole v semi root cs : forall sgs o acc, walk v semi root cs sgs o acc = bind (whole v semi root cs sgs o) (fun l => Ok (acc ++ l)).
Proof.
  induction sgs as [|a r IH]; intros o acc; [cbn; rewrite app_nil_r; reflexivity|]. cbn [walk whole]. destruct r as [|b r]; [reflexivity|].
  assert (P : (match cs with [] => Ok (acc ++ [seg_section root a o]) | _ :: _ => append_controls (between v semi root a b o) cs (acc ++ [seg_section root a o]) end) = bind (panel v semi root cs a b o) (fun l => Ok (acc ++ l))).
  { destruct cs; [reflexivity|]. apply append_panel. }
  rewrite P. destruct (panel v semi root cs a b o) as [l|e]; cbn [bind]; [|reflexivity]. rewrite IH. destruct (whole v semi root cs (b :: r) (next_place v semi root a b o)); cbn [bind]; [|reflexivity]. rewrite app_assoc. reflexivity.
Qed.
Lemma wing_whole v semi root cs sgs o : wing_sections v semi root cs sgs o = whole v semi root cs sgs o.
Proof. unfold wing_sections. rewrite walk_whole. destruct (whole v semi root cs sgs o); reflexivity. Qed.

(** surfaces that are laid outwards: wings without anhedral, fins that lean by no more than a right angle *)
Definition upright (v : bool) (s : seg) : Prop := if v then Rabs (s_dih s) <= PI / 2 else 0 <= s_dih s.
Lemma upright_way v s : upright v s -> way v (s_dih s) = 1.
Proof. destruct v; [apply way_fin|apply way_up]. Qed.
(** the point of the way from [p] to [q] *)
Definition along (f : R) (p q : place) : place := (px p + f * (px q - px p), py p + f * (py q - py p), pz p + f * (pz q - pz p)).
Lemma interp01 f p q : 0 <= f < 1 -> interp f [(0, p); (1, q)] = p + f * (q - p).
Proof. intro H. rewrite interp_cons, (proj2 (Rltb_false f 0)), (proj2 (Rltb_true f 1)) by lra. field. Qed.
Definition at_break (semi root : R) (cs : list ctl) (a b : seg) (p q : place) (x : R) (e : sec) : Prop :=
  let f := (x - s_span a) / (s_span b - s_span a) in
  e_at e = along f p q /\ e_chord e = root * (s_chord a + f * (s_chord b - s_chord a)) /\ e_air e = s_air b /\
  e_twist e * degree = s_twist a + f * (root * s_twist b - s_twist a) /\
  (forall c, In c cs -> covers semi c (semi * x) = true -> exists d, In d (e_ctl e) /\ as_told c d) /\
  (forall d, In d (e_ctl e) -> exists c, In c cs /\ covers semi c (semi * x) = true /\ as_told c d).
Lemma break_spec v semi root cs a b o x e : 0 < semi -> upright v a -> s_span a <= x < s_span b ->
  break_section (between v semi root a b o) cs (semi * x) = Ok e -> at_break semi root cs a b o (next_place v semi root a b o) x e.
Proof.
  intros S U X E. unfold break_section in E. cbn [r_semi r_root r_tip r_chord r_rootc r_tipc r_roott r_tipt r_vertical r_dih r_sweep r_at r_foil between] in E.
  rewrite (upright_way v a U) in E. destruct (carried semi (semi * x) cs 0) as [l|] eqn:C; [|discriminate]. cbn [bind] in E.
  assert (F : (semi * x - semi * s_span a) / (semi * (s_span b - s_span a)) = (x - s_span a) / (s_span b - s_span a)) by (field; lra).
  rewrite F in E. set (f := (x - s_span a) / (s_span b - s_span a)) in *.
  assert (FF : 0 <= f < 1). { unfold f. split; [apply Rmult_le_pos; [lra|left; apply Rinv_0_lt_compat; lra]|]. apply Rmult_lt_reg_r with (s_span b - s_span a); [lra|]. unfold Rdiv. rewrite Rmult_assoc, Rinv_l by lra. lra. }
  assert (FX : f * (s_span b - s_span a) = x - s_span a) by (unfold f; field; lra).
  assert (T : exists t, tip_foil (match s_air b with Some g => Foil (Some g) | None => NoFoil end) = Ok t /\ t = s_air b) by (destruct (s_air b); eexists; split; reflexivity).
  destruct T as [t [T T']]. rewrite T in E. cbn [bind] in E. rewrite !interp01 in E by exact FF. injection E as E. subst e t. unfold at_break. fold f. cbn [e_at e_chord e_twist e_air e_ctl].
  destruct (carried_spec _ _ _ _ _ C) as [P Q]. pose proof degree_pos. split; [|split; [ring|split; [reflexivity|split; [field; lra|split; [exact P|exact Q]]]]].
  unfold next_place. rewrite (upright_way v a U). unfold along, outwards.
  replace (semi * x - 1 * semi * s_span a) with (f * (semi * (s_span b - s_span a))) by (replace (f * (semi * (s_span b - s_span a))) with (semi * (f * (s_span b - s_span a))) by ring; rewrite FX; ring).
  destruct v; cbn [px py pz fst snd]; f_equal; [f_equal| |f_equal|]; unfold Rdiv; ring.
Qed.
Lemma panel_ok v semi root cs a b o l : 0 < semi -> upright v a -> s_span a < s_span b -> panel v semi root cs a b o = Ok l ->
  exists h m, l = h ++ m /\ mapE (break_section (between v semi root a b o) cs) (breaks semi (s_span a) (s_span b) cs) = Ok m /\
  (h = [] /\ In (semi * s_span a) (breaks semi (s_span a) (s_span b) cs) \/ h = [seg_section root a o] /\ ~ In (semi * s_span a) (breaks semi (s_span a) (s_span b) cs)).
Proof.
  intros S U SP E. unfold panel in E. destruct (mapE (break_section (between v semi root a b o) cs) (breaks semi (s_span a) (s_span b) cs)) as [m|] eqn:M; [|discriminate]. cbn [bind] in E.
  injection E as E. subst l. do 2 eexists. split; [reflexivity|]. split; [reflexivity|].
  assert (SS : StronglySorted Rlt (breaks semi (s_span a) (s_span b) cs)) by apply ordered_sorted.
  assert (GE : forall y, In y (breaks semi (s_span a) (s_span b) cs) -> semi * s_span a <= y) by (intros y I; apply breaks_in in I; [|exact S]; destruct I as (c & x & _ & _ & [X _] & ->); apply Rmult_le_compat_l; lra).
  destruct (breaks semi (s_span a) (s_span b) cs) as [|x r]; [right; split; [reflexivity|intros []]|]. destruct (Req_EM_T x (semi * s_span a)) as [Q|Q].
  - left. split; [reflexivity|]. left. exact Q.
  - right. split; [reflexivity|]. intros [I|I]; [contradiction|]. inversion SS as [|? ? _ F]; subst. rewrite Forall_forall in F. specialize (F _ I). pose proof (GE x (or_introl eq_refl)). lra.
Qed.
Lemma mapE_in : forall {A B} (f : A -> result B) l r y, mapE f l = Ok r -> In y r -> exists x, In x l /\ f x = Ok y.
Proof.
  induction l as [|a l IH]; cbn; intros r y E I; [injection E as E; subst r; destruct I|]. destruct (f a) as [z|] eqn:Z; [|discriminate]. cbn [bind] in E. destruct (mapE f l) as [zs|] eqn:M; [|discriminate]. cbn [bind] in E.
  injection E as E. subst r. destruct I as [<-|I]; [exists a; split; [left; reflexivity|exact Z]|]. destruct (IH zs y eq_refl I) as [x [J F]]. exists x. split; [right; exact J|exact F].
Qed.
Lemma mapE_in' : forall {A B} (f : A -> result B) l r x, mapE f l = Ok r -> In x l -> exists y, In y r /\ f x = Ok y.
Proof.
  induction l as [|a l IH]; cbn; intros r x E I; [destruct I|]. destruct (f a) as [z|] eqn:Z; [|discriminate]. cbn [bind] in E. destruct (mapE f l) as [zs|] eqn:M; [|discriminate]. cbn [bind] in E.
  injection E as E. subst r. destruct I as [<-|I]; [exists z; split; [left; reflexivity|exact Z]|]. destruct (IH zs x eq_refl I) as [y [J F]]. exists y. split; [right; exact J|exact F].
Qed.
Lemma whole_ok v semi root cs a b r o l : whole v semi root cs (a :: b :: r) o = Ok l ->
  exists h t, panel v semi root cs a b o = Ok h /\ whole v semi root cs (b :: r) (next_place v semi root a b o) = Ok t /\ l = h ++ t.
Proof.
  intro E. cbn [whole] in E. destruct (panel v semi root cs a b o) as [h|] eqn:P; [|discriminate]. cbn [bind] in E.
  change (match r with [] => Ok [seg_section root b (next_place v semi root a b o)] | b0 :: _ => bind (panel v semi root cs b b0 (next_place v semi root a b o)) (fun l0 => bind (whole v semi root cs r (next_place v semi root b b0 (next_place v semi root a b o))) (fun m => Ok (l0 ++ m))) end)
    with (whole v semi root cs (b :: r) (next_place v semi root a b o)) in E.
  destruct (whole v semi root cs (b :: r) (next_place v semi root a b o)) as [t|]; [|discriminate]. cbn [bind] in E. injection E as E. exists h, t. repeat split. symmetry. exact E.
Qed.
Lemma whole_break v semi root cs : 0 < semi -> forall sgs o l i a b ea eb x, (forall s, In s sgs -> upright v s) -> whole v semi root cs sgs o = Ok l ->
  nth_error sgs i = Some a -> nth_error sgs (S i) = Some b -> nth_error (lay v semi root sgs o) i = Some ea -> nth_error (lay v semi root sgs o) (S i) = Some eb ->
  s_span a <= x < s_span b -> In (semi * x) (breaks semi (s_span a) (s_span b) cs) -> exists e, In e l /\ at_break semi root cs a b (e_at ea) (e_at eb) x e.
Proof.
  intro S. induction sgs as [|s r IH]; intros o l i a b ea eb x U E A B EA EB X I; [destruct i; discriminate|]. destruct r as [|s' r]; [destruct i as [|[|i]]; discriminate|].
  destruct (whole_ok _ _ _ _ _ _ _ _ _ E) as (h & t & P & T & ->). destruct i as [|i].
  - injection A as A. injection B as B. subst s s'. cbn in EA. injection EA as EA. assert (EB' : eb = seg_section root b (next_place v semi root a b o)) by (cbn [lay nth_error] in EB; destruct r; congruence). clear EB.
    subst ea eb. cbn [e_at seg_section]. assert (AB : s_span a < s_span b) by lra. destruct (panel_ok _ _ _ _ _ _ _ _ S (U a (or_introl eq_refl)) AB P) as (h' & m & -> & M & _).
    destruct (mapE_in' _ _ _ _ M I) as [e [J F]]. exists e. split; [apply in_or_app; left; apply in_or_app; right; exact J|]. apply break_spec; try assumption. apply U. left. reflexivity.
  - destruct (IH (next_place v semi root s s' o) t i a b ea eb x) as [e [J F]]; try assumption; [intros q Q; apply U; right; exact Q|]. exists e. split; [apply in_or_app; right; exact J|exact F].
Qed.

(** at each start and end of a control surface within the span comes a section, on the straight line between the sections of the same wing without control surfaces,
    with the chord in between, that carries just the control surfaces that reach it.  Finding: its twist lies in between only if it is at the inner end, or the outer
    twist is zero, or the root chord is one metre, as the outer twist is multiplied by the root chord *)
Theorem C205_breaks : forall v semi root cs sgs o l l0 i a b ea eb c x, 0 < semi -> (forall s, In s sgs -> upright v s) -> (forall c, In c cs -> k_start c <= k_end c) ->
  wing_sections v semi root cs sgs o = Ok l -> wing_sections v semi root [] sgs o = Ok l0 ->
  nth_error sgs i = Some a -> nth_error sgs (S i) = Some b -> nth_error l0 i = Some ea -> nth_error l0 (S i) = Some eb ->
  In c cs -> x = k_start c \/ x = k_end c -> s_span a <= x < s_span b ->
  let f := (x - s_span a) / (s_span b - s_span a) in
  exists e, In e l /\ e_at e = along f (e_at ea) (e_at eb) /\ e_chord e = e_chord ea + f * (e_chord eb - e_chord ea) /\
  (forall c', In c' cs -> k_start c' <= x <= k_end c' -> exists d, In d (e_ctl e) /\ as_told c' d) /\
  (forall d, In d (e_ctl e) -> exists c', In c' cs /\ k_start c' <= x <= k_end c' /\ as_told c' d) /\
  (e_twist e = e_twist ea + f * (e_twist eb - e_twist ea) <-> x = s_span a \/ s_twist b = 0 \/ root = 1).
Proof.
  intros v semi root cs sgs o l l0 i a b ea eb c x S U O E E0 A B EA EB I D X f. rewrite wing_whole in E. rewrite wing_lay in E0. injection E0 as E0. subst l0.
  assert (BI : In (semi * x) (breaks semi (s_span a) (s_span b) cs)) by (apply breaks_in; [exact S|]; exists c, x; repeat split; try assumption; apply X).
  destruct (whole_break v semi root cs S sgs o l i a b ea eb x U E A B EA EB X BI) as (e & J & P & C & _ & T & H1 & H2). fold f in P, C, T.
  destruct (lay_step v semi root sgs o i a b A B) as [p [EA' EB']]. rewrite EA in EA'. rewrite EB in EB'. injection EA' as EA'. injection EB' as EB'. pose proof degree_pos as DP.
  exists e. split; [exact J|]. split; [exact P|]. split; [rewrite C; rewrite EA', EB'; cbn; ring|]. split; [|split].
  - intros c' I' R. apply H1; [exact I'|]. apply covers_iff; [exact S|exact (O c' I')|exact R].
  - intros d DI. destruct (H2 d DI) as (c' & I' & V & W). exists c'. split; [exact I'|]. split; [|exact W]. apply covers_iff in V; [exact V|exact S|exact (O c' I')].
  - assert (TE : e_twist e = (s_twist a + f * (root * s_twist b - s_twist a)) / degree) by (rewrite <- T; field; lra). rewrite TE, EA', EB'. cbn [e_twist seg_section].
    assert (FX : f * (s_span b - s_span a) = x - s_span a) by (unfold f; field; lra).
    assert (K : (s_twist a + f * (root * s_twist b - s_twist a)) / degree - (s_twist a / degree + f * (s_twist b / degree - s_twist a / degree)) = f * (s_twist b * (root - 1)) / degree) by (field; lra).
    split.
    + intro Q. assert (Z : f * (s_twist b * (root - 1)) / degree = 0) by lra. assert (Z' : f * (s_twist b * (root - 1)) = 0) by (replace (f * (s_twist b * (root - 1))) with (f * (s_twist b * (root - 1)) / degree * degree) by (field; lra); rewrite Z; ring).
      apply Rmult_integral in Z'. destruct Z' as [Z'|Z']; [left; rewrite Z' in FX; lra|]. apply Rmult_integral in Z'. destruct Z' as [Z'|Z']; [right; left; exact Z'|right; right; lra].
    + intro Q. assert (Z : f * (s_twist b * (root - 1)) = 0).
      { destruct Q as [Q|[Q|Q]]; [|rewrite Q; ring|rewrite Q; ring]. assert (f = 0) by (unfold f; rewrite Q; unfold Rdiv; ring). rewrite H. ring. }
      rewrite Z in K. unfold Rdiv in K at 5. rewrite Rmult_0_l in K. lra.
Qed.

(** no other section carries a control surface: in particular not the one at the tip, nor one at the end of a segment where no control surface starts or ends *)
Definition stationed (semi : R) (o : place) (s0 : R) (x : R) (e : sec) : Prop := py (e_at e) = py o + semi * (x - s0).
Lemma whole_where semi root cs : 0 < semi -> forall sgs o l e s0, (forall s, In s sgs -> 0 <= s_dih s) -> StronglySorted Rlt (map s_span sgs) -> nth_error sgs 0 = Some s0 ->
  whole false semi root cs sgs o = Ok l -> In e l ->
  exists x, s_span s0 <= x /\ stationed semi o (s_span s0) x e /\
  ((exists s, In s sgs /\ x = s_span s /\ e_ctl e = []) \/ (exists c s, In c cs /\ (x = k_start c \/ x = k_end c) /\ In s sgs /\ x < s_span s)).
Proof.
  intro S. induction sgs as [|a r IH]; intros o l e s0 U SS H0 E I; [discriminate|]. injection H0 as H0. subst s0. destruct r as [|b r].
  - cbn in E. injection E as E. subst l. destruct I as [<-|[]]. exists (s_span a). split; [lra|]. split; [unfold stationed; cbn; lra|]. left. exists a. split; [left; reflexivity|]. split; reflexivity.
  - destruct (whole_ok _ _ _ _ _ _ _ _ _ E) as (h & t & P & T & ->). inversion SS as [|? ? SS' F]; subst. assert (AB : s_span a < s_span b) by (inversion F; subst; assumption).
    apply in_app_or in I. destruct I as [I|I].
    + destruct (panel_ok _ _ _ _ _ _ _ _ S (U a (or_introl eq_refl) : upright false a) AB P) as (h' & m & -> & M & HH). apply in_app_or in I. destruct I as [I|I].
      * destruct HH as [[-> _]|[-> _]]; [destruct I|]. destruct I as [<-|[]]. exists (s_span a). split; [lra|]. split; [unfold stationed; cbn; lra|]. left. exists a. split; [left; reflexivity|]. split; reflexivity.
      * destruct (mapE_in _ _ _ _ M I) as [y [J K]]. apply breaks_in in J; [|exact S]. destruct J as (c & x & CI & D & X & ->). apply break_spec in K; [|exact S|exact (U a (or_introl eq_refl))|exact X].
        destruct K as [K _]. exists x. split; [lra|]. split.
        -- unfold stationed. rewrite K. unfold along, next_place. rewrite (way_up _ (U a (or_introl eq_refl))). unfold outwards. cbn [py px pz fst snd]. field. lra.
        -- right. exists c, b. repeat split; try assumption; try (right; left; reflexivity). lra.
    + destruct (IH (next_place false semi root a b o) t e b) as (x & X & ST & R); try assumption; try reflexivity; [intros s Q; apply U; right; exact Q|].
      exists x. split; [lra|]. split.
      * unfold stationed in *. rewrite ST. unfold next_place, outwards. rewrite (way_up _ (U a (or_introl eq_refl))). cbn [py px pz fst snd]. ring.
      * destruct R as [(s & SI & XE & CE)|(c & s & CI & D & SI & XS)]; [left; exists s; split; [right; exact SI|split; assumption]|right; exists c, s; split; [exact CI|split; [exact D|split; [right; exact SI|exact XS]]]].
Qed.
Theorem C205_only_there : forall semi root cs sgs o l e s0, 0 < semi -> (forall s, In s sgs -> 0 <= s_dih s) -> StronglySorted Rlt (map s_span sgs) -> nth_error sgs 0 = Some s0 ->
  wing_sections false semi root cs sgs o = Ok l -> In e l -> e_ctl e <> [] ->
  exists c x s, In c cs /\ (x = k_start c \/ x = k_end c) /\ In s sgs /\ s_span s0 <= x < s_span s /\ py (e_at e) = py o + semi * (x - s_span s0).
Proof.
  intros semi root cs sgs o l e s0 S U SS H0 E I N. rewrite wing_whole in E. destruct (whole_where semi root cs S sgs o l e s0 U SS H0 E I) as (x & X & ST & [(s & _ & _ & C)|(c & s & CI & D & SI & XS)]); [contradiction|].
  exists c, x, s. repeat split; try assumption.
Qed.

(** the sections come from the root to the tip, no two at one station *)
Lemma sorted_app (R0 : R -> R -> Prop) : forall l m, StronglySorted R0 l -> StronglySorted R0 m -> (forall x y, In x l -> In y m -> R0 x y) -> StronglySorted R0 (l ++ m).
Proof.
  induction l as [|a l IH]; intros m SL SM H; [exact SM|]. inversion SL as [|? ? SL' F]; subst. cbn. constructor; [apply IH; try assumption; intros x y X Y; apply H; [right; exact X|exact Y]|].
  rewrite Forall_forall in *. intros y Y. apply in_app_or in Y. destruct Y as [Y|Y]; [exact (F y Y)|apply H; [left; reflexivity|exact Y]].
Qed.
Lemma mapE_sorted (f : R -> result sec) (g : sec -> R) : forall l r, (forall x y e d, In x l -> In y l -> x < y -> f x = Ok e -> f y = Ok d -> g e < g d) -> StronglySorted Rlt l -> mapE f l = Ok r -> StronglySorted Rlt (map g r).
Proof.
  induction l as [|a l IH]; cbn; intros r H SL E; [injection E as E; subst r; constructor|]. destruct (f a) as [z|] eqn:Z; [|discriminate]. cbn [bind] in E. destruct (mapE f l) as [zs|] eqn:M; [|discriminate]. cbn [bind] in E.
  injection E as E. subst r. inversion SL as [|? ? SL' F]; subst. cbn. constructor; [apply IH; try reflexivity; try assumption; intros x y e d X Y; apply H; right; assumption|].
  rewrite Forall_forall in *. intros y Y. apply in_map_iff in Y. destruct Y as [d [<- D]]. destruct (mapE_in _ _ _ _ M D) as [x [X FX]]. exact (H a x z d (or_introl eq_refl) (or_intror X) (F x X) Z FX).
Qed.
Lemma break_y semi root cs a b o x e : 0 < semi -> 0 <= s_dih a -> s_span a <= x < s_span b -> break_section (between false semi root a b o) cs (semi * x) = Ok e -> py (e_at e) = py o + semi * (x - s_span a).
Proof.
  intros S U X E. apply break_spec in E; [|exact S|exact U|exact X]. destruct E as [E _]. rewrite E. unfold along, next_place. rewrite way_up by exact U. unfold outwards. cbn [py px pz fst snd]. field. lra.
Qed.
Theorem C205_in_order : forall semi root cs sgs o l, 0 < semi -> (forall s, In s sgs -> 0 <= s_dih s) -> StronglySorted Rlt (map s_span sgs) ->
  wing_sections false semi root cs sgs o = Ok l -> StronglySorted Rlt (map (fun e => py (e_at e)) l).
Proof.
  intros semi root cs sgs o l S U SS E. rewrite wing_whole in E. revert o l U SS E. induction sgs as [|a r IH]; intros o l U SS E; [cbn in E; injection E as E; subst l; constructor|].
  destruct r as [|b r]; [cbn in E; injection E as E; subst l; repeat constructor|].
  destruct (whole_ok _ _ _ _ _ _ _ _ _ E) as (h & t & P & T & ->). inversion SS as [|? ? SS' F]; subst. assert (AB : s_span a < s_span b) by (inversion F; subst; assumption).
  pose proof (U a (or_introl eq_refl)) as UA. rewrite map_app. apply sorted_app.
  - destruct (panel_ok _ _ _ _ _ _ _ _ S (UA : upright false a) AB P) as (h' & m & -> & M & HH). rewrite map_app.
    assert (SM : StronglySorted Rlt (map (fun e => py (e_at e)) m)).
    { refine (mapE_sorted _ _ _ _ _ (ordered_sorted _) M). intros x y e d X Y L EX EY. apply breaks_in in X; [|exact S]. apply breaks_in in Y; [|exact S]. destruct X as (_ & x' & _ & _ & X & ->). destruct Y as (_ & y' & _ & _ & Y & ->).
      rewrite (break_y _ _ _ _ _ _ _ _ S UA X EX), (break_y _ _ _ _ _ _ _ _ S UA Y EY). lra. }
    apply sorted_app; [destruct HH as [[-> _]|[-> _]]; repeat constructor|exact SM|]. intros x y X Y. destruct HH as [[-> _]|[-> N]]; [destruct X|]. destruct X as [<-|[]]. apply in_map_iff in Y. destruct Y as [d [<- D]].
    destruct (mapE_in _ _ _ _ M D) as [z [Z FZ]]. pose proof Z as Z'. apply breaks_in in Z; [|exact S]. destruct Z as (_ & x' & _ & _ & X' & ->). rewrite (break_y _ _ _ _ _ _ _ _ S UA X' FZ). cbn.
    assert (x' <> s_span a) by (intro; subst; exact (N Z')). assert (0 < semi * (x' - s_span a)) by (apply Rmult_lt_0_compat; lra). lra.
  - apply (IH (next_place false semi root a b o)); try assumption. intros s Q. apply U. right. exact Q.
  - intros x y X Y. apply in_map_iff in X. destruct X as [e [<- X]]. apply in_map_iff in Y. destruct Y as [d [<- Y]].
    destruct (whole_where semi root cs S (b :: r) (next_place false semi root a b o) t d b) as (z & Z & ST & _); try assumption; try reflexivity; [intros s Q; apply U; right; exact Q|].
    unfold stationed in ST. rewrite ST. unfold next_place, outwards. rewrite (way_up _ UA). cbn [py px pz fst snd]. assert (0 <= semi * (z - s_span b)) by (apply Rmult_le_pos; lra).
    assert (0 < semi * (s_span b - s_span a)) by (apply Rmult_lt_0_compat; lra).
    destruct (panel_ok _ _ _ _ _ _ _ _ S (UA : upright false a) AB P) as (h' & m & -> & M & HH). apply in_app_or in X. destruct X as [X|X].
    + destruct HH as [[-> _]|[-> _]]; [destruct X|]. destruct X as [<-|[]]. cbn [seg_section e_at py fst snd]. unfold py. lra.
    + destruct (mapE_in _ _ _ _ M X) as [w [W FW]]. apply breaks_in in W; [|exact S]. destruct W as (_ & x' & _ & _ & X' & ->). rewrite (break_y _ _ _ _ _ _ _ _ S UA X' FW). unfold py.
      assert (semi * (x' - s_span a) < semi * (s_span b - s_span a)) by (apply Rmult_lt_compat_l; lra). lra.
Qed.

(** a control surface of no known class ends the set-up; with known ones it succeeds *)
Theorem C205_known : forall v semi root cs sgs o, (forall c, In c cs -> k_class c <> Strange) -> exists l, wing_sections v semi root cs sgs o = Ok l.
Proof.
  intros v semi root cs sgs o K. rewrite wing_whole. revert o. induction sgs as [|a r IH]; intro o; [exists []; reflexivity|]. cbn [whole]. destruct r as [|b r]; [eexists; reflexivity|].
  destruct (mapE_total (break_section (between v semi root a b o) cs) (breaks semi (s_span a) (s_span b) cs)) as [m M].
  { intros x _. unfold break_section. cbn [r_semi between]. destruct (carried_ok semi x cs 0 K) as [l L]. rewrite L. cbn [bind r_foil between]. destruct (s_air b); cbn; eexists; reflexivity. }
  unfold panel. rewrite M. cbn [bind]. destruct (IH (next_place v semi root a b o)) as [t T]. rewrite T. cbn [bind]. eexists; reflexivity.
Qed.
Lemma break_err v semi root cs a b o x e : break_section (between v semi root a b o) cs x = Err e -> e = AttributeError.
Proof.
  unfold break_section. cbn [r_semi r_foil between]. destruct (carried semi x cs 0) as [l|e'] eqn:C; cbn [bind]; intro E.
  - destruct (s_air b); cbn in E; discriminate.
  - injection E as E. subst e'. exact (carried_err _ _ _ _ _ C).
Qed.
Lemma mapE_err : forall {A B} (f : A -> result B) l e, mapE f l = Err e -> exists x, In x l /\ f x = Err e.
Proof.
  induction l as [|a l IH]; cbn; intros e E; [discriminate|]. destruct (f a) as [z|e'] eqn:Z; cbn [bind] in E.
  - destruct (mapE f l) as [zs|e'] eqn:M; cbn [bind] in E; [discriminate|]. injection E as E. subst e'. destruct (IH e eq_refl) as [x [X F]]. exists x. split; [right; exact X|exact F].
  - exists a. split; [left; reflexivity|]. congruence.
Qed.
Lemma whole_err v semi root cs : forall sgs o e, whole v semi root cs sgs o = Err e -> e = AttributeError.
Proof.
  induction sgs as [|s r IH]; intros o e E; [discriminate|]. cbn [whole] in E. destruct r as [|s' r]; [discriminate|].
  destruct (panel v semi root cs s s' o) as [h|e'] eqn:P; cbn [bind] in E.
  - destruct (whole v semi root cs (s' :: r) (next_place v semi root s s' o)) as [t|e'] eqn:T; cbn [bind] in E; [discriminate|]. injection E as E. subst e'. exact (IH _ _ T).
  - injection E as E. subst e'. unfold panel in P.
    destruct (mapE (break_section (between v semi root s s' o) cs) (breaks semi (s_span s) (s_span s') cs)) as [m|e'] eqn:M; cbn [bind] in P; [discriminate|].
    injection P as P. subst e'. destruct (mapE_err _ _ _ M) as [x [_ F]]. exact (break_err _ _ _ _ _ _ _ _ _ F).
Qed.
Theorem C205_strange : forall v semi root cs sgs o i a b c x, 0 < semi -> k_start c <= k_end c -> nth_error sgs i = Some a -> nth_error sgs (S i) = Some b ->
  In c cs -> k_class c = Strange -> x = k_start c \/ x = k_end c -> s_span a <= x < s_span b -> wing_sections v semi root cs sgs o = Err AttributeError.
Proof.
  intros v semi root cs sgs o i a b c x S O A B I K D X. rewrite wing_whole. revert o i A B. induction sgs as [|s r IH]; intros o i A B; [destruct i; discriminate|].
  destruct r as [|s' r]; [destruct i as [|[|i]]; discriminate|]. destruct (whole v semi root cs (s :: s' :: r) o) as [l|e] eqn:E.
  - exfalso. destruct (whole_ok _ _ _ _ _ _ _ _ _ E) as (h & t & P & T & ->). destruct i as [|i]; [|rewrite (IH _ i A B) in T; discriminate].
    injection A as A. injection B as B. subst s s'. unfold panel in P. destruct (mapE (break_section (between v semi root a b o) cs) (breaks semi (s_span a) (s_span b) cs)) as [m|] eqn:M; [|discriminate].
    destruct (mapE_in' _ _ _ (semi * x) M) as [y [_ Y]]; [apply breaks_in; [exact S|]; exists c, x; repeat split; try assumption; apply X|].
    unfold break_section in Y. cbn [r_semi between] in Y. rewrite (carried_strange semi (semi * x) c cs 0 I K) in Y; [discriminate|]. apply covers_iff; [exact S|exact O|]. destruct D; subst x; lra.
  - f_equal. exact (whole_err _ _ _ _ _ _ _ E).
Qed.

(** ** the wing without segments *)
Lemma append_first w cs x r : ordered (flat_map (fun c => within (w_semi w) 0 1 (k_start c) ++ within (w_semi w) 0 1 (k_end c)) cs) = x :: r -> x = w_semi w * 0 ->
  forall p, r_semi p = w_semi w -> r_root p = 0 -> append_breaks p cs (x :: r) [] = Err IndexError.
Proof. intros _ X p S R. cbn [append_breaks]. rewrite S, R. destruct (Req_EM_T x (w_semi w * 0)); [reflexivity|contradiction]. Qed.
(** finding: a control surface that starts at the root of a wing without segments ends the set-up *)
Theorem C205_plain_root_refuted : forall w cs o c, 0 < w_semi w -> In c cs -> k_start c = 0 \/ k_end c = 0 -> plain_sections w cs o = Err IndexError.
Proof.
  intros w cs o c S I D. unfold plain_sections, append_controls. cbn [r_semi r_root r_tip].
  assert (SS : StronglySorted Rlt (breaks (w_semi w) 0 1 cs)) by apply ordered_sorted.
  assert (J : In (w_semi w * 0) (breaks (w_semi w) 0 1 cs)) by (apply breaks_in; [exact S|]; exists c, 0; split; [exact I|]; split; [destruct D; [left|right]; symmetry; assumption|lra]).
  assert (GE : forall y, In y (breaks (w_semi w) 0 1 cs) -> w_semi w * 0 <= y) by (intros y Y; apply breaks_in in Y; [|exact S]; destruct Y as (c' & x & _ & _ & [X _] & ->); apply Rmult_le_compat_l; lra).
  destruct (breaks (w_semi w) 0 1 cs) as [|x r] eqn:EB; [destruct J|].
  assert (X : x = w_semi w * 0). { destruct J as [J|J]; [exact J|]. inversion SS as [|? ? _ F]; subst. rewrite Forall_forall in F. specialize (F _ J). pose proof (GE x (or_introl eq_refl)). lra. }
  rewrite (append_first w cs x r EB X) by reflexivity. reflexivity.
Qed.
(** finding: one with a coordinate file can have no control surface that starts or ends on the span *)
Theorem C205_plain_foil_refuted : forall w cs o c x g, 0 < w_semi w -> w_foil w = Some (Some g) -> (forall c, In c cs -> k_start c <> 0 /\ k_end c <> 0) ->
  In c cs -> x = k_start c \/ x = k_end c -> 0 < x < 1 -> plain_sections w cs o = Err AttributeError.
Proof.
  intros w cs o c x g S G N I D X. unfold plain_sections, append_controls. cbn [r_semi r_root r_tip]. rewrite G.
  assert (J : In (w_semi w * x) (breaks (w_semi w) 0 1 cs)) by (apply breaks_in; [exact S|]; exists c, x; repeat split; try lra; assumption).
  rewrite append_later.
  - destruct (breaks (w_semi w) 0 1 cs) as [|y r]; [destruct J|]. cbn [mapE]. unfold break_section at 1. cbn [r_semi r_foil].
    destruct (carried (w_semi w) y cs 0) as [l|e] eqn:C; cbn [bind tip_foil]; [reflexivity|]. rewrite (carried_err _ _ _ _ _ C). reflexivity.
  - intros y Y. cbn [r_semi r_root]. apply breaks_in in Y; [|exact S]. destruct Y as (c' & x' & I' & D' & X' & ->). intro Q.
    assert (x' = 0) by (apply Rmult_eq_reg_l with (w_semi w); lra). destruct (N c' I'). destruct D'; congruence.
Qed.
(** without a coordinate file and with control surfaces that start outboard of the root, the sections are the root, the tip and one at each start and end *)
Theorem C205_plain : forall w cs o, 0 < w_semi w -> w_vertical w = false -> 0 <= w_dih w -> (forall f, w_foil w = Some f -> f = None) ->
  (forall c, In c cs -> k_class c <> Strange /\ 0 < k_start c <= k_end c) ->
  exists m r t, plain_sections w cs o = Ok (m ++ [r; t]) /\ plain_sections w [] o = Ok [r; t] /\
  (forall e, In e m -> exists c x, In c cs /\ (x = k_start c \/ x = k_end c) /\ 0 < x < 1 /\ py (e_at e) = py o + w_semi w * x) /\
  (forall c x, In c cs -> x = k_start c \/ x = k_end c -> x < 1 -> exists e, In e m /\
     py (e_at e) = py o + w_semi w * x /\ pz (e_at e) = pz o + w_semi w * x * tan (w_dih w) /\ e_chord e = w_root w * (1 + x * (w_taper w - 1)) /\
     (forall c', In c' cs -> k_start c' <= x <= k_end c' -> exists d, In d (e_ctl e) /\ as_told c' d) /\
     (forall d, In d (e_ctl e) -> exists c', In c' cs /\ k_start c' <= x <= k_end c' /\ as_told c' d)).
Proof.
  intros w cs o S V D F K. unfold plain_sections, append_controls. cbn [r_semi r_root r_tip]. rewrite V.
  set (p := Span false (w_semi w) (w_root w) 1 (w_taper w) 0 1 (w_roott w) (w_tipt w) (match w_foil w with Some f => Bare f | None => NoFoil end) (w_dih w) (plain_sweep w) o).
  assert (FO : tip_foil (r_foil p) = Ok None). { unfold p. cbn [r_foil]. destruct (w_foil w) as [f|] eqn:EF; [|reflexivity]. rewrite (F f eq_refl). reflexivity. }
  assert (BS : forall x, 0 < x < 1 -> exists e, break_section p cs (w_semi w * x) = Ok e /\ py (e_at e) = py o + w_semi w * x /\ pz (e_at e) = pz o + w_semi w * x * tan (w_dih w) /\ e_chord e = w_root w * (1 + x * (w_taper w - 1)) /\
     (forall c', In c' cs -> k_start c' <= x <= k_end c' -> exists d, In d (e_ctl e) /\ as_told c' d) /\
     (forall d, In d (e_ctl e) -> exists c', In c' cs /\ k_start c' <= x <= k_end c' /\ as_told c' d)).
  { intros x X. destruct (carried_ok (w_semi w) (w_semi w * x) cs 0) as [l L]; [intros c I; apply K; exact I|]. unfold break_section. rewrite FO. unfold p. cbn [r_semi r_root r_tip r_chord r_rootc r_tipc r_roott r_tipt r_vertical r_dih r_sweep r_at].
    rewrite L. cbn [bind]. replace ((w_semi w * x - w_semi w * 0) / (w_semi w * (1 - 0))) with x by (field; lra). rewrite !interp01 by lra. eexists. split; [reflexivity|]. cbn [e_at e_chord e_ctl]. rewrite way_up by exact D. unfold outwards. cbn [py pz px fst snd].
    destruct (carried_spec _ _ _ _ _ L) as [P Q]. split; [ring|]. split; [ring|]. split; [ring|]. split.
    - intros c' I R. apply P; [exact I|]. apply covers_iff; [exact S|apply K; exact I|exact R].
    - intros d I. destruct (Q d I) as (c' & I' & C & T). exists c'. split; [exact I'|]. split; [|exact T]. apply covers_iff in C; [exact C|exact S|apply K; exact I']. }
  assert (BX : forall y, In y (breaks (w_semi w) 0 1 cs) -> exists c x, In c cs /\ (x = k_start c \/ x = k_end c) /\ 0 < x < 1 /\ y = w_semi w * x).
  { intros y Y. apply breaks_in in Y; [|exact S]. destruct Y as (c & x & I & DX & X & ->). exists c, x. destruct (K c I) as [_ [K1 K2]]. repeat split; try assumption; destruct DX; subst x; lra. }
  destruct (mapE_total (break_section p cs) (breaks (w_semi w) 0 1 cs)) as [m M]; [intros y Y; destruct (BX y Y) as (c & x & _ & _ & X & ->); destruct (BS x X) as [e [E _]]; exists e; exact E|].
  rewrite append_later.
  - rewrite M. cbn [bind app]. do 3 eexists. split; [reflexivity|]. split; [reflexivity|]. split.
    + intros e I. destruct (mapE_in _ _ _ _ M I) as [y [Y E]]. destruct (BX y Y) as (c & x & IC & DX & X & ->). exists c, x. repeat split; try assumption; try apply X. destruct (BS x X) as [e' [E' [PY _]]]. rewrite E in E'. injection E' as E'. subst e'. exact PY.
    + intros c x I DX X1. destruct (K c I) as [_ [K1 K2]]. assert (X : 0 < x < 1) by (destruct DX; subst x; lra). destruct (BS x X) as [e [E R]].
      destruct (mapE_in' _ _ _ (w_semi w * x) M) as [e' [J E']]; [apply breaks_in; [exact S|]; exists c, x; repeat split; try assumption; lra|]. rewrite E in E'. injection E' as E'. subst e'. exists e. split; [exact J|exact R].
  - intros y Y. unfold p. cbn [r_semi r_root]. destruct (BX y Y) as (c & x & _ & _ & X & ->). intro Q. assert (x = 0) by (apply Rmult_eq_reg_l with (w_semi w); lra). lra.
Qed.

(** ** C206: what is written *)
Lemma put_perm key x : forall l, Permutation (put key x l) (x :: l).
Proof. induction l as [|y l IH]; cbn; [reflexivity|]. destruct (Rltb (key y) (key x)); [|reflexivity]. rewrite IH. apply perm_swap. Qed.
Lemma put_sorted key x : forall l, StronglySorted Rle (map key l) -> StronglySorted Rle (map key (put key x l)).
Proof.
  induction l as [|y l IH]; cbn; intro SL; [repeat constructor|]. inversion SL as [|? ? SL' F]; subst. destruct (Rltb (key y) (key x)) eqn:L; cbn.
  - apply Rltb_true in L. constructor; [exact (IH SL')|]. rewrite Forall_forall in *. intros k I. apply in_map_iff in I. destruct I as [z [<- Z]].
    apply (Permutation_in _ (put_perm key x l)) in Z. destruct Z as [<-|Z]; [lra|]. apply F. apply in_map. exact Z.
  - apply Rltb_false in L. constructor; [exact SL|]. constructor; [exact L|]. eapply Forall_impl; [|exact F]. cbn. intros; lra.
Qed.
(** all sections are written, each once, by span or, for vertical surfaces, by height *)
Theorem C206_written : forall v l, Permutation (written v l) l /\ StronglySorted Rle (map (fun s => if v then pz (e_at s) else py (e_at s)) (written v l)).
Proof.
  intros v l. unfold written. set (key := fun s => if v then pz (e_at s) else py (e_at s)). induction l as [|a l [P Q]]; cbn; [split; constructor|]. split; [rewrite put_perm, P; reflexivity|]. apply put_sorted. exact Q.
Qed.
(** sections already in order, such as those of a wing with segments, are written as they come *)
Theorem C206_kept : forall l, StronglySorted Rlt (map (fun s => py (e_at s)) l) -> written false l = l.
Proof.
  unfold written. induction l as [|a l IH]; cbn [fold_right map]; intro S; [reflexivity|]. inversion S as [|? ? S' F]; subst. rewrite IH by exact S'. destruct l as [|b l]; [reflexivity|]. cbn [put].
  inversion F as [|? ? L _]; subst. rewrite (proj2 (Rltb_false (py (e_at b)) (py (e_at a)))) by lra. reflexivity.
Qed.
Lemma curvature_range f : 1 <= curvature f <= 2.
Proof.
  unfold curvature. cbv zeta. apply interp_range.
  - unfold linspace. cbn. discriminate.
  - unfold linspace. cbn [map2 map seq climbing fst Nat.eqb Nat.sub]. cbn [INR]. repeat split; lra.
  - unfold linspace. cbn [map2 map seq Nat.eqb Nat.sub]. repeat (apply Forall_cons; [cbn [snd]; lra|]). apply Forall_nil.
Qed.
Lemma rounded_range half c w len : 0 < half -> 0 < c -> 0 <= len -> 0 <= rounded half c w len <= len.
Proof.
  intros H C L. unfold rounded. pose proof (pw_nonneg (1 - pw (Rabs (w / half)) c) (1 / c)) as P. pose proof (pw_nonneg (Rabs (w / half)) c) as Q.
  assert (IC : 0 < 1 / c) by (apply Rdiv_lt_0_compat; lra).
  assert (T : pw (1 - pw (Rabs (w / half)) c) (1 / c) <= 1). { apply Rle_trans with (pw 1 (1 / c)); [apply pw_mono; [exact IC|lra]|]. rewrite pw_pos by lra. unfold Rpower. rewrite ln_1, Rmult_0_r, exp_0. lra. }
  split; [apply Rmult_le_pos; assumption|]. rewrite <- (Rmult_1_l len) at 2. apply Rmult_le_compat_r; assumption.
Qed.
Lemma rounded_even half c w len : rounded half c (- w) len = rounded half c w len.
Proof. unfold rounded. replace (- w / half) with (- (w / half)) by (unfold Rdiv; ring). rewrite Rabs_Ropp. reflexivity. Qed.
Lemma rounded_mid half c len : 0 < half -> 0 < c -> rounded half c 0 len = len.
Proof. intros H C. unfold rounded. replace (0 / half) with 0 by (field; lra). rewrite Rabs_R0, (pw_0 0 c) by lra. replace (1 - 0) with 1 by ring. rewrite pw_pos by lra. unfold Rpower. rewrite ln_1, Rmult_0_r, exp_0. ring. Qed.
Lemma rounded_end half c w len : 0 < half -> Rabs w = half -> rounded half c w len = 0.
Proof.
  intros H W. unfold rounded. unfold Rdiv at 1. rewrite Rabs_mult, W, Rabs_inv, (Rabs_right half) by lra. rewrite Rinv_r by lra. rewrite (pw_pos 1 c) by lra. unfold Rpower. rewrite ln_1, Rmult_0_r, exp_0, pw_0 by lra. ring.
Qed.
(** eleven sections across a body that has width: none is longer than the body nor shorter than its cabin, each lies between the ends of the body, the middle one is the
    whole body, the outermost ones are the cabin, and the body is the same on both sides *)
Theorem C206_body : forall half total nose tail fn ft x0, 0 < half -> 0 <= nose -> 0 <= tail -> nose + tail <= total ->
  exists f, body_sections half total nose tail fn ft x0 = map f (linspace (- half) half 11) /\
  (forall w x y c, f w = (x, y, c) -> y = w /\ x0 <= x <= x0 + nose /\ x0 + total - tail <= x + c <= x0 + total /\ total - (nose + tail) <= c <= total) /\
  (forall w x y c, f w = (x, y, c) -> f (- w) = (x, - w, c)) /\ f 0 = (x0, 0, total) /\ f half = (x0 + nose, half, total - (nose + tail)).
Proof.
  intros half total nose tail fn ft x0 H N T L. unfold body_sections. destruct (Req_EM_T half 0); [lra|]. eexists. split; [reflexivity|]. pose proof (curvature_range fn) as CN. pose proof (curvature_range ft) as CT. cbv beta zeta.
  split; [|split; [|split]].
  - intros w x y c E. pose proof (rounded_range half (curvature fn) w nose H ltac:(lra) N). pose proof (rounded_range half (curvature ft) w tail H ltac:(lra) T).
    assert (x = x0 + (nose - rounded half (curvature fn) w nose)) by congruence. assert (y = w) by congruence. assert (c = total - (nose + tail) + rounded half (curvature fn) w nose + rounded half (curvature ft) w tail) by congruence. subst. repeat split; lra.
  - intros w x y c E. rewrite !rounded_even. congruence.
  - rewrite !rounded_mid by lra. f_equal; [f_equal|]; ring.
  - rewrite !(rounded_end half) by (try lra; apply Rabs_right; lra). f_equal; [f_equal|]; ring.
Qed.
Theorem C206_no_body : forall total nose tail fn ft x0, body_sections 0 total nose tail fn ft x0 = [].
Proof. intros. unfold body_sections. destruct (Req_EM_T 0 0); [reflexivity|lra]. Qed.
(** the mass in the file is the one mass that is given.  Finding: a vehicle for which both are given, as every sized one has, is refused *)
Theorem C206_mass : forall m mx, (m = 0 -> written_mass m mx = Ok mx) /\ (mx = 0 -> written_mass m mx = Ok m) /\ (m <> 0 -> mx <> 0 -> written_mass m mx = Err AttributeError).
Proof. intros m mx. unfold written_mass. destruct (Req_EM_T m 0); destruct (Req_EM_T mx 0); repeat split; intros; try congruence; contradiction. Qed.
Example C205_case :
  let a := Seg (Some 0) 0 1 0 0 0 None in let b := Seg None 0 (1 / 2) 1 0 degree None in let c := Ctl "flap" (1 / 4) (1 / 2) (3 / 10) 0 Flap in
  exists l e, wing_sections false 10 4 [c] [a; b] (0, 0, 0) = Ok l /\ In e l /\ py (e_at e) = 5 / 2 /\ e_chord e = 7 / 2 /\ (exists d, In d (e_ctl e) /\ c_name d = "flap"%string /\ c_hinge d = 7 / 10) /\
  StronglySorted Rlt (map (fun e => py (e_at e)) l) /\ e_twist e <> 1 / 4.
Proof.
  cbv zeta. set (a := Seg (Some 0) 0 1 0 0 0 None). set (b := Seg None 0 (1 / 2) 1 0 degree None). set (c := Ctl "flap" (1 / 4) (1 / 2) (3 / 10) 0 Flap).
  assert (U : forall s, In s [a; b] -> 0 <= s_dih s) by (intros s [<-|[<-|[]]]; cbn; lra).
  destruct (C205_known false 10 4 [c] [a; b] (0, 0, 0)) as [l L]; [intros c' [<-|[]]; discriminate|].
  destruct (C205_breaks false 10 4 [c] [a; b] (0, 0, 0) l _ 0 a b _ _ c (1 / 4) ltac:(lra) U ltac:(intros c' [<-|[]]; cbn; lra) L (wing_lay _ _ _ _ _) eq_refl eq_refl eq_refl eq_refl (or_introl eq_refl) (or_introl eq_refl) ltac:(cbn; lra)) as (e & I & P & C & K1 & _ & T).
  exists l, e. split; [exact L|]. split; [exact I|]. split; [rewrite P; unfold along, next_place, outwards; rewrite way_up by (cbn; lra); cbn; lra|]. split; [rewrite C; cbn; lra|]. split; [|split].
  - destruct (K1 c (or_introl eq_refl)) as [d [DI TD]]; [cbn; lra|]. exists d. split; [exact DI|]. destruct TD as (N & _ & HG & _). rewrite N, HG. cbn. split; [reflexivity|lra].
  - refine (C205_in_order 10 4 [c] [a; b] (0, 0, 0) l _ U _ L); [lra|]. cbn. repeat constructor. lra.
  - intro Q. pose proof degree_pos as DP. assert (W : 1 / 4 = s_span a \/ s_twist b = 0 \/ (4 : R) = 1).
    { apply T. rewrite Q. cbn. field. lra. }
    cbn in W. lra.
Qed.
Example C205_plain_case :
  (exists l, plain_sections (Plain false 10 4 2 (1 / 2) 0 0 0 None 0 None) [Ctl "aileron" (1 / 2) (3 / 4) (1 / 4) 0 Aileron] (0, 0, 0) = Ok l) /\
  plain_sections (Plain false 10 4 2 (1 / 2) 0 0 0 None 0 None) [Ctl "elevator" 0 1 (1 / 4) 0 Elevator] (0, 0, 0) = Err IndexError /\
  plain_sections (Plain false 10 4 2 (1 / 2) 0 0 0 None 0 (Some (Some "naca2412.txt"%string))) [Ctl "aileron" (1 / 2) (3 / 4) (1 / 4) 0 Aileron] (0, 0, 0) = Err AttributeError.
Proof.
  split; [|split].
  - destruct (C205_plain (Plain false 10 4 2 (1 / 2) 0 0 0 None 0 None) [Ctl "aileron" (1 / 2) (3 / 4) (1 / 4) 0 Aileron] (0, 0, 0)) as (m & r & t & E & _); cbn [w_semi w_vertical w_dih w_foil]; try lra; try reflexivity; try discriminate.
    + intros c [<-|[]]. cbn. split; [discriminate|lra].
    + eexists. exact E.
  - apply (C205_plain_root_refuted _ _ _ (Ctl "elevator" 0 1 (1 / 4) 0 Elevator)); cbn; [lra|left; reflexivity|left; reflexivity].
  - apply (C205_plain_foil_refuted _ _ _ (Ctl "aileron" (1 / 2) (3 / 4) (1 / 4) 0 Aileron) (1 / 2) "naca2412.txt"%string); cbn; try lra; try reflexivity; try (left; reflexivity).
    intros c [<-|[]]. cbn. lra.
Qed.
Example C205_strange_case : wing_sections false 10 4 [Ctl "spoiler" (1 / 4) (1 / 2) (3 / 10) 0 Strange] [Seg None 0 1 0 0 0 None; Seg None 0 1 1 0 0 None] (0, 0, 0) = Err AttributeError.
Proof.
  apply (C205_strange false 10 4 _ [Seg None 0 1 0 0 0 None; Seg None 0 1 1 0 0 None] (0, 0, 0) 0 (Seg None 0 1 0 0 0 None) (Seg None 0 1 1 0 0 None) (Ctl "spoiler" (1 / 4) (1 / 2) (3 / 10) 0 Strange) (1 / 4));
  try reflexivity; try (left; reflexivity); cbn; lra.
Qed.
Example C206_case : exists f, body_sections 2 30 5 8 (3 / 2) 3 1 = map f (linspace (- 2) 2 11) /\ f 0 = (1, 0, 30) /\ f 2 = (6, 2, 17).
Proof.
  destruct (C206_body 2 30 5 8 (3 / 2) 3 1) as (f & E & _ & _ & Z & H); try lra. exists f. split; [exact E|]. split; [exact Z|]. rewrite H. f_equal; [f_equal|]; ring.
Qed.
Example C206_mass_case : written_mass 0 79000 = Ok 79000 /\ written_mass 62000 79000 = Err AttributeError.
Proof. destruct (C206_mass 0 79000) as [A _]. destruct (C206_mass 62000 79000) as [_ [_ B]]. split; [apply A; reflexivity|apply B; lra]. Qed.
Print Assumptions C204_sections.
Print Assumptions C204_semispan.
Print Assumptions C204_stations.
Print Assumptions C204_heights.
Print Assumptions C204_rise.
Print Assumptions C204_lean.
Print Assumptions C204_leading_edge.
Print Assumptions C204_quarter_chord.
Print Assumptions C204_plain.
Print Assumptions C204_same_wing.
Print Assumptions C204_anhedral_refuted.
Print Assumptions C205_breaks.
Print Assumptions C205_only_there.
Print Assumptions C205_in_order.
Print Assumptions C205_known.
Print Assumptions C205_strange.
Print Assumptions C205_plain_root_refuted.
Print Assumptions C205_plain_foil_refuted.
Print Assumptions C205_plain.
Print Assumptions C206_written.
Print Assumptions C206_kept.
Print Assumptions C206_body.
Print Assumptions C206_no_body.
Print Assumptions C206_mass.
