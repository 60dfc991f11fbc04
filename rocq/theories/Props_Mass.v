(** * C33-C35: masses and centres of gravity *)
From Coq Require Import Reals List Bool String Lra Lia Permutation.
From Verif Require Import M_Opt P_Opt M_Rot M_Mission M_Wing M_Mass S_Mass P_Mass.
Import ListNotations.
Local Open Scope R_scope.
Local Open Scope list_scope.

(** ** C33: mass and centre of gravity of a vehicle *)
(** the mass is the sum over all components in the vehicle's containers, however nested *)
Theorem C33_mass : forall a, sum_mass a = mass_of (counted a).
Proof. exact sum_mass_counted. Qed.
(** the centre of gravity is the one point about which their moments vanish *)
Theorem C33_cg : forall a x, sum_mass a <> 0 -> (balances (counted a) x <-> x = center_of_gravity a).
Proof. exact cg_balances. Qed.
(** it lies in every half space that holds all components: in their convex hull *)
Theorem C33_hull : forall a n b, sum_mass a <> 0 -> Forall (fun p => 0 <= p_mass p) (counted a) ->
  Forall (fun p => dot_at n p <= b) (counted a) -> vdot n (center_of_gravity a) <= b.
Proof. exact cg_hull. Qed.
(** neither the order nor the nesting of the containers matters *)
Theorem C33_order : forall a b, Permutation (counted a) (counted b) ->
  sum_mass a = sum_mass b /\ center_of_gravity a = center_of_gravity b.
Proof. exact cg_perm. Qed.
(** components may be replaced by one with their mass at their centre of gravity *)
Theorem C33_lump : forall a b l p rest, Permutation (counted a) (l ++ rest) -> Permutation (counted b) (p :: rest) ->
  p_mass p = mass_of l -> (forall x, is_at p x -> balances l x) ->
  sum_mass a = sum_mass b /\ center_of_gravity a = center_of_gravity b.
Proof. exact cg_lump. Qed.
(** moving every component moves the centre of gravity with them *)
Theorem C33_moved : forall a b d, Forall2 (moved d) (counted a) (counted b) -> sum_mass a <> 0 ->
  sum_mass b = sum_mass a /\ center_of_gravity b = vplus (center_of_gravity a) d.
Proof. exact cg_moved. Qed.
(** without mass it is the origin *)
Theorem C33_massless : forall a, Forall (fun p => 0 <= p_mass p) (counted a) -> sum_mass a = 0 ->
  center_of_gravity a = V3 0 0 0.
Proof. exact cg_zero. Qed.
(** and when masses cancel it is their moment about the origin: nothing is divided by zero *)
Theorem C33_cancelled : forall a f, sum_mass a = 0 -> coordinate f ->
  f (center_of_gravity a) = summed (fun p => p_mass p * at_coordinate f p) (counted a).
Proof. exact cg_cancelled. Qed.
(** what a component holds itself does not count, nor does a component outside a container *)
Theorem C33_inside_refuted : exists battery network : part,
  p_mass battery > 0 /\ sum_mass [Box [Comp network [Comp battery []]]] = p_mass network.
Proof.
  exists (Part 1 [V3 0 0 0] (V3 0 0 0)), (Part 2 [V3 0 0 0] (V3 0 0 0)). split; [cbn; lra|].
  rewrite sum_mass_counted. unfold mass_of. cbn. lra.
Qed.
Theorem C33_loose_refuted : forall p inner rest, sum_mass (Comp p inner :: rest) = sum_mass rest /\
  center_of_gravity (Comp p inner :: rest) = center_of_gravity rest.
Proof. intros p inner rest. apply cg_perm. reflexivity. Qed.

Definition ex_part (m x : R) : part := Part m [V3 x 0 0] (V3 0 0 0).
Definition ex_tree : list item :=
  [Box [Comp (ex_part 3 1) []; Box [Comp (Part 1 [V3 2 1 0; V3 2 (-1) 0] (V3 1 0 1)) [Comp (ex_part 9 9) []]; Other]]; Other;
   Box [Comp (ex_part 0 50) []]].
Example C33_case : sum_mass ex_tree = 4 /\ sum_mass ex_tree <> 0 /\ Forall (fun p => 0 <= p_mass p) (counted ex_tree) /\
  balances (counted ex_tree) (V3 (3 / 2) 0 (1 / 4)) /\
  Permutation (counted ex_tree) (counted [Box [Comp (ex_part 0 50) []];
    Box [Comp (Part 1 [V3 2 1 0; V3 2 (-1) 0] (V3 1 0 1)) []; Comp (ex_part 3 1) []]]) /\
  Forall2 (moved (V3 1 1 1)) [ex_part 1 2] [Part 1 [V3 3 1 1] (V3 0 0 0)].
Proof.
  assert (E : sum_mass ex_tree = 4) by (rewrite sum_mass_counted; unfold mass_of; cbn; lra).
  split; [exact E|]. split; [lra|]. split.
  { cbn. repeat constructor; cbn; lra. }
  split.
  { intros f C. destruct C; unfold at_coordinate; cbn; lra. }
  split.
  { cbn. match goal with |- Permutation [?a; ?b; ?c] _ => apply (Permutation_trans (l' := [c; a; b])) end.
    - apply Permutation_sym. etransitivity; [apply perm_swap|]. constructor. apply perm_swap.
    - constructor. apply perm_swap. }
  repeat constructor; unfold at_coordinate; cbn; intros; destruct H; cbn; lra.
Qed.

(** ** C34: placing the components *)
(** one network, its energy components and itself at one origin each: the propulsion centre of
    gravity is their centre of gravity *)
Theorem C34_single : forall n x, Forall one_origin (network_parts n) -> mass_of (network_parts n) <> 0 ->
  (balances (network_parts n) x <-> x = propulsion_cg [n]).
Proof. exact propulsion_single. Qed.
(** any number of networks: the moment is too large by each network's location times the mass of
    all networks before it *)
Theorem C34_error : forall l f, coordinate f -> Forall (fun n => Forall one_origin (network_parts n)) l ->
  let parts := flat_map network_parts l in
  mass_of parts <> 0 ->
  f (propulsion_cg l) * mass_of parts
  = summed (fun p => p_mass p * at_coordinate f p) parts + earlier_mass_moment f 0 l.
Proof. intros l f C H. exact (propulsion_error l f C H). Qed.
(** so two equal networks at x = 1 have their centre of gravity at x = 3/2 *)
Theorem C34_networks_refuted : exists n, Forall one_origin (network_parts n) /\
  at_coordinate vx (network_part n) = 1 /\ vx (propulsion_cg [n; n]) = 3 / 2.
Proof.
  exists (Network (ex_part 1 1) 0 []).
  assert (O : Forall one_origin (network_parts (Network (ex_part 1 1) 0 [])))
    by (repeat constructor; eexists; reflexivity).
  split; [exact O|]. split; [unfold at_coordinate; cbn; lra|].
  pose proof (propulsion_error [Network (ex_part 1 1) 0 []; Network (ex_part 1 1) 0 []] vx c_x
    (Forall_cons _ O (Forall_cons _ O (Forall_nil _)))) as E.
  set (x := vx (propulsion_cg _)) in *.
  unfold mass_of, moment_in, at_coordinate in E. cbn [flat_map network_parts app summed nw_energy nw_part] in E.
  cbn in E. unfold mass_of, at_coordinate in E. cbn in E. specialize (E ltac:(lra)). lra.
Qed.
(** and a network with several origins is put at their sum instead of their mean *)
Theorem C34_origins_refuted : forall n f, coordinate f -> nw_energy n = [] -> p_mass (nw_part n) <> 0 ->
  p_origin (nw_part n) <> [] ->
  f (propulsion_cg [n]) - at_coordinate f (network_part n)
  = (1 - 1 / INR (List.length (p_origin (nw_part n)))) * summed f (p_origin (nw_part n)).
Proof.
  intros n f C He Hm Ho. rewrite (propulsion_bare n f C He Hm). unfold at_coordinate. cbn [network_part p_origin].
  field. apply not_0_INR. destruct (p_origin (nw_part n)); [congruence|cbn; lia].
Qed.
(** the length scale is the longest fuselage, but at least 1 *)
Theorem C34_longest : forall v L N, v_fuselages v <> [] -> scales v = (L, N) -> longest (v_fuselages v) L N.
Proof. exact scales_longest. Qed.
(** systems, payload and nose gear are put at fixed fractions of it; nothing else about them changes *)
Theorem C34_positions : forall v nl v', place v nl = Some v' -> v_fuselages v <> [] ->
  Forall one_origin (all_systems (v_systems v)) ->
  let s := v_systems v in let s' := v_systems v' in
  exists L N, longest (v_fuselages v) L N /\
  at_coordinate vx (avionics s') = 4 / 10 * N /\ at_coordinate vx (furnishings s') = 51 / 100 * L /\
  at_coordinate vx (apu s') = 9 / 10 * L /\ at_coordinate vx (passengers s') = 51 / 100 * L /\
  at_coordinate vx (baggage s') = 51 / 100 * L /\ at_coordinate vx (cargo s') = 51 / 100 * L /\
  at_coordinate vx (air_conditioner s') = N /\ at_coordinate vx (optionals s') = 51 / 100 * L /\
  at_coordinate vx (nose_gear s') = 25 / 100 * N /\
  at_coordinate vx (electrical_systems s') = 3 / 8 * L + vx (propulsion_cg (v_networks v)) / 4 /\
  Forall2 only_x
    [avionics s; furnishings s; apu s; passengers s; baggage s; cargo s; air_conditioner s; optionals s; nose_gear s;
     electrical_systems s; control_systems s; hydraulics s]
    [avionics s'; furnishings s'; apu s'; passengers s'; baggage s'; cargo s'; air_conditioner s'; optionals s'; nose_gear s';
     electrical_systems s'; control_systems s'; hydraulics s'].
Proof.
  intros v nl v' H Hf O s s'. destruct (place_inv _ _ _ H) as (L & N & P). destruct P.
  destruct pl_main as (main & o & r & lastw & ws & M1 & M2 & M3 & M4 & M5 & M6).
  exists L, N. split; [now apply scales_longest|]. subst s s'. unfold all_systems in O.
  repeat match goal with O : Forall one_origin (_ :: _) |- _ => inversion O; clear O; subst end.
  repeat match goal with
         | E : put_both ?x ?c ?p = Some ?q, Op : one_origin ?p |- _ =>
             destruct (put_both_x x c p q E Op); clear E
         end.
  repeat (split; [lra|]). repeat (apply Forall2_cons; [assumption|]). apply Forall2_nil.
Qed.
(** fuel, control systems and hydraulics go with the wing tagged main_wing; the hydraulics take
    the centre of gravity of the wing appended last *)
Theorem C34_main : forall v nl v', place v nl = Some v' -> Forall one_origin (all_systems (v_systems v)) ->
  let s' := v_systems v' in
  exists main o lastw L N, In main (v_wings v') /\ cw_tag main = "main_wing"%string /\
    hd_error (p_origin (cw_part main)) = Some o /\ (exists ws, v_wings v' = ws ++ [lastw]) /\ scales v = (L, N) /\
    at_coordinate vx (fuel s') = vx o + vx (p_cg (cw_part main)) /\
    at_coordinate vx (control_systems s') = vx o + vx (p_cg (cw_part main)) + cw_mac main / 10 /\
    at_coordinate vx (hydraulics s') = 3 / 4 * (vx o + vx (p_cg (cw_part lastw))) + 95 / 400 * L.
Proof.
  intros v nl v' H O s'. destruct (place_inv _ _ _ H) as (L & N & P). destruct P.
  destruct pl_main as (main & o & r & lastw & ws & M1 & M2 & M3 & M4 & M5 & M6).
  unfold all_systems in O. repeat match goal with O : Forall one_origin (_ :: _) |- _ => inversion O; clear O; subst end.
  exists main, o, (place_wing lastw), L, N. unfold find_main in M1. apply find_some in M1. destruct M1 as [I T].
  rewrite pl_wings. split; [exact I|]. split; [now apply String.eqb_eq|]. split; [now rewrite M2|].
  split; [exists (map place_wing ws); rewrite M3, map_app; reflexivity|]. split; [exact pl_scales|].
  repeat split.
  - assert (Of : one_origin (put_cg (p_cg (cw_part main)) (fuel (v_systems v)))).
    { match goal with X : one_origin (fuel _) |- _ => destruct X as [oo E]; exists oo; exact E end. }
    destruct Of as [of Ef]. destruct (put_origin_inv _ _ _ M4) as (o1 & r1 & E1 & E2). unfold s'. rewrite E2.
    rewrite Ef in E1. injection E1 as <- <-. unfold at_coordinate. cbn. lra.
  - destruct (put_both_x _ _ _ _ M5 ltac:(assumption)) as [E _]. unfold s'. rewrite E. lra.
  - destruct (put_both_x _ _ _ _ M6 ltac:(assumption)) as [E _]. unfold s'. rewrite E. lra.
Qed.
(** the chord a fraction [eta] of the way from root to tip *)
Definition chord_on (w : cg_wing) (eta : R) : R := cw_root w + eta * (cw_tip w - cw_root w).
(** the longitudinal centre of gravity of each class of wing *)
Definition wing_cg_rule (w w' : cg_wing) : Prop :=
  let x := vx (p_cg (cw_part w')) in
  p_mass (cw_part w') = p_mass (cw_part w) /\ p_origin (cw_part w') = p_origin (cw_part w) /\
  vy (p_cg (cw_part w')) = vy (p_cg (cw_part w)) /\ vz (p_cg (cw_part w')) = vz (p_cg (cw_part w)) /\
  match cw_class w with
  | Main_wing => x = cw_center_x w + cw_mac w / 20
  | Horizontal_tail => x = 3 / 10 * chord_on w (35 / 100) + tan (cw_quarter w) * (35 / 100 * (cw_span w / 2))
  | Vertical_tail => x = 3 / 10 * chord_on w (7 / 10) + tan (cw_quarter w) * (35 / 100 * (cw_span w / 2))
  | Other_wing =>
      cw_root w <> cw_tip w -> exists eta le, chord_on w eta = cw_mac w /\
        x = 3 / 10 * cw_mac w + tan le * (eta * (cw_span w / 2)) /\
        match cw_leading w with
        | Some s => le = s
        | None => tan le = tan (cw_quarter w) + (1 - cw_taper w) / (cw_ar w * (1 + cw_taper w))
        end
  end.
Theorem C34_wings : forall v nl v', place v nl = Some v' -> Forall (fun w => cw_span w <> 0) (v_wings v) ->
  Forall2 wing_cg_rule (v_wings v) (v_wings v').
Proof.
  intros v nl v' H S. destruct (place_inv _ _ _ H) as (L & N & P). rewrite (pl_wings _ _ _ _ _ P). clear - S.
  induction S as [|w l S _ IH]; constructor; [clear IH|exact IH]. unfold wing_cg_rule, place_wing, chord_on.
  cbn [cw_part p_cg put_cg_x with_x vx vy vz p_mass p_origin]. repeat (split; [reflexivity|]).
  destruct (cw_class w).
  - lra.
  - unfold chord_at. field. exact S.
  - unfold chord_at. field. exact S.
  - intro D. unfold span_at. destruct (Req_EM_T (cw_root w - cw_tip w) 0); [lra|].
    exists (1 - (cw_mac w - cw_tip w) / (cw_root w - cw_tip w)),
      (match cw_leading w with Some s => s | None => quarter_to_leading (cw_quarter w) (cw_taper w) (cw_ar w) end).
    split; [field; lra|]. split; [field; lra|].
    destruct (cw_leading w); [reflexivity|]. rewrite tan_quarter.
    replace (4 * (1 / 4) * (1 - cw_taper w)) with (1 - cw_taper w) by lra. reflexivity.
Qed.
(** the vertical tail's chord is taken at 70% instead of 35% of its span *)
Theorem C34_vertical_refuted : forall w, cw_class w = Vertical_tail -> cw_span w <> 0 -> cw_root w <> cw_tip w ->
  vx (p_cg (cw_part (place_wing w)))
  <> 3 / 10 * chord_on w (35 / 100) + tan (cw_quarter w) * (35 / 100 * (cw_span w / 2)).
Proof.
  intros w C S D. unfold place_wing. rewrite C. cbn [cw_part p_cg put_cg_x with_x vx].
  unfold chord_at, chord_on. intro E.
  assert (X : 3 / 10 * (cw_tip w + (cw_root w - cw_tip w) / (cw_span w / 2) * (cw_span w / 2 - 35 / 100 * cw_span w))
    = 3 / 10 * (cw_tip w + 3 / 10 * (cw_root w - cw_tip w))) by (field; exact S).
  rewrite X in E. lra.
Qed.
(** no mass changes *)
Theorem C34_mass_kept : forall v nl v', place v nl = Some v' ->
  sum_mass (attributes v') = sum_mass (attributes v).
Proof. exact place_mass. Qed.
(** the main gear carries all but the nose-load share of the moment of the recorded centre of
    gravity, when the take-off mass is the sum of the masses; but that is the centre of gravity
    with the gear where it was before *)
Theorem C34_gear : forall v nl v', place v nl = Some v' -> one_origin (main_gear (v_systems v)) ->
  sum_mass (attributes v) <> 0 -> v_takeoff v = sum_mass (attributes v) ->
  v_takeoff v <> p_mass (main_gear (v_systems v)) -> nl <> 1 ->
  at_coordinate vx (main_gear (v_systems v')) * (1 - nl) = vx (v_cg v') /\
  forall w, same_but_gear v' w -> main_gear (v_systems w) = main_gear (v_systems v) ->
    v_cg v' = center_of_gravity (attributes w).
Proof.
  intros v nl v' H O S T D Hn. destruct (gear_facts _ _ _ H O S) as (_ & _ & A & B). split.
  - rewrite B, <- T. field. split; lra.
  - intros w W G. pose proof (place_mass _ _ _ H) as PM.
    assert (M : sum_mass (attributes w) = sum_mass (attributes v)).
    { rewrite (sum_mass_parts w), G, (same_rest _ _ W), <- PM, sum_mass_parts, (gear_mass _ _ _ H). reflexivity. }
    apply coord_ext. intros f C. apply Rmult_eq_reg_r with (sum_mass (attributes v)); [|exact S].
    rewrite (A f C). rewrite <- M at 1. rewrite sum_mass_counted, cg_coord by (try exact C; congruence).
    rewrite (summed_perm _ _ _ (attributes_parts w)). cbn [summed]. rewrite G, (same_rest _ _ W).
    unfold moment_in. lra.
Qed.
(** placing again changes only the main gear ... *)
Theorem C34_again : forall v nl v', place v nl = Some v' ->
  exists v'', place v' nl = Some v'' /\ same_but_gear v' v''.
Proof. exact place_again. Qed.
(** ... which moves again, in geometric steps *)
Theorem C34_drift : forall v nl v1 v2, place v nl = Some v1 -> place v1 nl = Some v2 ->
  one_origin (main_gear (v_systems v)) -> sum_mass (attributes v) <> 0 ->
  v_takeoff v = sum_mass (attributes v) -> v_takeoff v <> p_mass (main_gear (v_systems v)) -> nl <> 1 ->
  let x u := at_coordinate vx (main_gear (v_systems u)) in
  x v2 - x v1 = p_mass (main_gear (v_systems v)) / (v_takeoff v * (1 - nl)) * (x v1 - x v).
Proof. exact gear_drift. Qed.
Theorem C34_again_refuted : forall v nl v1 v2, place v nl = Some v1 -> place v1 nl = Some v2 ->
  one_origin (main_gear (v_systems v)) -> sum_mass (attributes v) <> 0 ->
  v_takeoff v = sum_mass (attributes v) -> v_takeoff v <> p_mass (main_gear (v_systems v)) -> nl <> 1 ->
  let x u := at_coordinate vx (main_gear (v_systems u)) in
  p_mass (main_gear (v_systems v)) <> 0 -> x v1 <> x v -> x v2 <> x v1.
Proof.
  intros v nl v1 v2 H1 H2 O S T D Hn x G X E.
  pose proof (gear_drift _ _ _ _ H1 H2 O S T D Hn) as K. cbv zeta in K. unfold x in *.
  rewrite E in K.
  match type of K with _ = ?r => assert (Z : r = 0) by lra end.
  apply Rmult_integral in Z. destruct Z as [Z|Z]; [|lra].
  apply Rmult_integral in Z. destruct Z as [Z|Z]; [contradiction|].
  revert Z. apply Rinv_neq_0_compat. apply Rmult_integral_contrapositive. split; [congruence|lra].
Qed.

Definition ex_systems : systems :=
  Systems (ex_part 1 0) (ex_part 1 0) (ex_part 1 0) (ex_part 1 0) (ex_part 1 0) (ex_part 1 0) (ex_part 1 0)
    (ex_part 1 0) (ex_part 1 0) (ex_part 1 0) (ex_part 1 0) (ex_part 1 0) (ex_part 4 0) (ex_part 1 0).
Definition ex_wing (tag : string) (c : wing_class) : cg_wing :=
  Cg_wing tag c (ex_part 1 5) 2 1 20 3 1 (1 / 3) 10 None 0.
Definition ex_vehicle : vehicle :=
  Vehicle [ex_wing "main_wing" Main_wing; ex_wing "fin" Vertical_tail; ex_wing "canard" Other_wing]
    [Network (ex_part 2 4) 3 [ex_part 1 6]] [Fuselage (ex_part 4 0) 20 3] ex_systems 26 [Other] (V3 0 0 0).
Example C34_case : (exists v1 v2, place ex_vehicle (6 / 100) = Some v1 /\ place v1 (6 / 100) = Some v2) /\
  Forall one_origin (all_systems (v_systems ex_vehicle)) /\ one_origin (main_gear (v_systems ex_vehicle)) /\
  sum_mass (attributes ex_vehicle) <> 0 /\ v_takeoff ex_vehicle = sum_mass (attributes ex_vehicle) /\
  v_takeoff ex_vehicle <> p_mass (main_gear (v_systems ex_vehicle)) /\ v_fuselages ex_vehicle <> [] /\
  Forall (fun w => cw_span w <> 0) (v_wings ex_vehicle) /\
  Forall (fun n => Forall one_origin (network_parts n)) (v_networks ex_vehicle) /\
  mass_of (flat_map network_parts (v_networks ex_vehicle)) <> 0.
Proof.
  assert (M : sum_mass (attributes ex_vehicle) = 26) by (rewrite sum_mass_counted; unfold mass_of; cbn; lra).
  split.
  { assert (E : exists v1, place ex_vehicle (6 / 100) = Some v1).
    { unfold place. destruct (scales ex_vehicle) as [L N]. cbn. eexists. reflexivity. }
    destruct E as [v1 E]. destruct (place_again _ _ _ E) as (v2 & E2 & _). eauto. }
  split; [repeat constructor; eexists; reflexivity|]. split; [eexists; reflexivity|].
  split; [lra|]. split; [cbn [v_takeoff ex_vehicle]; lra|]. split; [cbn; lra|]. split; [discriminate|].
  split; [repeat constructor; cbn; lra|]. split; [repeat constructor; eexists; reflexivity|].
  unfold mass_of. cbn. lra.
Qed.
(** a vehicle whose gear does move *)
Definition ex_light : vehicle :=
  let z := ex_part 0 0 in
  Vehicle [Cg_wing "main_wing" Main_wing z 2 1 20 3 1 (1 / 3) 10 None 0] [] [Fuselage z 20 3]
    (Systems z z z z z z z z z z z z (ex_part 4 0) z) 26 [Box [Comp (ex_part 22 13) []]] (V3 0 0 0).
Example C34_drift_case : forall v1, place ex_light (6 / 100) = Some v1 ->
  at_coordinate vx (main_gear (v_systems v1)) <> at_coordinate vx (main_gear (v_systems ex_light)).
Proof.
  intros v1 H.
  assert (Og : one_origin (main_gear (v_systems ex_light))) by (eexists; reflexivity).
  assert (M : sum_mass (attributes ex_light) = 26) by (rewrite sum_mass_counted; unfold mass_of; cbn; lra).
  destruct (gear_facts _ _ _ H Og ltac:(lra)) as (_ & _ & A & B). specialize (A vx c_x). rewrite M in *.
  destruct (place_inv _ _ _ H) as (L & N & P). destruct P.
  destruct pl_main as (main & o & r & lastw & ws & M1 & M2 & M3 & M4 & M5 & M6).
  assert (Z : forall p q, p_mass q = p_mass p -> p_mass p = 0 -> forall x, p_mass q * x = 0) by (intros p q -> -> x; ring).
  unfold moment_in, rest_parts in A. rewrite pl_wings, pl_networks, pl_fuselages, pl_others in A.
  rewrite !summed_app in A. cbn [map summed v_wings v_networks v_fuselages v_others ex_light] in A.
  rewrite (Z _ _ (put_both_mass _ _ _ _ pl_avionics) eq_refl), (Z _ _ (put_both_mass _ _ _ _ pl_furnishings) eq_refl),
    (Z _ _ (put_both_mass _ _ _ _ pl_apu) eq_refl), (Z _ _ (put_both_mass _ _ _ _ pl_passengers) eq_refl),
    (Z _ _ (put_both_mass _ _ _ _ pl_baggage) eq_refl), (Z _ _ (put_both_mass _ _ _ _ pl_cargo) eq_refl),
    (Z _ _ (put_both_mass _ _ _ _ pl_air) eq_refl), (Z _ _ (put_both_mass _ _ _ _ pl_optionals) eq_refl),
    (Z _ _ (put_origin_mass _ _ _ M4) eq_refl), (Z _ _ (put_both_mass _ _ _ _ M5) eq_refl),
    (Z _ _ (put_both_mass _ _ _ _ pl_electrical) eq_refl), (Z _ _ (put_both_mass _ _ _ _ M6) eq_refl),
    (Z _ _ (put_both_mass _ _ _ _ pl_nose) eq_refl) in A.
  cbn in A, B. unfold at_coordinate in A at 1 2 3 4. cbn in A. rewrite B.
  unfold at_coordinate. cbn. lra.
Qed.

(** ** C35: the range of the fuel's centre of gravity *)
(** for every listed fuel mass the two values are the least and the greatest centre of gravity
    among all ways of filling the tanks with that mass, and both occur *)
Theorem C35_range : forall wing_tanks fuselage_tanks m lo hi,
  In (m, lo, hi) (fuel_range wing_tanks fuselage_tanks) ->
  let tanks := List.concat wing_tanks ++ List.concat fuselage_tanks in
  Forall (fun t => 0 <= t_full t) tanks -> 1 / 1000000 <= summed t_full tanks ->
  (forall d, loading tanks d -> loaded d = m -> lo <= loading_cg d <= hi) /\
  (exists d, loading tanks d /\ loaded d = m /\ loading_cg d = lo) /\
  (exists d, loading tanks d /\ loaded d = m /\ loading_cg d = hi).
Proof. exact fuel_range_row. Qed.
(** the fuel masses are fifty, evenly spaced, from a millionth of a kilogram to full tanks *)
Theorem C35_masses : forall wing_tanks fuselage_tanks,
  let tanks := List.concat wing_tanks ++ List.concat fuselage_tanks in
  let rows := fuel_range wing_tanks fuselage_tanks in
  List.length rows = 50%nat /\
  forall k, (k < 50)%nat -> exists lo hi, nth_error rows k
    = Some (1 / 1000000 + INR k / 49 * (summed t_full tanks - 1 / 1000000), lo, hi).
Proof.
  intros wt ft tanks rows. split; [reflexivity|]. intros k Hk. unfold rows, fuel_range. fold tanks. cbv zeta.
  rewrite fold_summed, Rplus_0_l. rewrite <- (summed_perm t_full _ _ (sort_perm tanks)).
  unfold fuel_masses. rewrite map_map.
  rewrite (map_nth_error _ k (seq 0 50) (d := k)).
  2:{ rewrite (nth_error_nth' _ 0%nat) by (rewrite seq_length; exact Hk). now rewrite seq_nth. }
  do 2 eexists. f_equal. f_equal. f_equal. unfold Rdiv. ring.
Qed.
(** so with full tanks both are the centre of gravity of the full tanks *)
Theorem C35_full : forall wing_tanks fuselage_tanks lo hi,
  let tanks := List.concat wing_tanks ++ List.concat fuselage_tanks in
  Forall (fun t => 0 <= t_full t) tanks -> 1 / 1000000 <= summed t_full tanks ->
  In (summed t_full tanks, lo, hi) (fuel_range wing_tanks fuselage_tanks) ->
  lo * summed t_full tanks = summed (fun t => t_cg t * t_full t) tanks /\ hi = lo.
Proof.
  intros wt ft lo hi tanks P C I. destruct (fuel_range_row _ _ _ _ _ I P C) as (_ & L & H).
  fold tanks in L, H. clearbody tanks. clear I.
  assert (F : forall d, loading tanks d -> loaded d = summed t_full tanks ->
    loading_cg d * summed t_full tanks = summed (fun t => t_cg t * t_full t) tanks).
  { intros d D E. pose proof E as E0. unfold loading_cg. rewrite E0. destruct D as [D1 D2]. subst tanks. clear - D2 E C.
    unfold loaded in E.
    assert (K : Forall (fun q => snd q = t_full (fst q)) d).
    { assert (G : forall d : list (tank * R), Forall (fun q => 0 <= snd q <= t_full (fst q)) d -> summed snd d = summed t_full (map fst d) ->
        Forall (fun q => snd q = t_full (fst q)) d).
      { clear. induction 1 as [|q d H D IH]; cbn; intro E; [constructor|].
        assert (X : summed snd d <= summed t_full (map fst d)).
        { rewrite summed_map. apply summed_le. rewrite Forall_forall in *. intros y I. specialize (D y I). lra. }
        constructor; [lra|apply IH; lra]. }
      now apply G. }
    rewrite summed_map. rewrite (summed_ext (fun q => t_cg (fst q) * snd q) (fun q => t_cg (fst q) * t_full (fst q))).
    - rewrite summed_map in C |- *. field. lra.
    - rewrite Forall_forall in *. intros q J. now rewrite (K q J). }
  destruct L as (d1 & D1 & E1 & <-). destruct H as (d2 & D2 & E2 & <-).
  split; [now apply F|]. apply Rmult_eq_reg_r with (summed t_full tanks); [|lra]. now rewrite !F.
Qed.
(** compute_mission_center_of_gravity balances the zero-fuel mass and the fuel *)
Theorem C35_mission : forall zc fc fo zm fm x, fm + zm <> 0 ->
  (balances [Part zm [zc] (V3 0 0 0); Part fm [fo] fc] x <-> x = mission_cg zc fc fo zm fm).
Proof.
  intros zc fc fo zm fm x H. pose proof (cg_balances [Box [Comp (Part zm [zc] (V3 0 0 0)) []; Comp (Part fm [fo] fc) []]] x) as B.
  assert (M : sum_mass [Box [Comp (Part zm [zc] (V3 0 0 0)) []; Comp (Part fm [fo] fc) []]] = fm + zm)
    by (rewrite sum_mass_counted; unfold mass_of; cbn; lra).
  rewrite M in B. specialize (B H). cbn [counted flat_map leaves app] in B. rewrite B.
  assert (E : center_of_gravity [Box [Comp (Part zm [zc] (V3 0 0 0)) []; Comp (Part fm [fo] fc) []]] = mission_cg zc fc fo zm fm).
  { unfold center_of_gravity. rewrite M. destruct (Req_EM_T (fm + zm) 0); [contradiction|]. unfold mission_cg. f_equal.
    apply coord_ext. intros f Cf. rewrite total_moment_counted by exact Cf. unfold at_coordinate. cbn.
    rewrite coord_plus, !coord_times, coord_plus by exact Cf. destruct Cf; cbn; field. }
  rewrite E. reflexivity.
Qed.
Example C35_case : let tanks := [[Tank 5 10; Tank 3 20]; [Tank 9 5]] in
  Forall (fun t => 0 <= t_full t) (List.concat tanks ++ List.concat [[Tank 1 7]]) /\
  1 / 1000000 <= summed t_full (List.concat tanks ++ List.concat [[Tank 1 7]]) /\
  loading [Tank 5 10; Tank 3 20] [(Tank 5 10, 4); (Tank 3 20, 1)] /\
  sort_tanks [Tank 5 10; Tank 3 20; Tank 9 5] = [Tank 3 20; Tank 5 10; Tank 9 5].
Proof.
  cbn [List.concat app]. split; [repeat constructor; cbn; lra|]. split; [cbn; lra|].
  split; [split; [reflexivity|repeat constructor; cbn; lra]|].
  assert (T : forall x y, x < y -> Rltb x y = true) by (intros; now apply Rltb_true).
  assert (U : forall x y, y <= x -> Rltb x y = false) by (intros; apply Rltb_false; lra).
  cbn. rewrite (U 9 3) by lra. cbn. rewrite (T 3 5) by lra. cbn. rewrite (U 9 5) by lra. reflexivity.
Qed.
Print Assumptions C33_mass.
Print Assumptions C33_cg.
Print Assumptions C33_hull.
Print Assumptions C33_order.
Print Assumptions C33_lump.
Print Assumptions C33_moved.
Print Assumptions C33_massless.
Print Assumptions C33_cancelled.
Print Assumptions C33_inside_refuted.
Print Assumptions C33_loose_refuted.
Print Assumptions C34_single.
Print Assumptions C34_error.
Print Assumptions C34_networks_refuted.
Print Assumptions C34_origins_refuted.
Print Assumptions C34_longest.
Print Assumptions C34_positions.
Print Assumptions C34_main.
Print Assumptions C34_wings.
Print Assumptions C34_vertical_refuted.
Print Assumptions C34_mass_kept.
Print Assumptions C34_gear.
Print Assumptions C34_again.
Print Assumptions C34_drift.
Print Assumptions C34_again_refuted.
Print Assumptions C35_range.
Print Assumptions C35_masses.
Print Assumptions C35_full.
Print Assumptions C35_mission.
