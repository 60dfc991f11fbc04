(** * Costs: C140-C141 *)
From Coq Require Import Reals List Bool Arith String Lra Lia Psatz.
From Verif Require Import PyBase M_Opt M_Drag M_Field M_Costs S_Costs P_Opt P_Field P_Super P_Costs.
Import ListNotations.
Local Open Scope R_scope.
Local Open Scope list_scope.

(** ** C140 *)
Lemma ok4 {A B C D} (a a' : A) (b b' : B) (c c' : C) (d d' : D) : Ok (a, b, c, d) = Ok (a', b', c', d') -> a = a' /\ b = b' /\ c = c' /\ d = d'.
Proof. intro E. inversion E. auto. Qed.
(** the totals are the sums of the items, and the unit cost shares them out; other types of aircraft raise UnboundLocalError *)
Theorem C140_statement p : (In (p_type p) known_types <-> exists r, industrial_costs p = Ok r) /\ (~ In (p_type p) known_types <-> industrial_costs p = Err UnboundLocalError) /\
  (forall u o e c, industrial_costs p = Ok (u, o, e, c) -> o_total o = sum (items o) /\ e_total e = sum (unit_items e) /\ (0 < p_units p -> 0 < amortized p -> u * p_units p * amortized p = e_total e * amortized p + o_total o * p_units p)).
Proof.
  assert (K : (In (p_type p) known_types /\ exists x, interior_index (p_type p) = Ok x) \/ (~ In (p_type p) known_types /\ interior_index (p_type p) = Err UnboundLocalError)).
  { unfold interior_index, known_types. repeat (match goal with |- context [String.eqb ?t ?k] => destruct (String.eqb_spec t k) as [E|?] end; [left; split; [rewrite E; cbn; tauto|eexists; reflexivity]|]). right. split; [cbn; intuition congruence|reflexivity]. }
  unfold industrial_costs. split; [|split].
  - destruct K as [[I [x X]]|[N X]]; rewrite X; cbn [bind]; [split; [eexists; reflexivity|intros _; exact I]|split; [intro I; contradiction|intros [r R]; discriminate R]].
  - destruct K as [[I [x X]]|[N X]]; rewrite X; cbn [bind]; [split; [intro I'; contradiction|discriminate]|split; [reflexivity|intros _; exact N]].
  - intros u o e c. destruct K as [[I [x X]]|[N X]]; rewrite X; cbn [bind]; [|discriminate]. intro E. apply ok4 in E. destruct E as (<- & <- & <- & _). split; [cbn; ring|]. split; [cbn; ring|]. intros U A. field. split; lra.
Qed.
(** development is shared out over the number asked for, and over the units built when none (or zero) is *)
Theorem C140_shared p u o e c : industrial_costs p = Ok (u, o, e, c) ->
  (p_amortize p = None \/ p_amortize p = Some 0 -> u = e_total e / p_units p + o_total o / p_units p) /\ (forall k, p_amortize p = Some k -> k <> 0 -> u = e_total e / p_units p + o_total o / k).
Proof.
  intro E. unfold industrial_costs in E. destruct (interior_index (p_type p)); cbn [bind] in E; [|discriminate]. apply ok4 in E. destruct E as (<- & <- & <- & _). unfold amortized. split.
  - intros [H|H]; rewrite H; [reflexivity|]. destruct (Req_EM_T 0 0); [reflexivity|congruence].
  - intros k H K. rewrite H. destruct (Req_EM_T k 0); [contradiction|reflexivity].
Qed.
Definition p1 : program := {| p_year := 2004; p_units := 500; p_amortize := None; p_prototypes := 9; p_years := 5; p_type := "commercial"; p_avionics := 2500000; p_test := 0; p_plant := 1000; p_diff := 175 / 100; p_cad := 12 / 10; p_stealth := 0; p_material := 1;
  p_weight := 326000; p_engines := 2; p_thrust := 110000; p_pax := 250; p_mach := 89 / 100 |}.
Example C140_case : In (p_type p1) known_types /\ sane p1 /\ amortized p1 = 500.
Proof. split; [cbn; tauto|]. split; [constructor; cbn; lra|reflexivity]. Qed.
Ltac nn := match goal with
  | |- 0 <= _ * _ => apply Rmult_le_pos; nn
  | |- 0 <= pw _ _ => apply pw_nonneg
  | |- 0 <= Rpower _ _ => left; apply exp_pos
  | |- 0 <= dollars _ => left; apply dollars_pos
  | |- _ => lra end.
Lemma ampr_nonneg p : sane p -> 0 <= ampr p. Proof. intros []. unfold ampr. lra. Qed.
Lemma keas_nonneg p : sane p -> 0 <= keas p. Proof. intros []. unfold keas. lra. Qed.
Lemma rates p : 1967 <= p_year p -> let r := hourly_rates (p_year p) in 0 < h_engineering r /\ 0 < h_tooling r /\ 0 < h_manufacturing r /\ 0 < h_quality r.
Proof. intro Y. cbn. lra. Qed.
Lemma pw_more n m a : 0 < a -> n <= m -> pw n a <= pw m a.
Proof. intros A L. apply pw_mono; assumption. Qed.
(** hours and material as a rate times a power of the number built *)
Definition eng_rate p := 396 / 10000 * pw (ampr p) (791 / 1000) * pw (keas p) (1526 / 1000) * p_diff p * p_cad p.
Definition lab_rate p := 28984 / 1000 * pw (ampr p) (74 / 100) * pw (keas p) (543 / 1000) * p_diff p.
Definition mat_rate p := 2 * (37632 / 1000) * p_material p * pw (ampr p) (689 / 1000) * pw (keas p) (624 / 1000) * dollars p.
Definition tool_rate p := 40127 / 10000 * pw (ampr p) (764 / 1000) * pw (keas p) (899 / 1000) * Rpower (33 / 100) (66 / 1000) * p_diff p.
Lemma eng_eq p n : engineering_hours p n = eng_rate p * pw n (183 / 1000). Proof. unfold engineering_hours, eng_rate. ring. Qed.
Lemma lab_eq p n : labor_hours p n = lab_rate p * pw n (524 / 1000). Proof. unfold labor_hours, lab_rate. ring. Qed.
Lemma mat_eq p n : material_cost p n = mat_rate p * pw n (792 / 1000). Proof. unfold material_cost, mat_rate. ring. Qed.
Lemma tool_eq p n : tooling_hours p n = tool_rate p * pw n (178 / 1000). Proof. unfold tooling_hours, tool_rate. ring. Qed.
Lemma rates_nonneg p : sane p -> 0 <= eng_rate p /\ 0 <= lab_rate p /\ 0 <= mat_rate p /\ 0 <= tool_rate p /\ 0 <= engine_cost p.
Proof. intros []. unfold eng_rate, lab_rate, mat_rate, tool_rate, engine_cost. repeat split; nn. Qed.
Lemma gap_nonneg k n m a : 0 <= k -> 0 < a -> n <= m -> 0 <= k * pw m a - k * pw n a.
Proof. intros K A L. pose proof (pw_more n m a A L). nra. Qed.
Lemma index_nonneg t k : interior_index t = Ok k -> 0 <= k.
Proof. intro X. unfold interior_index in X. repeat match goal with H : (if ?b then _ else _) = Ok _ |- _ => destruct b; [injection H as <-; lra|] end. discriminate. Qed.
(** every item is positive or nil *)
Theorem C140_nonneg p : sane p -> Forall (fun x => 0 <= x) (items (non_recurring p)) /\ (forall k, interior_index (p_type p) = Ok k -> Forall (fun x => 0 <= x) (unit_items (recurring p k))).
Proof.
  intro S. pose proof (rates p (n_year p S)) as (R1 & R2 & R3 & R4). pose proof (rates_nonneg p S) as (E & L & M & T & C). destruct S. set (r := hourly_rates (p_year p)) in *. split.
  - unfold items, non_recurring. cbn [o_engineering o_support o_test o_engines o_avionics o_tooling o_tooling_production o_labor o_material o_quality o_test_facilities o_plant]. fold r. rewrite !eng_eq, !lab_eq, !mat_eq, !tool_eq.
    repeat (apply Forall_cons; [try solve [nn]|]); [|apply Forall_nil]. pose proof (gap_nonneg (tool_rate p) (p_prototypes p) (p_units p) (178 / 1000) T ltac:(lra) ltac:(lra)). nra.
  - intros k K. pose proof (index_nonneg _ _ K) as KP.
    unfold unit_items, recurring. cbn [e_engineering e_interior e_labor e_material e_quality e_engines e_avionics]. fold r. rewrite !eng_eq, !lab_eq, !mat_eq.
    pose proof (gap_nonneg (eng_rate p) (p_prototypes p) (p_prototypes p + p_units p) (183 / 1000) E ltac:(lra) ltac:(lra)). pose proof (gap_nonneg (lab_rate p) (p_prototypes p) (p_units p) (524 / 1000) L ltac:(lra) ltac:(lra)). pose proof (gap_nonneg (mat_rate p) (p_prototypes p) (p_units p) (792 / 1000) M ltac:(lra) ltac:(lra)).
    assert (0 <= eng_rate p * pw (p_prototypes p + p_units p) (183 / 1000)) by nn. assert (0 <= lab_rate p * pw (p_units p) (524 / 1000)) by nn.
    apply Forall_cons; [nra|]. apply Forall_cons; [nn|]. apply Forall_cons; [nra|]. apply Forall_cons; [lra|]. apply Forall_cons; [nn|]. apply Forall_cons; [nn|]. apply Forall_cons; [nn|apply Forall_nil].
Qed.
(** a programme that is nowhere smaller (weight, Mach number, thrust, engines, passengers, factors, bought items) costs no less per aircraft *)
Ltac mm := match goal with
  | |- ?a <= ?a => apply Rle_refl
  | |- _ * _ <= _ * _ => apply Rmult_le_compat; [nn|nn|mm|mm]
  | |- pw _ ?c <= pw _ ?c => apply pw_mono; [lra|assumption]
  | |- _ => first [assumption|lra] end.
Lemma rates_grow p p' : sane p -> no_less p p' -> eng_rate p <= eng_rate p' /\ lab_rate p <= lab_rate p' /\ mat_rate p <= mat_rate p' /\ tool_rate p <= tool_rate p' /\ engine_cost p <= engine_cost p'.
Proof.
  intros [] []. assert (A : ampr p <= ampr p') by (unfold ampr; lra). assert (K : keas p <= keas p') by (unfold keas; lra). assert (D : dollars p' = dollars p) by (unfold dollars; rewrite l_year; reflexivity).
  unfold eng_rate, lab_rate, mat_rate, tool_rate, engine_cost. rewrite D. repeat split; mm.
Qed.
Lemma spread_mono k k' g : k <= k' -> 0 <= g -> k * g <= k' * g.
Proof. intros K G. apply Rmult_le_compat_r; assumption. Qed.
Lemma once_eq p : let r := hourly_rates (p_year p) in let n := p_prototypes p in o_total (non_recurring p) =
  eng_rate p * pw n (183 / 1000) * h_engineering r + 8325 / 1000000 * pw (ampr p) (873 / 1000) * pw (keas p) (189 / 100) * pw n (346 / 1000) * p_diff p * dollars p
  + 1244 / 1000000 * pw (ampr p) (116 / 100) * pw (keas p) (1371 / 1000) * pw n (1281 / 1000) * p_diff p * (1 + 3 * p_stealth p) * dollars p
  + engine_cost p * n * p_engines p * (11 / 10) + p_avionics p * n + tool_rate p * pw (p_units p) (178 / 1000) * h_tooling r + lab_rate p * pw n (524 / 1000) * h_manufacturing r + mat_rate p * pw n (792 / 1000)
  + 130 / 1000 * (lab_rate p * pw n (524 / 1000)) * h_quality r + p_test p + p_plant p.
Proof. intros r n. unfold non_recurring. cbn [o_total]. fold r. fold n. rewrite !eng_eq, !lab_eq, !mat_eq, !tool_eq. ring. Qed.
Lemma each_eq p k : let r := hourly_rates (p_year p) in let n := p_prototypes p in let m := p_units p in e_total (recurring p k) =
  eng_rate p * (2 * pw (n + m) (183 / 1000) - pw n (183 / 1000)) * h_engineering r + k * p_pax p * m * dollars p * (296 / 1000) + lab_rate p * (13 / 10 * pw m (524 / 1000) - pw n (524 / 1000)) * h_manufacturing r
  + mat_rate p * (pw m (792 / 1000) - pw n (792 / 1000)) + 130 / 1000 * (13 / 10 * (lab_rate p * pw m (524 / 1000))) * h_quality r + engine_cost p * m * p_engines p + p_avionics p * m.
Proof. intros r n m. unfold recurring. cbn [e_total]. fold r. fold n. fold m. rewrite !eng_eq, !lab_eq, !mat_eq. ring. Qed.
Theorem C140_grows p p' u o e c u' o' e' c' : sane p -> no_less p p' -> 0 < amortized p -> industrial_costs p = Ok (u, o, e, c) -> industrial_costs p' = Ok (u', o', e', c') -> u <= u' /\ o_total o <= o_total o' /\ e_total e <= e_total e'.
Proof.
  intros S N AM I I'. pose proof (rates p (n_year p S)) as (R1 & R2 & R3 & R4). pose proof (rates_nonneg p S) as (E & L & M & T & C). pose proof (rates_grow p p' S N) as (GE & GL & GM & GT & GC).
  destruct S. destruct N. assert (A : ampr p <= ampr p') by (unfold ampr; lra). assert (K : keas p <= keas p') by (unfold keas; lra). assert (D : dollars p' = dollars p) by (unfold dollars; rewrite l_year; reflexivity). pose proof (dollars_pos p).
  unfold industrial_costs in I, I'. rewrite l_type in I'. destruct (interior_index (p_type p)) as [k|] eqn:X; [|discriminate I]. cbn [bind] in I, I'. apply ok4 in I. apply ok4 in I'. destruct I as (<- & <- & <- & _). destruct I' as (<- & <- & <- & _).
  pose proof (index_nonneg _ _ X) as KP.
  assert (OT : o_total (non_recurring p) <= o_total (non_recurring p')).
  { rewrite !once_eq. rewrite l_year, l_units, l_prototypes, D. set (r := hourly_rates (p_year p)) in *. clearbody r. repeat apply Rplus_le_compat; mm. }
  assert (ET : e_total (recurring p k) <= e_total (recurring p' k)).
  { rewrite !each_eq. rewrite l_year, l_units, l_prototypes, D. set (r := hourly_rates (p_year p)) in *. clearbody r. set (n := p_prototypes p) in *. set (m := p_units p) in *.
    pose proof (pw_more n (n + m) (183 / 1000) ltac:(lra) ltac:(lra)) as P1. pose proof (pw_more n m (524 / 1000) ltac:(lra) ltac:(lra)) as P2. pose proof (pw_more n m (792 / 1000) ltac:(lra) ltac:(lra)) as P3. pose proof (pw_nonneg n (183 / 1000)). pose proof (pw_nonneg n (524 / 1000)). pose proof (pw_nonneg n (792 / 1000)).
    repeat apply Rplus_le_compat; mm. }
  split; [|split; assumption]. assert (AE : amortized p' = amortized p) by (unfold amortized; rewrite l_amortize, l_units; reflexivity). rewrite AE, l_units. apply Rplus_le_compat; apply Rmult_le_compat_r; try assumption; left; apply Rinv_0_lt_compat; lra.
Qed.
Example C140_more : no_less p1 {| p_year := 2004; p_units := 500; p_amortize := None; p_prototypes := 9; p_years := 5; p_type := "commercial"; p_avionics := 2500000; p_test := 0; p_plant := 1000; p_diff := 175 / 100; p_cad := 12 / 10; p_stealth := 0; p_material := 1;
  p_weight := 400000; p_engines := 4; p_thrust := 110000; p_pax := 300; p_mach := 89 / 100 |}.
Proof. constructor; cbn; (reflexivity || lra). Qed.
(** amortised over the aircraft built, each aircraft costs no more the more are built *)
Theorem C140_learning p m u o e c u' o' e' c' : sane p -> p_amortize p = None -> p_units p <= m -> industrial_costs p = Ok (u, o, e, c) -> industrial_costs (building m p) = Ok (u', o', e', c') -> u' <= u.
Proof.
  intros S AM ML I I'. pose proof (rates p (n_year p S)) as (R1 & R2 & R3 & R4). pose proof (rates_nonneg p S) as (E & L & M & T & C). destruct S. pose proof (dollars_pos p) as DP.
  unfold industrial_costs in I, I'. cbn [building p_type] in I'. destruct (interior_index (p_type p)) as [k|] eqn:X; [|discriminate I]. cbn [bind] in I, I'. apply ok4 in I. apply ok4 in I'. destruct I as (<- & _). destruct I' as (<- & _).
  pose proof (index_nonneg _ _ X) as KP.
  unfold amortized. cbn [building p_amortize p_units]. rewrite AM. set (r := hourly_rates (p_year p)) in *. set (n := p_prototypes p) in *. set (m0 := p_units p) in *.
  set (fixed := 8325 / 1000000 * pw (ampr p) (873 / 1000) * pw (keas p) (189 / 100) * pw n (346 / 1000) * p_diff p * dollars p + 1244 / 1000000 * pw (ampr p) (116 / 100) * pw (keas p) (1371 / 1000) * pw n (1281 / 1000) * p_diff p * (1 + 3 * p_stealth p) * dollars p + engine_cost p * n * p_engines p * (11 / 10) + p_avionics p * n + 130 / 1000 * (lab_rate p * pw n (524 / 1000)) * h_quality r + p_test p + p_plant p).
  set (per := k * p_pax p * dollars p * (296 / 1000) + engine_cost p * p_engines p + p_avionics p).
  assert (FP : 0 <= fixed) by (unfold fixed; repeat apply Rplus_le_le_0_compat; nn).
  assert (U : forall x, 0 < x -> e_total (recurring (building x p) k) / x + o_total (non_recurring (building x p)) / x =
    2 * eng_rate p * h_engineering r * (pw (n + x) (183 / 1000) / x) + lab_rate p * (13 / 10 * h_manufacturing r + 130 / 1000 * (13 / 10) * h_quality r) * (pw x (524 / 1000) / x) + mat_rate p * (pw x (792 / 1000) / x) + tool_rate p * h_tooling r * (pw x (178 / 1000) / x) + per + fixed / x).
  { intros x PX. rewrite each_eq, once_eq. change (eng_rate (building x p)) with (eng_rate p). change (lab_rate (building x p)) with (lab_rate p). change (mat_rate (building x p)) with (mat_rate p). change (tool_rate (building x p)) with (tool_rate p). change (engine_cost (building x p)) with (engine_cost p).
    change (ampr (building x p)) with (ampr p). change (keas (building x p)) with (keas p). change (dollars (building x p)) with (dollars p). cbn [building p_year p_units p_prototypes p_avionics p_engines p_pax p_test p_plant p_diff p_stealth]. fold r. fold n. unfold fixed, per.
    generalize (pw (n + x) (183 / 1000)) (pw x (524 / 1000)) (pw x (792 / 1000)) (pw x (178 / 1000)). intros. field. lra. }
  assert (B0 : forall q, building m0 q = building m0 q) by reflexivity. assert (BP : recurring p k = recurring (building m0 p) k /\ non_recurring p = non_recurring (building m0 p)) by (split; reflexivity). destruct BP as [BP1 BP2]. rewrite BP1, BP2, !U by lra.
  pose proof (pw_share2 (183 / 1000) n m0 m ltac:(lra) ltac:(lra) ltac:(lra) ML). pose proof (pw_share (524 / 1000) m0 m ltac:(lra) ltac:(lra) ML). pose proof (pw_share (792 / 1000) m0 m ltac:(lra) ltac:(lra) ML). pose proof (pw_share (178 / 1000) m0 m ltac:(lra) ltac:(lra) ML).
  assert (fixed / m <= fixed / m0) by (apply Rmult_le_compat_l; [exact FP|apply Rinv_le_contravar; lra]). repeat apply Rplus_le_compat; try (apply Rle_refl); try assumption; apply Rmult_le_compat_l; try assumption; nn.
Qed.
(** prices: the escalation factor lies between 0.066 and 2.5 and never falls from 1935 on; the method's own year leaves prices as they are *)
Theorem C140_escalation x y : 66 / 1000 <= escalation x <= 25 / 10 /\ (1935 <= x -> x <= y -> escalation x <= escalation y) /\ (forall p, p_year p = 1970 -> dollars p = 1).
Proof. split; [apply escalation_range|]. split; [apply escalation_rises|]. intros p E. unfold dollars. rewrite E, escalation_1970. field. Qed.
(** before 1964 engineers are paid less than nothing, and in 1925 prices are lower than in 1920 *)
Theorem C140_early_refuted : (forall p, 0 < p_weight p -> 0 < p_mach p -> 0 < p_prototypes p -> 0 < p_diff p -> 0 < p_cad p -> p_year p <= 1963 -> o_engineering (non_recurring p) < 0) /\ escalation 1925 < escalation 1920.
Proof.
  split.
  - intros p W M P D CA Y. unfold non_recurring. cbn [o_engineering h_engineering hourly_rates]. assert (0 < engineering_hours p (p_prototypes p)). { unfold engineering_hours, ampr, keas. rewrite !pw_pos by lra. repeat apply Rmult_lt_0_compat; try lra; apply exp_pos. } nra.
  - unfold escalation, escalation_table. rewrite (interp_skip 1925), (interp_skip 1925), (interp_skip 1920) by (try discriminate; cbn [hd fst]; lra). rewrite !interp_cons. rewrite (proj2 (Rltb_false 1925 1925)), (proj2 (Rltb_true 1925 1930)), (proj2 (Rltb_false 1920 1920)), (proj2 (Rltb_true 1920 1925)) by lra. lra.
Qed.

(** ** C141 cash flow *)
(** each year's share is not negative; after the k-th of n years the fraction of the table up to k/n has been spent; at the end all of it *)
Theorem C141_shares tab n : tidy tab -> (0 < n)%nat -> List.length (shares tab n) = n /\ Forall (fun x => 0 <= x) (shares tab n) /\ sum (shares tab n) = sum (map snd tab) /\ (forall k, (k < n)%nat -> sum (firstn (S k) (shares tab n)) = upto tab (INR (S k) / INR n)).
Proof.
  intros T N. split; [apply shares_length|]. split; [|split; [apply shares_sum; assumption|]].
  - apply yearly_nonneg; [exact N|exact T|]. apply upto_nonneg, T.
  - intros k K. pose proof (yearly_spent tab n n 0 0 k K) as E. rewrite Rplus_0_l in E. unfold shares. rewrite E. cbn [Nat.add]. rewrite S_INR. f_equal. unfold Rdiv. ring.
Qed.
Example C141_case : tidy nd_engineering /\ tidy nd_support.
Proof. split; apply tidy_tables. Qed.
Lemma totals5 : sum (map snd nd_engineering) = 999998 / 1000000 /\ sum (map snd nd_manuf_engineering) = 1 /\ sum (map snd nd_tooling_design) = 1 /\ sum (map snd nd_tooling_production) = 1000001 / 1000000 /\ sum (map snd nd_support) = 1000001 / 1000000.
Proof. repeat split; cbn [sum map snd nd_engineering nd_manuf_engineering nd_tooling_design nd_tooling_production nd_support]; lra. Qed.
(** the cash flow of every category but facilities adds up to its money, to two millionths; without facilities so does the total *)
Theorem C141_adds_up o n : (0 < n)%nat -> let c := distribute o n in
  sum (c_engineering c) = 999998 / 1000000 * (o_engineering o + o_test o + o_engines o + o_avionics o) /\ sum (c_labor c) = o_labor o + o_material o /\ sum (c_tooling c) = o_tooling o /\
  sum (c_tooling_production c) = 1000001 / 1000000 * o_tooling_production o /\ sum (c_support c) = 1000001 / 1000000 * (o_support o + o_quality o) /\
  sum (c_total c) = sum (c_engineering c) + sum (c_labor c) + sum (c_tooling c) + sum (c_tooling_production c) + sum (c_support c) + sum (c_facilities c) /\
  sum (c_facilities c) = (o_test_facilities o + o_plant o) * o_tooling o /\
  (Forall (fun x => 0 <= x) (items o) -> o_test_facilities o = 0 -> o_plant o = 0 -> Rabs (sum (c_total c) - sum (items o)) <= 2 / 1000000 * sum (items o)).
Proof.
  intros N c. destruct tidy_tables as (T1 & T2 & T3 & T4 & T5). destruct totals5 as (S1 & S2 & S3 & S4 & S5).
  assert (E1 : sum (c_engineering c) = 999998 / 1000000 * (o_engineering o + o_test o + o_engines o + o_avionics o)) by (unfold c, distribute; cbn [c_engineering]; rewrite sum_times, (shares_sum _ _ N T1), S1; ring).
  assert (E2 : sum (c_labor c) = o_labor o + o_material o) by (unfold c, distribute; cbn [c_labor]; rewrite sum_times, (shares_sum _ _ N T2), S2; ring).
  assert (E3 : sum (c_tooling c) = o_tooling o) by (unfold c, distribute; cbn [c_tooling]; rewrite sum_times, (shares_sum _ _ N T3), S3; ring).
  assert (E4 : sum (c_tooling_production c) = 1000001 / 1000000 * o_tooling_production o) by (unfold c, distribute; cbn [c_tooling_production]; rewrite sum_times, (shares_sum _ _ N T4), S4; ring).
  assert (E5 : sum (c_support c) = 1000001 / 1000000 * (o_support o + o_quality o)) by (unfold c, distribute; cbn [c_support]; rewrite sum_times, (shares_sum _ _ N T5), S5; ring).
  assert (E7 : sum (c_facilities c) = (o_test_facilities o + o_plant o) * o_tooling o) by (rewrite <- E3; unfold c, distribute; cbn [c_facilities c_tooling]; apply sum_scaled).
  assert (E6 : sum (c_total c) = sum (c_engineering c) + sum (c_labor c) + sum (c_tooling c) + sum (c_tooling_production c) + sum (c_support c) + sum (c_facilities c)).
  { unfold c, distribute. cbn [c_total c_engineering c_labor c_tooling c_tooling_production c_support c_facilities]. assert (LT : forall k tab, List.length (times k (shares tab n)) = n) by (intros; unfold times; rewrite map_length; apply shares_length).
    rewrite !sum_map2; rewrite ?map_length, ?length_map2; rewrite ?map_length, ?length_map2; rewrite ?map_length, ?length_map2; rewrite ?length_map2; rewrite ?LT; reflexivity. }
  repeat (split; [assumption|]). intros F Z1 Z2. rewrite E6, E1, E2, E3, E4, E5, E7, Z1, Z2. unfold items in *. cbn [sum]. rewrite Z1, Z2.
  repeat match goal with H : Forall _ (_ :: _) |- _ => inversion H; clear H; subst end. apply Rabs_le. lra.
Qed.
(** with facilities the total does not add up: their money is multiplied by the tooling money of each year, not by its share *)
Theorem C141_facilities_refuted : exists o, Forall (fun x => 0 <= x) (items o) /\ forall n, (0 < n)%nat -> sum (c_facilities (distribute o n)) = 1000 * (o_test_facilities o + o_plant o) /\ sum (c_total (distribute o n)) > 500 * sum (items o).
Proof.
  exists {| o_engineering := 0; o_support := 0; o_test := 0; o_engines := 0; o_avionics := 0; o_tooling := 1000; o_tooling_production := 0; o_labor := 0; o_material := 0; o_quality := 0; o_test_facilities := 2000; o_plant := 0; o_total := 3000 |}. split.
  - unfold items. cbn. repeat (apply Forall_cons; [lra|]). apply Forall_nil.
  - intros n N. pose proof (C141_adds_up {| o_engineering := 0; o_support := 0; o_test := 0; o_engines := 0; o_avionics := 0; o_tooling := 1000; o_tooling_production := 0; o_labor := 0; o_material := 0; o_quality := 0; o_test_facilities := 2000; o_plant := 0; o_total := 3000 |} n N) as (E1 & E2 & E3 & E4 & E5 & E6 & E7 & _). set (c := distribute _ n) in *. rewrite E6, E1, E2, E3, E4, E5, E7. cbn. lra.
Qed.
Print Assumptions C140_statement.
Print Assumptions C140_nonneg.
Print Assumptions C140_grows.
Print Assumptions C140_learning.
Print Assumptions C140_escalation.
Print Assumptions C140_early_refuted.
Print Assumptions C141_shares.
Print Assumptions C141_adds_up.
Print Assumptions C141_facilities_refuted.
Print Assumptions C140_shared.
