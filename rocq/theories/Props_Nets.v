(** * Turbojets with afterburner, and vehicles with several networks *)
From Coq Require Import Reals List Lra Psatz String Permutation.
From Verif Require Import M_Opt M_Engine S_Engine P_Engine Props_Engine.
Import ListNotations.
Local Open Scope R_scope.

(** ** C65: the afterburner *)
Definition jparts (e : turbojet) (x : flight) (d : jcycle) : Prop :=
  d_stream d = ram (y_fluid e) x /\
  d_comb d = combustor (y_comb e) (Some 1) (d_stream d) (comp_out (d_hpc d)) /\
  d_after d = combustor (y_after e) (Some (y_after_nondim e)) (d_stream d) (turb_out (d_lpt d)) /\
  ti_f (d_inputs d) = if y_active e then nadd (cb_f (d_comb d)) (cb_f (d_after d)) else cb_f (d_comb d).
Lemma jcycle_parts : forall e x, jparts e x (jcycle_of e x).
Proof.
  intros e x. unfold jparts, jcycle_of. cbv zeta.
  cbn [d_stream d_comb d_hpc d_after d_lpt d_inputs ti_f]. repeat split.
Qed.
(** the results of a turbojet without its afterburner do not depend on the afterburner *)
Theorem C65_off : forall fl i l h cb ht lt ab ab' n n' co th en x,
  jevaluate (Turbojet fl i l h cb ht lt ab false co th en n) x
  = jevaluate (Turbojet fl i l h cb ht lt ab' false co th en n') x.
Proof.
  intros. unfold jevaluate, jcycle_of.
  cbn [y_fluid y_inlet y_lpc y_hpc y_comb y_hpt y_lpt y_after y_active y_core y_thrust y_engines y_after_nondim].
  cbv zeta. cbn [d_stream d_inputs]. reflexivity.
Qed.
(** the main burner obeys the energy balance of the air it gets; the afterburner's temperature
    is the one asked for, and its balance is that of one unit of pure air *)
Theorem C65_burners : forall e x c f T3 fa T5, let d := jcycle_of e x in
  s_cp (d_stream d) = Some c -> y_after_nondim e = 1 ->
  co_Tt (d_hpc d) = Some T3 -> cb_f (d_comb d) = Some f ->
  tu_Tt (d_lpt d) = Some T5 -> cb_f (d_after d) = Some fa ->
  (1 + f) * (c * cb_Tt4 (y_comb e)) = c * T3 + f * (cb_eff (y_comb e) * cb_fuel (y_comb e)) /\
  (1 + fa) * (c * cb_Tt4 (y_after e)) = c * T5 + fa * (cb_eff (y_after e) * cb_fuel (y_after e)) /\
  ti_f (d_inputs d) = Some (if y_active e then f + fa else f).
Proof.
  intros e x c f T3 fa T5 d HC HN H3 HF H5 HA.
  pose proof (jcycle_parts e x) as JP. fold d in JP.
  revert HC H3 HF H5 HA JP. generalize d as dd. intros dd HC H3 HF H5 HA (_ & EC & EA & EI). rewrite HN in EA.
  pose proof HF as HF'. pose proof HA as HA'. rewrite EC in HF'. rewrite EA in HA'.
  destruct (combustor_balance _ _ _ (comp_out (d_hpc dd)) _ c T3 HC H3 HF') as (_ & _ & B).
  destruct (combustor_balance _ _ _ (turb_out (d_lpt dd)) _ c T5 HC H5 HA') as (_ & _ & B').
  split; [lra |]. split; [lra |]. rewrite EI, HF, HA. destruct (y_active e); reflexivity.
Qed.
(** but the stream that reaches the afterburner is the air and the fuel already burnt: for that
    stream the fuel the program counts is too little to reach the temperature it assumes *)
Theorem C65_afterburner_refuted : forall e x c f fa T5, let d := jcycle_of e x in
  s_cp (d_stream d) = Some c -> y_after_nondim e = 1 -> 0 < c ->
  cb_f (d_comb d) = Some f -> 0 < f ->
  tu_Tt (d_lpt d) = Some T5 -> T5 < cb_Tt4 (y_after e) -> cb_f (d_after d) = Some fa ->
  (1 + f) * (c * T5) + fa * (cb_eff (y_after e) * cb_fuel (y_after e))
  < (1 + f + fa) * (c * cb_Tt4 (y_after e)).
Proof.
  intros e x c f fa T5 d HC HN C0 HF F0 H5 LT HA.
  pose proof (jcycle_parts e x) as JP. fold d in JP.
  revert HC HF H5 HA JP. generalize d as dd. intros dd HC HF H5 HA (_ & _ & EA & _). rewrite HN in EA. rewrite EA in HA.
  destruct (combustor_balance _ _ _ (turb_out (d_lpt dd)) _ c T5 HC H5 HA) as (_ & _ & B').
  assert (0 < f * (c * (cb_Tt4 (y_after e) - T5))) by (repeat apply Rmult_lt_0_compat; lra). lra.
Qed.

(** ** C66: the container of networks adds the networks' results *)
Definition named (k : string) (n : network) : R := match look k (w_results n) with Some v => v | None => 0 end.
Definition total (k : string) (ns : list network) : R := fold_right (fun n s => named k n + s) 0 ns.
Definition has (k : string) (n : network) : Prop := exists v, look k (w_results n) = Some v.
Definition complete (n : network) : Prop := has thrust_key n /\ has mass_key n /\ has turn_key n.

Lemma add_three : forall a b c n, complete n ->
  add_all [(thrust_key, a); (mass_key, b); (turn_key, c)] (w_results n)
  = Some [(thrust_key, a + named thrust_key n); (mass_key, b + named mass_key n); (turn_key, c + named turn_key n)].
Proof.
  intros a b c n ((u & U) & (v & V) & (w & W)). unfold named. rewrite U, V, W. cbn [add_all]. rewrite U, V, W. reflexivity.
Qed.
Lemma fold_none : forall ns, fold_left one_net ns None = None.
Proof. induction ns; auto. Qed.
Lemma fold_three : forall ns a b c, Forall complete ns -> Forall (fun n => w_extra n = false) ns ->
  fold_left one_net ns (Some [(thrust_key, a); (mass_key, b); (turn_key, c)])
  = Some [(thrust_key, a + total thrust_key ns); (mass_key, b + total mass_key ns); (turn_key, c + total turn_key ns)].
Proof.
  induction ns as [|n ns IH]; intros a b c CN EX.
  - cbn. rewrite !Rplus_0_r. reflexivity.
  - inversion CN; inversion EX; subst. cbn [fold_left]. unfold one_net at 2. rewrite H5, (add_three _ _ _ _ H1), IH by auto.
    cbn [total fold_right]. rewrite !Rplus_assoc. reflexivity.
Qed.
Theorem C66_sum : forall ns, Forall complete ns -> Forall (fun n => w_extra n = false) ns ->
  all_nets ns = Some [(thrust_key, total thrust_key ns); (mass_key, total mass_key ns); (turn_key, total turn_key ns)].
Proof. intros ns CN EX. unfold all_nets. rewrite fold_three by auto. rewrite !Rplus_0_l. reflexivity. Qed.
Theorem C66_order : forall ns ns', Permutation ns ns' -> Forall complete ns -> Forall (fun n => w_extra n = false) ns ->
  all_nets ns' = all_nets ns.
Proof.
  intros ns ns' P CN EX.
  assert (CN' : Forall complete ns') by (eapply Permutation_Forall; eauto).
  assert (EX' : Forall (fun n => w_extra n = false) ns') by (eapply Permutation_Forall; eauto).
  rewrite !C66_sum by auto.
  assert (T : forall k, total k ns' = total k ns).
  { intro k. unfold total. clear - P. induction P; cbn; lra. }
  rewrite !T. reflexivity.
Qed.

(** a network without one of the three results makes the evaluation fail, whatever the others *)
Lemma add_all_missing : forall res from k, In k (map fst res) -> look k from = None -> add_all res from = None.
Proof.
  induction res as [|[k' v] res IH]; intros from k I L; [destruct I |].
  cbn [add_all]. destruct I as [E | I].
  - cbn in E. subst k'. rewrite L. reflexivity.
  - rewrite (IH from k I L). destruct (look k' from); reflexivity.
Qed.
Lemma add_all_keys : forall res from res', add_all res from = Some res' -> map fst res' = map fst res.
Proof.
  induction res as [|[k v] res IH]; intros from res' H; cbn [add_all] in H; [injection H as <-; reflexivity |].
  destruct (look k from); [| discriminate]. destruct (add_all res from) eqn:E; [| discriminate]. injection H as <-. cbn. f_equal. eauto.
Qed.
Lemma put_keys : forall k k0 v res, In k (map fst res) -> In k (map fst (put k0 v res)).
Proof.
  induction res as [|[k' v'] res IH]; intro I; [destruct I |]. cbn [put].
  destruct (String.eqb k0 k') eqn:E; [apply String.eqb_eq in E; subst; exact I |].
  destruct I as [I | I]; [left; exact I | right; auto].
Qed.
Theorem C66_missing : forall before n after k, In k [thrust_key; mass_key; turn_key] -> look k (w_results n) = None ->
  all_nets (before ++ n :: after) = None.
Proof.
  intros before n after k IK L. unfold all_nets. rewrite fold_left_app. cbn [fold_left].
  assert (G : forall ns acc, match acc with Some r => In k (map fst r) | None => True end ->
                match fold_left one_net ns acc with Some r => In k (map fst r) | None => True end).
  { induction ns as [|m ns IH]; intros acc H; [exact H |]. cbn [fold_left]. apply IH.
    destruct acc as [r|]; [| exact I]. cbn [one_net].
    destruct (add_all (if w_extra m then put fuel_key 0 (put extra_key 0 r) else r) (w_results m)) eqn:E; [| exact I].
    rewrite (add_all_keys _ _ _ E). destruct (w_extra m); auto. apply put_keys, put_keys; auto. }
  specialize (G before (Some [(thrust_key, 0); (mass_key, 0); (turn_key, 0)]) IK).
  destruct (fold_left one_net before _) as [r|].
  - cbn [one_net]. rewrite (add_all_missing _ _ k); [apply fold_none | | exact L].
    destruct (w_extra n); auto. apply put_keys, put_keys; auto.
  - apply fold_none.
Qed.
(** networks with an additional fuel: after one such network the two extra totals exist, and
    every later network must report them *)
Definition five (t m y e f : R) : list (string * R) :=
  [(thrust_key, t); (mass_key, m); (turn_key, y); (extra_key, e); (fuel_key, f)].
Definition complete5 (n : network) : Prop := complete n /\ has extra_key n /\ has fuel_key n.
Lemma add_five : forall t m y e f n, complete5 n -> add_all (five t m y e f) (w_results n)
  = Some (five (t + named thrust_key n) (m + named mass_key n) (y + named turn_key n) (e + named extra_key n) (f + named fuel_key n)).
Proof.
  intros t m y e f n (((a & A) & (b & B) & (c & C)) & (u & U) & (v & V)). unfold five, named. rewrite A, B, C, U, V.
  cbn [add_all]. rewrite A, B, C, U, V. reflexivity.
Qed.
Lemma one_five : forall t m y e f n, complete5 n -> one_net (Some (five t m y e f)) n
  = Some (five (t + named thrust_key n) (m + named mass_key n) (y + named turn_key n)
               ((if w_extra n then 0 else e) + named extra_key n) ((if w_extra n then 0 else f) + named fuel_key n)).
Proof. intros t m y e f n H. unfold one_net. destruct (w_extra n); apply (add_five _ _ _ _ _ _ H). Qed.
Lemma fold_five : forall ns t m y e f, Forall complete5 ns -> Forall (fun n => w_extra n = false) ns ->
  fold_left one_net ns (Some (five t m y e f))
  = Some (five (t + total thrust_key ns) (m + total mass_key ns) (y + total turn_key ns) (e + total extra_key ns) (f + total fuel_key ns)).
Proof.
  induction ns as [|n ns IH]; intros t m y e f CN EX.
  - cbn. rewrite !Rplus_0_r. reflexivity.
  - inversion CN; inversion EX; subst. cbn [fold_left]. rewrite one_five, IH, H5 by auto.
    cbn [total fold_right]. rewrite !Rplus_assoc. reflexivity.
Qed.
Lemma fold_five_any : forall ns t m y e f, Forall complete5 ns -> exists e' f',
  fold_left one_net ns (Some (five t m y e f)) = Some (five (t + total thrust_key ns) (m + total mass_key ns) (y + total turn_key ns) e' f').
Proof.
  induction ns as [|n ns IH]; intros t m y e f CN.
  - exists e, f. cbn. rewrite !Rplus_0_r. reflexivity.
  - inversion CN; subst. cbn [fold_left]. rewrite one_five by auto.
    destruct (IH (t + named thrust_key n) (m + named mass_key n) (y + named turn_key n)
       ((if w_extra n then 0 else e) + named extra_key n) ((if w_extra n then 0 else f) + named fuel_key n) H2) as (e' & f' & E).
    exists e', f'. rewrite E. cbn [total fold_right]. rewrite !Rplus_assoc. reflexivity.
Qed.
Lemma total_app : forall k a b, total k (a ++ b) = total k a + total k b.
Proof. intros k a b. induction a as [|n a IH]; cbn; [unfold total; cbn; lra |]. unfold total in *. rewrite IH. lra. Qed.
(** the totals of the fuels are those from the last network with an additional fuel on; the
    other totals are always complete *)
Theorem C66_extra : forall before n after, Forall complete5 (before ++ n :: after) ->
  w_extra n = true -> Forall (fun m => w_extra m = false) after ->
  let ns := before ++ n :: after in
  all_nets ns = Some (five (total thrust_key ns) (total mass_key ns) (total turn_key ns)
                           (total extra_key (n :: after)) (total fuel_key (n :: after))).
Proof.
  intros before n after CN EX EA ns. unfold all_nets, ns. rewrite fold_left_app. cbn [fold_left].
  apply Forall_app in CN. destruct CN as [CB CA]. inversion CA; subst.
  assert (P : forall b t m y, Forall complete5 b ->
    (exists e f, fold_left one_net b (Some [(thrust_key, t); (mass_key, m); (turn_key, y)])
        = Some (five (t + total thrust_key b) (m + total mass_key b) (y + total turn_key b) e f)) \/
    fold_left one_net b (Some [(thrust_key, t); (mass_key, m); (turn_key, y)])
        = Some [(thrust_key, t + total thrust_key b); (mass_key, m + total mass_key b); (turn_key, y + total turn_key b)]).
  { induction b as [|a b IH]; intros t m y C.
    - right. cbn. rewrite !Rplus_0_r. reflexivity.
    - inversion C; subst. cbn [fold_left]. destruct (w_extra a) eqn:WA.
      + left. assert (E : one_net (Some [(thrust_key, t); (mass_key, m); (turn_key, y)]) a = one_net (Some (five t m y 0 0)) a)
          by (unfold one_net; rewrite WA; reflexivity).
        rewrite E, one_five, WA by auto. destruct (fold_five_any b (t + named thrust_key a) (m + named mass_key a) (y + named turn_key a) (0 + named extra_key a) (0 + named fuel_key a) H4) as (e & f & E').
        exists e, f. rewrite E'. cbn [total fold_right]. rewrite !Rplus_assoc. reflexivity.
      + assert (E : one_net (Some [(thrust_key, t); (mass_key, m); (turn_key, y)]) a
            = Some [(thrust_key, t + named thrust_key a); (mass_key, m + named mass_key a); (turn_key, y + named turn_key a)]).
        { unfold one_net. rewrite WA. apply add_three. exact (proj1 H3). }
        rewrite E. cbn [total fold_right].
        destruct (IH (t + named thrust_key a) (m + named mass_key a) (y + named turn_key a) H4) as [(e & f & E') | E'].
        * left. exists e, f. rewrite E', !Rplus_assoc. reflexivity.
        * right. rewrite E', !Rplus_assoc. reflexivity. }
  assert (Q : one_net (fold_left one_net before (Some [(thrust_key, 0); (mass_key, 0); (turn_key, 0)])) n
    = Some (five (total thrust_key before + named thrust_key n) (total mass_key before + named mass_key n) (total turn_key before + named turn_key n)
                 (named extra_key n) (named fuel_key n))).
  { destruct (P before 0 0 0 CB) as [(e & f & E) | E]; rewrite E, !Rplus_0_l.
    - rewrite one_five, EX by auto. rewrite !Rplus_0_l. reflexivity.
    - match goal with |- one_net (Some [(_, ?t); (_, ?m); (_, ?y)]) n = _ =>
        transitivity (one_net (Some (five t m y 0 0)) n); [unfold one_net; rewrite EX; reflexivity |] end.
      rewrite one_five, EX by auto. rewrite !Rplus_0_l. reflexivity. }
  rewrite Q, fold_five by auto. rewrite !total_app. cbn [total fold_right]. fold (total thrust_key after) (total mass_key after) (total turn_key after) (total extra_key after) (total fuel_key after).
  rewrite !Rplus_assoc. reflexivity.
Qed.

(** ** Cases *)
Definition wet : turbojet :=
  Turbojet gas (InletP 1 1 1 false) (CompP 1 1) (CompP 1 1) (CombP 1500 1 1 12750000) (TurbP 1 1) (TurbP 1 1)
    (CombP 2000 1 1 12000000) true (SnozP 1 1 1) (ThrustP 375 225000 (Some 1) 0 1000 None) 2 1.
Lemma wet_parts : exists i, jet_out i = at_station 375 225000 /\
  let d := jcycle_of wet sonic in let s := flow_of 2 1000 500 375 225000 in
  d_stream d = s /\
  d_hpc d = compressor (CompP 1 1) s (comp_out (compressor (CompP 1 1) s (at_station 375 225000))) /\
  d_lpt d = turbine (TurbP 1 1) s (turb_out (turbine (TurbP 1 1) s (comb_out (d_comb d)) (Some 0) (cb_f (d_comb d)) (co_work (d_hpc d)) (Some 0) None))
    (Some 0) (cb_f (d_comb d)) (co_work (compressor (CompP 1 1) s (at_station 375 225000))) (Some 0) None.
Proof.
  set (s := flow_of 2 1000 500 375 225000).
  exists (inlet (InletP 1 1 1 false) s sonic (ram_out s)).
  assert (I : jet_out (inlet (InletP 1 1 1 false) s sonic (ram_out s)) = at_station 375 225000).
  { change (ram_out s) with (at_station 375 225000). unfold s.
    rewrite inlet_some by (cbn; auto; lra). cbv zeta. unfold jet_out. cbn [j_Tt j_Pt]. rewrite exit_p_max. unfold inlet_T.
    cbn [in_pr in_rec in_eff]. rewrite !Rmult_1_r, Rpower_base1. unfold at_station. f_equal; f_equal; [ring |].
    apply Rmax_right. cbn. lra. }
  split; [exact I |]. cbv zeta.
  assert (S : ram gas sonic = s) by (rewrite (ram_some _ _ _ _ gas_at) by lra; rewrite sonic_T, sonic_P; reflexivity).
  unfold jcycle_of. cbv zeta. cbn [d_stream d_hpc d_lpt d_comb].
  cbn [wet y_fluid y_inlet y_lpc y_hpc y_comb y_hpt y_lpt y_after y_active y_core y_thrust y_engines y_after_nondim].
  rewrite S, I. repeat split.
Qed.
Example C65_case : let d := jcycle_of wet sonic in
  s_cp (d_stream d) = Some 1000 /\ y_after_nondim wet = 1 /\ co_Tt (d_hpc d) = Some 375 /\
  cb_f (d_comb d) = Some (1 / 10) /\ tu_Tt (d_lpt d) = Some 1500 /\ cb_f (d_after d) = Some (1 / 20) /\
  1500 < cb_Tt4 (y_after wet).
Proof.
  cbv zeta. destruct wet_parts as (i & _ & S & H & L). pose proof (jcycle_parts wet sonic) as (_ & CB & AB & _).
  revert S H L CB AB. generalize (jcycle_of wet sonic) as d. intros d S H L CB AB. rewrite S in CB, AB.
  assert (CP : compressor (CompP 1 1) (flow_of 2 1000 500 375 225000) (at_station 375 225000)
     = CompO (Some 375) (Some 225000) (Some (1000 * 375)) (Some 0)).
  { rewrite compressor_some by (cbn; lra). cbv zeta. cbn [co_pr co_eff]. rewrite Rpower_base1, !Rmult_1_r. do 2 f_equal. ring. }
  rewrite CP in H, L. change (comp_out (CompO (Some 375) (Some 225000) (Some (1000 * 375)) (Some 0))) with (at_station 375 225000) in H.
  rewrite CP in H. rewrite H in CB, L. change (comp_out (CompO (Some 375) (Some 225000) (Some (1000 * 375)) (Some 0))) with (at_station 375 225000) in CB.
  cbn [y_comb wet] in CB. rewrite combustor_some in CB by (cbn; lra). cbn [cb_Tt4 cb_pr cb_eff cb_fuel] in CB.
  replace ((1000 * 1500 * 1 - 1000 * 375 * 1) / (1 * 12750000 - 1000 * 1500 * 1)) with (1 / 10) in CB by lra.
  rewrite CB in L. cbn [cb_f co_work] in L.
  match type of CB with _ = CombO (Some ?a) (Some ?b) _ _ =>
    change (comb_out (CombO (Some a) (Some b) _ _)) with (at_station a b) in L end.
  assert (TU : forall P, turbine (TurbP 1 1) (flow_of 2 1000 500 375 225000) (at_station 1500 P) (Some 0) (Some (1 / 10)) (Some 0) (Some 0) None
      = TurbO (Some 1500) (Some P) (Some 1500000)).
  { intro P. rewrite (turbine_some (TurbP 1 1)) with (k := 0); try reflexivity; cbn [tu_mech tu_eff]; try lra.
    replace (1500 - (0 + 0 + 0 * 0) / ((1 + 1 / 10) * 1 * 1000)) with 1500 by field.
    replace (1500 / 1500) with 1 by field. rewrite Rpower_base1. f_equal; f_equal; ring. }
  rewrite TU in L.
  match type of L with context [turb_out (TurbO (Some ?a) (Some ?b) ?q)] =>
    change (turb_out (TurbO (Some a) (Some b) q)) with (at_station a b) in L end.
  rewrite TU in L. rewrite L in AB.
  match type of AB with context [turb_out (TurbO (Some ?a) (Some ?b) ?q)] =>
    change (turb_out (TurbO (Some a) (Some b) q)) with (at_station a b) in AB end.
  cbn [y_after wet y_after_nondim] in AB. rewrite combustor_some in AB by (cbn; lra). cbn [cb_Tt4 cb_pr cb_eff cb_fuel] in AB.
  rewrite S, H, CB, L, AB. cbn. repeat split; try reflexivity; try (f_equal; lra); lra.
Qed.
Definition jet_net (t m : R) : network := Net false [(thrust_key, t); (mass_key, m); (turn_key, 0)].
Definition cryo (t m e f : R) : network := Net true (five t m 0 e f).
Example C66_sum_case : all_nets [jet_net 100 2; jet_net 50 1] = Some [(thrust_key, 150); (mass_key, 3); (turn_key, 0)].
Proof.
  assert (C : forall t m, complete (jet_net t m)) by (intros; repeat split; eexists; reflexivity).
  rewrite C66_sum by (repeat first [apply Forall_cons | apply Forall_nil]; first [apply C | reflexivity]). unfold total; cbn.
  replace (100 + (50 + 0)) with 150 by lra. replace (2 + (1 + 0)) with 3 by lra. replace (0 + (0 + 0)) with 0 by lra. reflexivity.
Qed.
(** two networks with an additional fuel: the first one's fuels are lost from the totals *)
Theorem C66_extra_refuted : exists ns, Forall complete5 ns /\
  exists res, all_nets ns = Some res /\ look fuel_key res = Some 1 /\ total fuel_key ns = 3 /\ look mass_key res = Some 3.
Proof.
  exists [cryo 100 2 0 2; cryo 50 1 0 1].
  assert (C : forall t m e f, complete5 (cryo t m e f)) by (intros; repeat split; eexists; reflexivity).
  split; [repeat first [apply Forall_cons | apply Forall_nil]; apply C |].
  pose proof (C66_extra [cryo 100 2 0 2] (cryo 50 1 0 1) []) as H. cbn [app] in H.
  eexists. split; [apply H; [repeat first [apply Forall_cons | apply Forall_nil]; apply C | reflexivity | constructor] |].
  unfold total; cbn. repeat split; [f_equal; lra | lra | f_equal; lra].
Qed.
(** a network with an additional fuel before an ordinary one: the evaluation fails; after it, it
    succeeds *)
Theorem C66_mixed_refuted : exists a b, complete5 a /\ complete b /\ w_extra b = false /\
  all_nets [a; b] = None /\ exists r, all_nets [b; a] = Some r.
Proof.
  exists (cryo 100 2 0 2), (jet_net 50 1).
  split; [repeat split; eexists; reflexivity |]. split; [repeat split; eexists; reflexivity |].
  split; [reflexivity |]. split; [reflexivity |]. eexists. reflexivity.
Qed.
Print Assumptions C65_off.
Print Assumptions C65_burners.
Print Assumptions C65_afterburner_refuted.
Print Assumptions C66_sum.
Print Assumptions C66_order.
Print Assumptions C66_missing.
Print Assumptions C66_extra.
Print Assumptions C66_extra_refuted.
Print Assumptions C66_mixed_refuted.
