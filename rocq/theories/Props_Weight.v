(** * Weight estimation: properties C93 to C96 *)
From Coq Require Import Reals List Bool Arith Lra Lia Psatz.
From Verif Require Import PyBase M_Opt P_Opt M_Drag M_Stab P_Stab M_Elec S_Elec P_Elec P_Vn M_Weight S_Weight P_Weight.
Import ListNotations.
Local Open Scope R_scope.
Local Open Scope list_scope.

(** ** C93: the weight statement closes *)
Theorem C93_closes m k o v e x : empty_weight m k o v = Ok (e, x) ->
  e_structures e = structure_items e /\ e_systems e = system_items e /\
  e_empty e = e_structures e + e_prop e + e_systems e /\
  e_oe e = e_empty e + o_total (e_oper e) /\
  e_zfw e = e_oe e + p_total (e_payload e) /\
  e_zfw e + e_fuel e = v_mtow v /\ e_mtow e = v_mtow v.
Proof.
  intro H. destruct (empty_weight_inv _ _ _ _ _ _ H) as [a [w [_ [_ [E _]]]]]. subst e.
  unfold structure_items, system_items, statement_of. simpl. repeat split; ring.
Qed.
(** with the correlations of the methods 'SUAVE' and 'New SUAVE' every leaf of the statement is counted once: they add up to the take-off
    weight *)
Theorem C93_leaves m big simple o v e x : empty_weight m (suave_book big simple) o v = Ok (e, x) ->
  structure_items e + e_prop e + system_items e + oper_sum (e_oper e) + payload_items (e_payload e) + e_fuel e = v_mtow v.
Proof.
  intro H. destruct (empty_weight_inv _ _ _ _ _ _ H) as [a [w [_ [_ [E _]]]]]. subst e.
  unfold structure_items, system_items, oper_sum, payload_items, statement_of, operating_items, payload_common. simpl. ring.
Qed.
(** when the estimate goes through, and what it raises otherwise *)
Theorem C93_success m k o v : (exists r, empty_weight m k o v = Ok r) <->
  (is_flops m = true -> v_mach v <> None /\ v_range v <> None /\ v_alt v <> None) /\
  (forall n l, In n (v_nets v) -> n_jet n = true -> n_mounted n = Flags l -> length l = n_engines n) /\
  (m = OtherMethod -> forall w, In w (v_wings v) -> w_kind w <> MainWing) /\
  (m = FLOPS_Complex -> exists n, In n (v_nets v) /\ n_jet n = true /\ n_total n = None).
Proof.
  assert (FR : flops_ready m v = true <-> (is_flops m = true -> v_mach v <> None /\ v_range v <> None /\ v_alt v <> None)).
  { unfold flops_ready. destruct (is_flops m).
    - destruct (v_mach v), (v_range v), (v_alt v); split; intro H; try reflexivity; try discriminate H;
        try (intros _; repeat split; discriminate); destruct (H eq_refl) as [A [B C]]; congruence.
    - split; [intros _ D; discriminate D|reflexivity]. }
  assert (NT : forall l a0, (exists a, fold_left (one_net m k v) l (Ok a0) = Ok a /\
                              (m = FLOPS_Complex -> (a_data a <> None <-> a_data a0 <> None \/ exists n, In n l /\ n_jet n = true /\ n_total n = None))) <->
                            (forall n fs, In n l -> n_jet n = true -> n_mounted n = Flags fs -> length fs = n_engines n)).
  { intro l. induction l as [|n l IH]; intro a0; simpl.
    - split; [intros _ n fs []|]. intros _. exists a0. split; [reflexivity|]. intros _. split; [auto|]. intros [A|[n [[] _]]]; exact A.
    - destruct (n_jet n) eqn:J.
      + destruct (mounted_ok n) eqn:M.
        * assert (Mn : forall fs, n_mounted n = Flags fs -> length fs = n_engines n).
          { intros fs E. unfold mounted_ok in M. rewrite E in M. apply Nat.eqb_eq. exact M. }
          match goal with |- context [let '(w, d) := ?p in _] => remember p as wd eqn:Ewd; destruct wd as [wt dd] end.
          match goal with |- context [fold_left _ l (Ok ?s)] => specialize (IH s) end. split.
          -- intros [a [A _]] n' fs [<-|I] J' E; [apply Mn; exact E|].
             apply (proj1 IH) with (n := n') (fs := fs); auto. exists a. split; [exact A|].
             assert (Q : forall n0 fs0, In n0 l -> n_jet n0 = true -> n_mounted n0 = Flags fs0 -> length fs0 = n_engines n0).
             { clear IH Ewd. revert A. match goal with |- fold_left _ l (Ok ?s) = _ -> _ => generalize s end.
               clear. induction l as [|q l IH]; intros s H n0 fs0; simpl; [intros []|]. simpl in H.
               intros [<-|I] J0 E0.
               - rewrite J0 in H. unfold mounted_ok in H. rewrite E0 in H. destruct (Nat.eqb (length fs0) (n_engines q)) eqn:X; [apply Nat.eqb_eq; exact X|].
                 rewrite nets_err in H. discriminate H.
               - destruct (n_jet q); [destruct (mounted_ok q)|]; [| rewrite nets_err in H; discriminate H |].
                 + match type of H with context [let '(w, d) := ?p in _] => destruct p as [w d] end. eapply IH; eauto.
                 + eapply IH; eauto. }
             destruct (proj2 IH Q) as [a' [A' D']]. rewrite A in A'. injection A' as <-. exact D'.
          -- intro Q. destruct (proj2 IH) as [a [A D]]; [intros n' fs I; apply Q; right; exact I|]. exists a. split; [exact A|].
             intro F. rewrite (D F). simpl. subst m. destruct (n_total n) eqn:T.
             ++ injection Ewd as _ ->. split.
                ** intros [X|[n' [I X]]]; [left; exact X|right; exists n'; split; [right; exact I|exact X]].
                ** intros [X|[n' [[<-|I] [X Y]]]]; [left; exact X|congruence|right; exists n'; auto].
             ++ injection Ewd as _ ->. split; [|left; discriminate]. intros _. right. exists n. auto.
        * split.
          -- intros [a [A _]]. rewrite nets_err in A. discriminate A.
          -- intro Q. exfalso. unfold mounted_ok in M. destruct (n_mounted n) as [b|fs] eqn:E; [discriminate M|].
             apply Nat.eqb_neq in M. apply M. apply (Q n fs); auto.
      + match goal with |- context [fold_left _ l (Ok ?s)] => specialize (IH s) end. simpl in IH. split.
        * intros [a [A D]] n' fs [<-|I] J' E; [congruence|]. refine (proj1 IH _ n' fs I J' E). exists a. split; [exact A|]. intro F. rewrite (D F). split.
          -- intros [X|[q [[<-|I'] [X Y]]]]; [left; exact X|congruence|right; exists q; auto].
          -- intros [X|[q [I' X]]]; [left; exact X|right; exists q; auto].
        * intro Q. destruct (proj2 IH) as [a [A D]]; [intros n' fs I; apply Q; right; exact I|]. exists a. split; [exact A|]. intro F. rewrite (D F). split.
          -- intros [X|[q [I' X]]]; [left; exact X|right; exists q; auto].
          -- intros [X|[q [[<-|I'] [X Y]]]]; [left; exact X|congruence|right; exists q; auto]. }
  assert (WG : forall t l a0, (exists a, fold_left (one_wing m k t v) l (Ok a0) = Ok a) <-> (m = OtherMethod -> forall w, In w l -> w_kind w <> MainWing)).
  { intros t l. induction l as [|w l IH]; intro a0; simpl; [split; [intros _ _ w []|intros _; exists a0; reflexivity]|].
    destruct (w_kind w) eqn:K.
    - destruct m; try (rewrite IH; split; intros Q D; discriminate D).
      split; [intros [a A]; rewrite wings_err in A; discriminate A|]. intro Q. exfalso. apply (Q eq_refl w); auto.
    - rewrite IH. split; intros Q D w'; [intros [<-|I]; [congruence|apply Q; auto]|intro I; apply Q; auto].
    - rewrite IH. split; intros Q D w'; [intros [<-|I]; [congruence|apply Q; auto]|intro I; apply Q; auto].
    - rewrite IH. split; intros Q D w'; [intros [<-|I]; [congruence|apply Q; auto]|intro I; apply Q; auto]. }
  unfold empty_weight. destruct (flops_ready m v) eqn:R0.
  2:{ split; [intros [r X]; discriminate X|]. intros [A _]. apply FR in A. discriminate A. }
  specialize (NT (v_nets v) (Nets [] 0 None)). specialize (WG (settle o) (v_wings v) (Wings [] 0 0 0)). fold (all_nets m k v) in NT. fold (all_wings m k (settle o) v) in WG.
  destruct (all_nets m k v) as [a|er] eqn:N; simpl.
  2:{ split; [intros [r X]; discriminate X|]. intros [_ [A _]]. destruct (proj2 NT A) as [a [X _]]. discriminate X. }
  destruct (all_wings m k (settle o) v) as [w|er] eqn:W; simpl.
  2:{ split; [|intros [_ [_ [A _]]]; destruct (proj2 WG A) as [b X]; discriminate X].
      destruct m; try (intros [r X]; discriminate X). destruct (a_data a); simpl; intros [r X]; discriminate X. }
  assert (NTa : forall n fs, In n (v_nets v) -> n_jet n = true -> n_mounted n = Flags fs -> length fs = n_engines n).
  { clear -N. unfold all_nets in N. revert N. generalize (Nets [] 0 None). induction (v_nets v) as [|q l IH]; intros s H n0 fs0; simpl; [intros []|]. simpl in H.
    intros [<-|I] J0 E0.
    - rewrite J0 in H. unfold mounted_ok in H. rewrite E0 in H. destruct (Nat.eqb (length fs0) (n_engines q)) eqn:X; [apply Nat.eqb_eq; exact X|].
      rewrite nets_err in H. discriminate H.
    - destruct (n_jet q); [destruct (mounted_ok q)|]; [| rewrite nets_err in H; discriminate H |].
      + match type of H with context [let '(w, d) := ?p in _] => destruct p as [w1 d1] end. eapply IH; eauto.
      + eapply IH; eauto. }
  destruct (proj2 NT NTa) as [a' [X D]]. injection X as <-. simpl in D.
  assert (WGa : m = OtherMethod -> forall w, In w (v_wings v) -> w_kind w <> MainWing) by (apply (proj1 WG); exists w; reflexivity).
  destruct m;
    try (split; [intros _; split; [exact (proj1 FR eq_refl)|split; [exact NTa|split; [exact WGa|intro Q; discriminate Q]]]|intros _; eexists; reflexivity]).
  specialize (D eq_refl). destruct (a_data a) as [d|]; simpl.
  - split; [|intros _; eexists; reflexivity]. intros _. split; [exact (proj1 FR eq_refl)|split; [exact NTa|split; [exact WGa|]]]. intros _.
    destruct (proj1 D) as [Y|Y]; [discriminate|congruence|exact Y].
  - split; [intros [r Y]; discriminate Y|]. intros [_ [_ [_ Y]]]. exfalso. apply (proj2 D); [right; apply Y; reflexivity|reflexivity].
Qed.
Theorem C93_failure m k o v er : empty_weight m k o v = Err er ->
  er = ValueError \/
  (m = FLOPS_Complex /\ er = AttributeError /\ forall n, In n (v_nets v) -> n_jet n = true -> n_total n <> None).
Proof.
  assert (NE : forall l a er, fold_left (one_net m k v) l (Ok a) = Err er -> er = ValueError).
  { intro l. induction l as [|n l IH]; intros a er0 H; simpl in H; [discriminate H|].
    destruct (n_jet n); [destruct (mounted_ok n)|].
    - match type of H with context [let '(w, d) := ?p in _] => destruct p as [w d] end. eapply IH; eauto.
    - rewrite nets_err in H. congruence.
    - eapply IH; eauto. }
  assert (WE : forall t l a er, fold_left (one_wing m k t v) l (Ok a) = Err er -> er = ValueError).
  { intros t l. induction l as [|n l IH]; intros a er0 H; simpl in H; [discriminate H|].
    destruct (w_kind n); [destruct m|..]; try (eapply IH; eauto; fail). rewrite wings_err in H. congruence. }
  unfold empty_weight. destruct (flops_ready m v) eqn:R0; [|intro H; left; congruence].
  destruct (all_nets m k v) as [a|e1] eqn:N; simpl.
  2:{ intro H. injection H as <-. left. eapply NE; eauto. }
  destruct (match m, a_data a with FLOPS_Complex, None => Err AttributeError | _, _ => Ok tt end) as [u|e1] eqn:C; simpl.
  - destruct (all_wings m k (settle o) v) as [w|e1] eqn:W; simpl; [intro H; discriminate H|]. intro H. injection H as <-. left. eapply WE; eauto.
  - intro H. injection H as <-. right. destruct m; try discriminate C. destruct (a_data a) eqn:D; [discriminate C|]. injection C as <-.
    repeat split. intros n I J.
    assert (Q : forall l b c, fold_left (one_net FLOPS_Complex k v) l (Ok b) = Ok c -> a_data c = None ->
                  a_data b = None /\ forall n, In n l -> n_jet n = true -> n_total n <> None).
    { clear. intro l. induction l as [|q l IH]; intros b c H D; simpl in H; [injection H as ->; split; [exact D|intros n []]|].
      destruct (n_jet q) eqn:J; [destruct (mounted_ok q)|]; [|rewrite nets_err in H; discriminate H|].
      - destruct (n_total q) eqn:T.
        + destruct (IH _ _ H D) as [A B]. simpl in A. split; [exact A|]. intros n [<-|I] Jn; [congruence|apply B; auto].
        + destruct (IH _ _ H D) as [A B]. simpl in A. discriminate A.
      - destruct (IH _ _ H D) as [A B]. simpl in A. split; [exact A|]. intros n [<-|I] Jn; [congruence|apply B; auto]. }
    exact (proj2 (Q _ _ _ N D) n I J).
Qed.
(** the analysis stores the manufacturer's empty weight as the vehicle's operating empty weight: too light by the operating items, which
    are never nothing *)
Theorem C93_operating_empty_refuted m big simple o v e x : empty_weight m (suave_book big simple) o v = Ok (e, x) -> 0 <= v_pax v ->
  e_oe e - analysis_operating_empty e = o_total (operating_items v) /\ analysis_operating_empty e + 690 * lb <= e_oe e.
Proof.
  intros H P. destruct (empty_weight_inv _ _ _ _ _ _ H) as [a [w [_ [_ [E _]]]]]. subst e.
  unfold statement_of, analysis_operating_empty. simpl.
  match goal with |- ?A + ?B - ?C = _ /\ _ => set (em := A) end.
  pose proof lb_pos as L. assert (LP : 0 <= v_pax v * lb) by (apply Rmult_le_pos; lra).
  assert (I : 0 <= oper_items v) by (unfold oper_items; destruct (v_acc v); nra).
  assert (F : 2 <= flight_crew v) by (unfold flight_crew; destruct (Rltb (v_pax v) 150); lra).
  assert (A : 1 <= attendants v).
  { unfold attendants. destruct (Rltb (v_pax v) 51) eqn:B; [lra|]. apply Rltb_false in B.
    pose proof (floor_least 0 (v_pax v / 40)) as X. simpl in X. lra. }
  split; [ring|]. apply Rplus_le_compat_l.
  assert (0 <= (flight_crew v - 2) * lb) by (apply Rmult_le_pos; lra). assert (0 <= (attendants v - 1) * lb) by (apply Rmult_le_pos; lra). lra.
Qed.

(** ** C94: the masses stored in the vehicle *)
(** the mass of a network: nothing stored for a propulsion system that is not a jet; 0 without engines; the given total weight if there is
    one; otherwise the correlation of the method *)
Definition network_mass (m : method) (k : book) (v : vehicle) (n : network) : option R :=
  if n_jet n then
    Some (if Nat.eqb (n_engines n) 0 then 0
          else match n_total n with
               | Some t => t
               | None => match m with
                         | FLOPS_Simple | FLOPS_Complex | Raymer => q_prop (k_prop k v n)
                         | _ => 16 / 10 * INR (n_engines n) * engine_jet (n_thrust n)
                         end
               end)
  else None.
Theorem C94_networks m k o v e x : empty_weight m k o v = Ok (e, x) -> x_nets x = map (network_mass m k v) (v_nets v) /\ e_prop e = masses (x_nets x).
Proof.
  intro H. destruct (empty_weight_inv _ _ _ _ _ _ H) as [a [w [N [_ [E X]]]]]. subst e x. simpl. split.
  - unfold all_nets in N. change (a_masses a = a_masses (Nets [] 0 None) ++ map (network_mass m k v) (v_nets v)).
    revert N. generalize (Nets [] 0 None). induction (v_nets v) as [|n l IH]; intros s N; simpl in N.
    + injection N as ->. rewrite app_nil_r. reflexivity.
    + destruct (n_jet n) eqn:J; [destruct (mounted_ok n)|].
      * match type of N with context [let '(w, d) := ?p in _] => remember p as q eqn:Q; destruct q as [ww d] end.
        apply IH in N. rewrite N. simpl. rewrite <- app_assoc. simpl. f_equal. f_equal. unfold network_mass. rewrite J. f_equal.
        destruct (n_engines n) eqn:G; [reflexivity|]. change (Nat.eqb (S n0) 0) with false. cbv iota.
        destruct (n_total n); [congruence|]. unfold integrated_propulsion in Q. destruct m; injection Q as -> _; try reflexivity; unfold dec; simpl; lra.
      * rewrite nets_err in N. discriminate N.
      * apply IH in N. rewrite N. simpl. rewrite <- app_assoc. simpl. f_equal. f_equal. unfold network_mass. rewrite J. reflexivity.
  - apply nets_total in N. unfold masses in *. simpl in N. lra.
Qed.
Theorem C94_components m k o v e x : empty_weight m k o v = Ok (e, x) ->
  length (x_wings x) = length (v_wings v) /\ length (x_fuses x) = length (v_fuses v) /\ length (x_nets x) = length (v_nets v) /\
  e_wing e = masses_of is_main (v_wings v) (x_wings x) /\
  e_htail e = masses_of is_h (v_wings v) (x_wings x) /\
  e_vtail e = masses_of is_v (v_wings v) (x_wings x) /\
  e_wing e + e_htail e + e_vtail e = masses (x_wings x) /\
  e_fuse e = sum_over (fun y => y) (x_fuses x) /\
  x_main_gear x = e_main_gear e /\ x_nose_gear x = e_nose_gear e /\
  x_pax x = p_pax (e_payload e) /\ x_bag x = p_bag (e_payload e) /\ x_cargo x = p_cargo (e_payload e) /\
  x_ctrl x = e_ctrl e /\ x_elec x = e_elec e /\ x_avi x = e_avi e + e_instr e /\ x_furn x = e_furn e /\ x_ac x = e_ac e /\ x_fuel x = e_fuel e /\
  x_apu x = e_apu e /\ x_hyd x = e_hyd e /\ x_opt x = o_items (e_oper e).
Proof.
  intro H. destruct (empty_weight_inv _ _ _ _ _ _ H) as [a [w [N [W [E X]]]]].
  pose proof (all_wings_tallied _ _ _ _ _ W) as [T1 [T2 [T3 [T4 T5]]]].
  destruct (all_fuses_ok k (settle o) v (b_main w) (a_total a)) as [F1 F2].
  pose proof (nets_length _ _ _ _ _ _ N) as L. simpl in L.
  subst e x. cbn [x_wings x_fuses x_nets e_wing e_htail e_vtail e_fuse x_main_gear x_nose_gear x_pax x_bag x_cargo x_ctrl x_elec x_avi x_furn x_ac x_fuel x_apu
    x_hyd x_opt statement_of e_main_gear e_nose_gear e_payload e_ctrl e_elec e_avi e_instr e_furn e_ac e_fuel e_apu e_hyd e_oper].
  rewrite F2, map_length. repeat split; auto; try (rewrite <- F2; exact F1); lra.
Qed.
(** what is stored falls short of the take-off weight by the landing gear, the crew, and the nacelles listed under structures *)
Theorem C94_total m k o v e x : empty_weight m k o v = Ok (e, x) -> closes_payload k -> closes_oper k ->
  all_stored x = v_mtow v - (x_main_gear x + x_nose_gear x) - (o_crew (e_oper e) + o_att (e_oper e)) - e_nacelle e.
Proof.
  intros H P O. pose proof (C94_networks _ _ _ _ _ _ H) as [_ N]. pose proof (C94_components _ _ _ _ _ _ H) as C.
  destruct C as [_ [_ [_ [_ [_ [_ [W [F [G1 [G2 [P1 [P2 [P3 [S1 [S2 [S3 [S4 [S5 [S6 [S7 [S8 S9]]]]]]]]]]]]]]]]]]]]].
  destruct (C93_closes _ _ _ _ _ _ H) as [Q1 [Q2 [Q3 [Q4 [Q5 [Q6 _]]]]]].
  destruct (empty_weight_inv _ _ _ _ _ _ H) as [a [w [_ [_ [E X]]]]].
  assert (EP : e_payload e = k_payload k v) by (subst e; reflexivity). assert (EO : e_oper e = k_oper k v) by (subst e; reflexivity).
  assert (PA : e_paint e = 0) by (subst e; reflexivity).
  pose proof (P v) as PT. pose proof (O v) as OT. rewrite <- EP in PT. rewrite <- EO in OT. unfold payload_items, oper_sum in *.
  unfold all_stored, structure_items, system_items in *. rewrite <- N, <- W, <- F, P1, P2, P3, S1, S2, S3, S4, S5, S6, S7, S8, S9, G1, G2. lra.
Qed.
Theorem C94_suave_closes big simple : closes_payload (suave_book big simple) /\ closes_oper (suave_book big simple).
Proof. split; intro v; reflexivity. Qed.
Theorem C94_parts v f c n :
  (let d := prop_flops v c n in q_prop d = q_eng d + q_rev d + q_ctrl d + q_start d + q_fuel d + q_nac d) /\
  (let d := prop_raymer v c f n in q_prop d = q_eng d + q_rev d + q_ctrl d + q_start d + q_fuel d + q_nac d).
Proof. split; simpl; ring. Qed.
(** for FLOPS and Raymer the propulsion weight contains the nacelles, which are listed again under structures: an aircraft with one network
    carries its nacelles twice *)
Theorem C94_nacelles_twice m k o v e x n : empty_weight m k o v = Ok (e, x) -> is_flops m = true \/ m = Raymer -> parts_add_up k ->
  v_nets v = [n] -> n_jet n = true -> n_engines n <> 0%nat -> n_total n = None ->
  e_nacelle e = q_nac (k_prop k v n) /\ e_prop e = prop_items e + e_nacelle e /\
  e_empty e = (structure_items e - e_nacelle e) + prop_items e + 2 * e_nacelle e + system_items e.
Proof.
  intros H M A V J G T. destruct (empty_weight_inv _ _ _ _ _ _ H) as [a [w [N [_ [E _]]]]].
  destruct (C93_closes _ _ _ _ _ _ H) as [Q1 [Q2 [Q3 _]]].
  unfold all_nets in N. rewrite V in N. simpl in N. rewrite J, T in N. destruct (mounted_ok n); [|discriminate N].
  assert (D : a = Nets [Some (q_prop (k_prop k v n))] (0 + q_prop (k_prop k v n)) (Some (k_prop k v n))).
  { destruct (n_engines n); [congruence|]. destruct M as [M|M]; [destruct m; try discriminate M|subst m]; injection N as <-; reflexivity. }
  pose proof (A v n) as S. simpl in S.
  assert (R1 : e_nacelle e = q_nac (k_prop k v n)) by (subst e a; reflexivity).
  assert (R2 : e_prop e = prop_items e + e_nacelle e) by (subst e a; unfold prop_items; simpl; lra).
  split; [exact R1|split; [exact R2|]]. lra.
Qed.
(** with several networks the breakdown of the propulsion weight is the last network's only *)
Theorem C94_last_network m k o v e x n l : empty_weight m k o v = Ok (e, x) -> is_flops m = true \/ m = Raymer -> parts_add_up k ->
  v_nets v = l ++ [n] -> n_jet n = true -> n_engines n <> 0%nat -> n_total n = None ->
  prop_items e + e_nacelle e = q_prop (k_prop k v n) /\
  e_prop e = masses (map (network_mass m k v) l) + (prop_items e + e_nacelle e).
Proof.
  intros H M A V J G T. destruct (C94_networks _ _ _ _ _ _ H) as [X P]. destruct (empty_weight_inv _ _ _ _ _ _ H) as [a [w [N [_ [E _]]]]].
  assert (D : a_data a = Some (k_prop k v n)).
  { unfold all_nets in N. rewrite V, fold_left_app in N. simpl in N. destruct (fold_left (one_net m k v) l (Ok (Nets [] 0 None))) as [b|er]; [|discriminate N].
    simpl in N. rewrite J, T in N. destruct (mounted_ok n); [|discriminate N].
    destruct M as [M|M]; [destruct m; try discriminate M|subst m]; injection N as <-; reflexivity. }
  pose proof (A v n) as S. simpl in S.
  assert (R : prop_items e + e_nacelle e = q_prop (k_prop k v n)) by (subst e; unfold prop_items; simpl; rewrite D; lra).
  split; [exact R|]. rewrite R, P, X, V, map_app, masses_app. f_equal. unfold masses, network_mass. simpl. rewrite J, T.
  destruct (n_engines n); [congruence|]. simpl. destruct M as [M|M]; [destruct m; try discriminate M|subst m]; ring.
Qed.

(** a twin-engined airliner *)
Definition ex_wing : wing := Wing MainWing 34 (2 / 10) (4 / 10) 125 (1 / 10) 8 (Some 4) (Some 17) 100 250 9 TFalse (3 / 10) [] 2.
Definition ex_htail : wing := Wing HorizontalTail 14 (2 / 10) (7 / 10) 32 (1 / 10) 4 (Some 3) (Some 33) 25 64 6 TFalse 0 [] 0.
Definition ex_vtail : wing := Wing VerticalTail 7 (1 / 4) (6 / 10) 27 (1 / 10) 6 (Some 4) (Some 32) 27 54 2 TFalse 0 [] 0.
Definition ex_fuse : fuse := Fuse 55000 4 4 38 400 140 1.
Definition ex_net : network := Net true 2 100000 None (Flags [true; true]) [5; -5].
Definition ex_nacelle : nacelle := Nac 2 3.
Definition ex_vehicle : vehicle :=
  Vehicle 79000 62000 1000 170 125 (375 / 100) (25 / 10) MediumRange FullyPowered (Some (78 / 100)) (Some 5000000) (Some 10000)
    [ex_wing; ex_htail; ex_vtail] [ex_fuse] [ex_net] [ex_nacelle].
Definition ex_flops : book :=
  Book (fun v n => prop_flops v ex_nacelle n) payload_flops (fun v => oper_flops v ex_fuse ex_net) systems_common (fun v w => Some (wing_simple v w))
    (fun v w => tail_horizontal v ex_wing w) tail_vertical (fun v f ww wp => tube v f 8 ww wp) landing_gear.
Example C93_ex : exists e x, empty_weight SUAVE (suave_book (fun _ _ _ _ => 0) true) None ex_vehicle = Ok (e, x) /\
  e_mtow e = 79000 /\ x_nets x = [Some (16 / 10 * 2 * engine_jet 100000)].
Proof.
  eexists. eexists. split; [reflexivity|]. split; [reflexivity|]. simpl. do 2 f_equal. unfold integrated_propulsion, dec. simpl. lra.
Qed.
Example C94_ex : (exists e x, empty_weight FLOPS_Complex ex_flops None ex_vehicle = Ok (e, x)) /\ parts_add_up ex_flops /\
  closes_oper ex_flops /\ ~ closes_payload ex_flops.
Proof.
  split; [eexists; eexists; reflexivity|]. split; [intros v n; simpl; ring|]. split; [intro v; reflexivity|].
  intro H. specialize (H ex_vehicle). unfold payload_items in H. simpl in H. assert (X : 1000 / lb = 1000) by lra.
  unfold lb in X. lra.
Qed.
Example C93_ex_other : empty_weight OtherMethod ex_flops None ex_vehicle = Err ValueError /\
  empty_weight FLOPS_Complex ex_flops None
    (Vehicle 79000 62000 1000 170 125 3 2 MediumRange FullyPowered (Some 1) (Some 1) (Some 1) [ex_wing] [] [] []) = Err AttributeError /\
  empty_weight FLOPS_Simple ex_flops None
    (Vehicle 79000 62000 1000 170 125 3 2 MediumRange FullyPowered None (Some 1) (Some 1) [ex_wing] [] [] []) = Err ValueError.
Proof. repeat split. Qed.

(** ** C95: weight reduction factors *)
(** a wing weight that is not a number counts as nothing *)
Definition plain_wing (k : book) (v : vehicle) : R :=
  sum_over (fun w => match w_kind w, k_wing k v w with MainWing, Some x => x | _, _ => 0 end) (v_wings v).
Definition plain_htail (k : book) (v : vehicle) : R := sum_over (fun w => match w_kind w with HorizontalTail => k_htail k v w | _ => 0 end) (v_wings v).
Definition plain_vtail (k : book) (v : vehicle) : R := sum_over (fun w => match w_kind w with VerticalTail => k_vtail k v w | _ => 0 end) (v_wings v).
Definition plain_fuse (k : book) (v : vehicle) (ww wp : R) : R := sum_over (fun f => k_fuse k v f ww wp) (v_fuses v).
(** the reduction asked for: a structural factor other than 0 replaces the individual ones *)
Definition asked_wing (t : factors) : R := match t_struct t with Some s => if Req_EM_T s 0 then t_wing t else s | None => t_wing t end.
Definition asked_emp (t : factors) : R := match t_struct t with Some s => if Req_EM_T s 0 then t_emp t else s | None => t_emp t end.
Definition asked_fuse (t : factors) : R := match t_struct t with Some s => if Req_EM_T s 0 then t_fuse t else s | None => t_fuse t end.

Lemma wings_scaled m k t v b : all_wings m k t v = Ok b ->
  b_main b = (1 - t_wing t) * (1 - opt0 (t_struct t)) * plain_wing k v /\
  b_h b = (1 - t_emp t) * (1 - opt0 (t_struct t)) * plain_htail k v /\
  b_v b = (1 - t_emp t) * (1 - opt0 (t_struct t)) * plain_vtail k v.
Proof.
  unfold all_wings, plain_wing, plain_htail, plain_vtail. intro H.
  assert (Q : forall l a b, fold_left (one_wing m k t v) l (Ok a) = Ok b ->
    b_main b = b_main a + (1 - t_wing t) * (1 - opt0 (t_struct t)) * sum_over (fun w => match w_kind w, k_wing k v w with MainWing, Some x => x | _, _ => 0 end) l /\
    b_h b = b_h a + (1 - t_emp t) * (1 - opt0 (t_struct t)) * sum_over (fun w => match w_kind w with HorizontalTail => k_htail k v w | _ => 0 end) l /\
    b_v b = b_v a + (1 - t_emp t) * (1 - opt0 (t_struct t)) * sum_over (fun w => match w_kind w with VerticalTail => k_vtail k v w | _ => 0 end) l).
  { clear. intro l. induction l as [|w l IH]; intros a b H; simpl in H; simpl.
    - injection H as ->. repeat split; ring.
    - destruct (w_kind w); [destruct m|..]; try (rewrite wings_err in H; discriminate H);
        apply IH in H; destruct H as [A [B C]]; rewrite A, B, C; simpl; try (destruct (k_wing k v w)); repeat split; ring. }
  destruct (Q _ _ _ H) as [A [B C]]. simpl in A, B, C. rewrite A, B, C. repeat split; ring.
Qed.
Lemma settle_wing t : (1 - t_wing (settle (Some t))) * (1 - opt0 (t_struct (settle (Some t)))) = 1 - asked_wing t.
Proof. unfold settle, asked_wing, zero. destruct (t_struct t) as [s|]; [destruct (Req_EM_T s 0)|]; simpl; ring. Qed.
Lemma settle_emp t : (1 - t_emp (settle (Some t))) * (1 - opt0 (t_struct (settle (Some t)))) = 1 - asked_emp t.
Proof. unfold settle, asked_emp, zero. destruct (t_struct t) as [s|]; [destruct (Req_EM_T s 0)|]; simpl; ring. Qed.
Lemma settle_fuse t : (1 - t_fuse (settle (Some t))) * (1 - opt0 (t_struct (settle (Some t)))) = 1 - asked_fuse t.
Proof. unfold settle, asked_fuse, zero. destruct (t_struct t) as [s|]; [destruct (Req_EM_T s 0)|]; simpl; ring. Qed.

(** each factor reduces its own items by its fraction; gear, propulsion, systems, payload and operating items are left alone *)
Theorem C95_factors m k t v e x : empty_weight m k (Some t) v = Ok (e, x) ->
  e_wing e = (1 - asked_wing t) * plain_wing k v /\
  e_htail e = (1 - asked_emp t) * plain_htail k v /\
  e_vtail e = (1 - asked_emp t) * plain_vtail k v /\
  e_fuse e = (1 - asked_fuse t) * plain_fuse k v (e_wing e) (e_prop e) /\
  exists e0 x0, empty_weight m k None v = Ok (e0, x0) /\
    e_wing e0 = plain_wing k v /\ e_htail e0 = plain_htail k v /\ e_vtail e0 = plain_vtail k v /\
    e_fuse e0 = plain_fuse k v (e_wing e0) (e_prop e0) /\
    e_main_gear e = e_main_gear e0 /\ e_nose_gear e = e_nose_gear e0 /\ e_prop e = e_prop e0 /\ e_systems e = e_systems e0 /\
    e_payload e = e_payload e0 /\ e_oper e = e_oper e0.
Proof.
  assert (FU : forall t a w, snd (all_fuses k t v (b_main w) (a_total a)) = (1 - t_fuse t) * (1 - opt0 (t_struct t)) * plain_fuse k v (b_main w) (a_total a)).
  { intros t0 a w. destruct (all_fuses_ok k t0 v (b_main w) (a_total a)) as [F1 F2]. rewrite F1, F2. clear F1 F2. unfold plain_fuse. induction (v_fuses v) as [|f l IH]; simpl; [ring|].
    rewrite IH. ring. }
  intro H. destruct (empty_weight_inv _ _ _ _ _ _ H) as [a [w [N [W [E X]]]]].
  destruct (proj2 (C93_success m k None v)) as [[e0 x0] H0].
  { apply (proj1 (C93_success m k (Some t) v)). eexists. exact H. }
  destruct (empty_weight_inv _ _ _ _ _ _ H0) as [a0 [w0 [N0 [W0 [E0 X0]]]]].
  rewrite N in N0. injection N0 as <-.
  destruct (wings_scaled _ _ _ _ _ W) as [A [B C]]. destruct (wings_scaled _ _ _ _ _ W0) as [A0 [B0 C0]].
  rewrite settle_wing in A. rewrite settle_emp in B, C. pose proof (FU (settle (Some t)) a w) as F. pose proof (FU (settle None) a w0) as F0. rewrite settle_fuse in F.
  subst e e0. simpl in A0, B0, C0. split; [exact A|]. split; [exact B|]. split; [exact C|]. split; [exact F|].
  exists (statement_of w0 (snd (all_fuses k (settle None) v (b_main w0) (a_total a))) (k_gear k v) a (scale_sys (1 - 0) (k_sys k v)) (k_payload k v) (k_oper k v) (v_mtow v)), x0.
  split; [exact H0|]. rewrite settle_sys.
  split; [etransitivity; [exact A0|ring]|]. split; [etransitivity; [exact B0|ring]|]. split; [etransitivity; [exact C0|ring]|].
  split; [etransitivity; [exact F0|simpl; ring]|]. repeat split; reflexivity.
Qed.
(** the systems factor is read by nobody *)
Theorem C95_systems_refuted m k t s v : empty_weight m k (Some (Factors (t_wing t) (t_emp t) (t_fuse t) (t_struct t) s)) v = empty_weight m k (Some t) v.
Proof. unfold empty_weight, settle. simpl. destruct (t_struct t) as [q|]; [destruct (zero q)|]; reflexivity. Qed.
(** the settings are written back: estimating again changes nothing, but individual factors overridden by a structural one are gone for good *)
Theorem C95_again m k o v : empty_weight m k (Some (settle o)) v = empty_weight m k o v.
Proof.
  unfold empty_weight. replace (settle (Some (settle o))) with (settle o); [reflexivity|].
  assert (Z : zero 0 = true) by (apply zero_yes; reflexivity).
  destruct o as [t|]; simpl; [|rewrite Z; reflexivity]. destruct (t_struct t) as [s|]; [|simpl; rewrite Z; reflexivity].
  destruct (zero s) eqn:S; simpl; [rewrite Z; reflexivity|rewrite S; reflexivity].
Qed.
Theorem C95_lost_refuted t s : s <> 0 ->
  let t' := settle (Some (Factors (t_wing t) (t_emp t) (t_fuse t) (Some s) (t_sys t))) in
  asked_wing (Factors (t_wing t') (t_emp t') (t_fuse t') (Some 0) (t_sys t')) = 0 /\ asked_wing (Factors (t_wing t) (t_emp t) (t_fuse t) (Some 0) (t_sys t)) = t_wing t.
Proof.
  intro S. unfold settle. simpl. rewrite (zero_no s S). unfold asked_wing. simpl. destruct (Req_EM_T 0 0); [|lra]. split; reflexivity.
Qed.
(** a lighter wing makes the tube heavier: less of the take-off weight is relieved at the wing *)
Theorem C95_tube_relief v f root ww ww' wp : ww < ww' -> 0 < v_nlim v -> 0 < f_height f -> root / 2 < f_length f -> 0 < f_wetted f -> 0 <= pressure_index f ->
  ww' + wp < v_mzf v ->
  tube v f root ww' wp <= tube v f root ww wp.
Proof.
  intros W N Hh L F P Z. pose proof lb_pos. pose proof ft_pos. pose proof ft2_pos. unfold tube.
  apply Rmult_le_compat_r; [lra|]. apply Rmult_le_compat_r; [left; apply Rdiv_lt_0_compat; lra|]. apply Rplus_le_compat_l.
  apply Rmult_le_compat_l; [left; apply dec_pos; lia|].
  assert (B : bending_index v f root ww' wp < bending_index v f root ww wp /\ 0 < bending_index v f root ww' wp).
  { unfold bending_index. assert (H2 : 0 < f_height f / ft * (f_height f / ft)) by (assert (0 < f_height f / ft) by (apply Rdiv_lt_0_compat; lra); nra).
    assert (A : 0 < (f_length f - root / 2) / ft) by (apply Rdiv_lt_0_compat; lra). assert (D : 0 < dec 191 6 * v_nlim v) by (apply Rmult_lt_0_compat; [apply dec_pos; lia|lra]).
    assert (M : (v_mzf v - ww' - wp) / lb < (v_mzf v - ww - wp) / lb) by (apply div_less; lra). assert (M0 : 0 < (v_mzf v - ww' - wp) / lb) by (apply Rdiv_lt_0_compat; lra).
    split.
    - apply div_less; [exact H2|]. apply Rmult_lt_compat_r; [exact A|]. apply Rmult_lt_compat_l; [exact D|exact M].
    - apply Rdiv_lt_0_compat; [|exact H2]. apply Rmult_lt_0_compat; [|exact A]. apply Rmult_lt_0_compat; assumption. }
  destruct B as [B B0]. revert B B0. generalize (bending_index v f root ww' wp) (bending_index v f root ww wp). intros b b' B B0. set (p := pressure_index f) in *.
  unfold fuse_index. destruct (Rltb b p) eqn:E1; destruct (Rltb b' p) eqn:E2; rewrite ?Rltb_true, ?Rltb_false in *.
  - lra.
  - apply Rmult_le_reg_r with (2 * b'); [lra|]. unfold Rdiv. rewrite (Rmult_assoc _ (/ (2 * b'))), Rinv_l by lra. nra.
  - lra.
  - apply Rmult_le_reg_r with (2 * b); [lra|]. unfold Rdiv at 1. rewrite Rmult_assoc, Rinv_l by lra.
    apply Rmult_le_reg_r with (2 * b'); [lra|]. replace ((p * p + b' * b') / (2 * b') * (2 * b) * (2 * b')) with ((p * p + b' * b') * (2 * b)) by (field; lra).
    assert (p * p <= b * b') by nra. assert (0 <= (b' - b) * (b * b' - p * p)) by (apply Rmult_le_pos; lra). lra.
Qed.
Example C95_ex : exists e x, empty_weight SUAVE (suave_book (fun _ _ _ _ => 0) true) (Some (Factors (1 / 10) (2 / 10) (5 / 100) None None)) ex_vehicle = Ok (e, x) /\
  asked_wing (Factors (1 / 10) (2 / 10) (5 / 100) (Some (3 / 10)) None) = 3 / 10 /\ asked_wing (Factors (1 / 10) (2 / 10) (5 / 100) None None) = 1 / 10.
Proof.
  eexists. eexists. split; [reflexivity|]. unfold asked_wing. simpl. destruct (Req_EM_T (3 / 10) 0); [lra|]. split; reflexivity.
Qed.
(** the airliner: the wing correlation and then the tube *)
Example C95_ex_tube : tube ex_vehicle ex_fuse 8 8000 9000 <= tube ex_vehicle ex_fuse 8 7000 9000.
Proof.
  apply C95_tube_relief; simpl; try lra. unfold pressure_index. pose proof ft_pos. pose proof ft2_pos. pose proof lbf_pos. simpl.
  apply Rmult_le_pos; [apply Rmult_le_pos; [left; apply dec_pos; lia|]|]; left; repeat apply Rdiv_lt_0_compat; lra.
Qed.

(** ** C96: payload, crew, operating items and systems *)
Theorem C96_attendants v n : v_pax v = INR n -> INR n <= 50 * attendants v /\ 1 <= attendants v /\ exists z, attendants v = IZR z.
Proof.
  intro P. unfold attendants. rewrite P. destruct (Rltb (INR n) 51) eqn:B.
  - apply Rltb_true in B. assert (n < 51)%nat by (apply INR_lt; simpl; lra). assert (INR n <= INR 50) by (apply le_INR; lia). simpl in H0.
    split; [lra|]. split; [lra|]. exists 1%Z. reflexivity.
  - apply Rltb_false in B. destruct (floor_bounds (INR n / 40)) as [F _]. pose proof (floor_least 0 (INR n / 40)) as F0. simpl in F0.
    split; [lra|]. split; [lra|]. exists (1 + (up (INR n / 40) - 1))%Z. rewrite plus_IZR. reflexivity.
Qed.
Theorem C96_crew v : (v_pax v < 150 -> flight_crew v = 2) /\ (150 <= v_pax v -> flight_crew v = 3).
Proof. unfold flight_crew. split; intro H; destruct (Rltb (v_pax v) 150) eqn:B; rewrite ?Rltb_true, ?Rltb_false in B; lra. Qed.
(** more passengers: no item of the payload, the operating items or the systems gets lighter *)
Theorem C96_monotone v n : 0 <= v_pax v <= n ->
  let v' := with_pax n v in
  p_pax (payload_common v) <= p_pax (payload_common v') /\ p_bag (payload_common v) <= p_bag (payload_common v') /\
  p_total (payload_common v) <= p_total (payload_common v') /\
  o_items (operating_items v) <= o_items (operating_items v') /\ o_crew (operating_items v) <= o_crew (operating_items v') /\
  o_att (operating_items v) <= o_att (operating_items v') /\ o_total (operating_items v) <= o_total (operating_items v') /\
  s_apu (systems_common v) <= s_apu (systems_common v') /\ s_elec (systems_common v) <= s_elec (systems_common v') /\
  s_furn (systems_common v) <= s_furn (systems_common v') /\ s_ac (systems_common v) <= s_ac (systems_common v') /\
  s_total (systems_common v) <= s_total (systems_common v').
Proof.
  intros P v'. pose proof lb_pos as L. set (m := v_pax v) in *. assert (LP : m * lb <= n * lb) by (apply Rmult_le_compat_r; lra).
  assert (I : oper_items v <= oper_items v') by (unfold oper_items, v'; simpl; fold m; destruct (v_acc v); lra).
  assert (C : flight_crew v <= flight_crew v').
  { unfold flight_crew, v'; simpl; fold m. destruct (Rltb m 150) eqn:B; destruct (Rltb n 150) eqn:B'; rewrite ?Rltb_true, ?Rltb_false in *; lra. }
  assert (A : attendants v <= attendants v').
  { unfold attendants, v'; simpl; fold m. destruct (Rltb m 51) eqn:B; destruct (Rltb n 51) eqn:B'; rewrite ?Rltb_true, ?Rltb_false in *; try lra.
    - pose proof (floor_least 0 (n / 40)) as F. simpl in F. lra.
    - apply Rplus_le_compat_l, floor_leq. lra. }
  assert (C' : flight_crew v * lb <= flight_crew v' * lb) by (apply Rmult_le_compat_r; lra).
  assert (A' : attendants v * lb <= attendants v' * lb) by (apply Rmult_le_compat_r; lra).
  assert (AP : s_apu (systems_common v) <= s_apu (systems_common v')).
  { unfold systems_common, v'. cbn [s_apu]. simpl v_pax. fold m. destruct (Rltb m 6) eqn:B; destruct (Rltb n 6) eqn:B'; rewrite ?Rltb_true, ?Rltb_false in *; unfold Rmax;
      repeat destruct (Rle_dec _ _); lra. }
  assert (EL : s_elec (systems_common v) <= s_elec (systems_common v')) by (simpl; fold m; destruct (v_acc v); lra).
  assert (FU0 : ((dec 437 1 - dec 37 3 * Rmin m 300) * m + 46 * m) * lb <= ((dec 437 1 - dec 37 3 * Rmin n 300) * n + 46 * n) * lb).
  { apply Rmult_le_compat_r; [lra|]. unfold dec, Rmin. simpl. destruct (Rle_dec m 300); destruct (Rle_dec n 300); nra. }
  assert (FU : s_furn (systems_common v) <= s_furn (systems_common v')).
  { unfold systems_common, v'. cbn [s_furn]. simpl v_pax. simpl v_acc. fold m. destruct (v_acc v); lra. }
  assert (AC : s_ac (systems_common v) <= s_ac (systems_common v')) by (simpl; fold m; lra).
  repeat (split; [try (assumption || (simpl; fold m; lra))|]); try assumption.
  change (s_ctrl (systems_common v) + s_apu (systems_common v) + s_hyd (systems_common v) + s_ac (systems_common v) + s_avi (systems_common v) + s_elec (systems_common v)
          + s_furn (systems_common v) + s_instr (systems_common v)
          <= s_ctrl (systems_common v') + s_apu (systems_common v') + s_hyd (systems_common v') + s_ac (systems_common v') + s_avi (systems_common v') + s_elec (systems_common v')
          + s_furn (systems_common v') + s_instr (systems_common v')).
  assert (R1 : s_ctrl (systems_common v) = s_ctrl (systems_common v')) by reflexivity. assert (R2 : s_hyd (systems_common v) = s_hyd (systems_common v')) by reflexivity.
  assert (R3 : s_avi (systems_common v) = s_avi (systems_common v')) by reflexivity. assert (R4 : s_instr (systems_common v) = s_instr (systems_common v')) by reflexivity.
  lra.
Qed.
Theorem C96_payload v :
  p_total (payload_common v) = payload_items (payload_common v) /\ p_pax (payload_common v) + p_bag (payload_common v) = 225 * lb * v_pax v /\
  p_cargo (payload_common v) = v_cargo v.
Proof. unfold payload_items, payload_common. simpl. repeat split; ring. Qed.
(** FLOPS adds the cargo in pounds to kilograms *)
Theorem C96_payload_flops v :
  (p_total (payload_flops v) = payload_items (payload_flops v) <-> v_cargo v = 0) /\
  p_total (payload_flops v) - payload_items (payload_flops v) = v_cargo v / lb - v_cargo v.
Proof.
  unfold payload_items, payload_flops. simpl. split; [|ring]. unfold lb. split; intro H; [|rewrite H; lra].
  match type of H with ?a + ?b + ?c = ?a + ?b + ?d => assert (X : c = d) by lra end. lra.
Qed.
(** baggage allowance by design range: 35, 40 or 44 pounds a passenger *)
Theorem C96_baggage v :
  (range_of v <= 900 * nmi -> p_bag (payload_flops v) = 35 * lb * v_pax v) /\
  (900 * nmi < range_of v <= 2900 * nmi -> p_bag (payload_flops v) = 40 * lb * v_pax v) /\
  (2900 * nmi < range_of v -> p_bag (payload_flops v) = 44 * lb * v_pax v).
Proof.
  unfold payload_flops, nmi. simpl. repeat split; intro H;
    destruct (Rltb 900 (range_of v / 1852)) eqn:B; try destruct (Rltb 2900 (range_of v / 1852)) eqn:B'; rewrite ?Rltb_true, ?Rltb_false in *; try lra; exfalso; lra.
Qed.
Theorem C96_seats v f : seats_first v f + seats_business v f + f_coach f = v_pax v /\ seats_business v f = 3 * seats_first v f.
Proof. unfold seats_business, seats_first. split; field. Qed.
(** a fuselage carries 0 coach seats unless told otherwise: then every passenger gets first or business class service *)
Theorem C96_no_coach v f : f_coach f = 0 -> seats_first v f = v_pax v / 4 /\ seats_business v f = 3 / 4 * v_pax v.
Proof. intro H. unfold seats_business, seats_first. rewrite H. split; field. Qed.
Theorem C96_systems v : let s := systems_common v in
  s_total s = s_ctrl s + s_apu s + s_hyd s + s_ac s + s_avi s + s_elec s + s_furn s + s_instr s /\ 70 <= s_apu s /\ s_ice s = 0 /\
  s_hyd s = 65 / 100 * (v_sref v / (ft * ft)) * lb /\
  (match v_control v with FullyPowered => 35 | PartiallyPowered => 25 | OtherControl => 17 end) / 10 * tail_area v / (ft * ft) * lb = s_ctrl s.
Proof.
  pose proof ft_pos. simpl. repeat split.
  - unfold Rmax. destruct (Rle_dec _ _); lra.
  - unfold dec. simpl. destruct (v_control v); simpl; field; lra.
Qed.
(** the tails set the weight of the controls; without any, a hundredth of the main wing does *)
Theorem C96_tail_area v : (forall w, In w (v_wings v) -> is_tail w = true -> 0 < w_area w) ->
  tail_area v = if existsb is_tail (v_wings v) then sum_over (fun w => if is_tail w then w_area w else 0) (v_wings v)
                else sum_over (fun w => if is_main w then w_area w / 100 else 0) (v_wings v).
Proof.
  intro P. unfold tail_area.
  assert (Q : forall (g : wing -> bool) (c : R) l s, fold_left (fun a w => if g w then a + w_area w * c else a) l s = s + sum_over (fun w => if g w then w_area w * c else 0) l).
  { clear. intros g c l. induction l as [|w l IH]; intro s; simpl; [ring|]. rewrite IH. destruct (g w); ring. }
  assert (Q1 : forall l s, fold_left (fun a w => if is_tail w then a + w_area w else a) l s = s + sum_over (fun w => if is_tail w then w_area w else 0) l).
  { clear. intro l. induction l as [|w l IH]; intro s; simpl; [ring|]. rewrite IH. destruct (is_tail w); ring. }
  rewrite Q1, Rplus_0_l.
  assert (S : forall l, (forall w, In w l -> is_tail w = true -> 0 < w_area w) ->
    0 <= sum_over (fun w => if is_tail w then w_area w else 0) l /\ (existsb is_tail l = true -> 0 < sum_over (fun w => if is_tail w then w_area w else 0) l) /\
    (existsb is_tail l = false -> sum_over (fun w => if is_tail w then w_area w else 0) l = 0)).
  { clear. intro l. induction l as [|w l IH]; intro P; simpl; [repeat split; try lra; intro X; discriminate X|].
    destruct (IH (fun w' I => P w' (or_intror I))) as [A [B C]]. specialize (P w (or_introl eq_refl)). destruct (is_tail w); simpl.
    - specialize (P eq_refl). repeat split; intros; try lra; discriminate.
    - repeat split; intros; try lra; [specialize (B H); lra|specialize (C H); lra]. }
  destruct (S _ P) as [A [B C]]. destruct (existsb is_tail (v_wings v)).
  - rewrite zero_no; [reflexivity|]. specialize (B eq_refl). lra.
  - specialize (C eq_refl). rewrite C, zero_yes by reflexivity. rewrite Q, Rplus_0_l. clear. induction (v_wings v) as [|w l IH]; simpl; [reflexivity|]. rewrite IH.
    destruct (is_main w); [unfold dec; simpl; lra|reflexivity].
Qed.
Example C96_ex : v_pax ex_vehicle = INR 170 /\ 3 < attendants ex_vehicle /\ flight_crew ex_vehicle = 3 /\ tail_area ex_vehicle = 59 /\ f_coach ex_fuse = 140 /\
  p_bag (payload_flops ex_vehicle) = 40 * lb * 170.
Proof.
  assert (P : v_pax ex_vehicle = INR 170) by (simpl; lra). split; [exact P|]. split.
  { destruct (C96_attendants _ _ P) as [A _]. rewrite <- P in A. simpl v_pax in A. lra. }
  split; [apply C96_crew; simpl; lra|]. split; [|split; [reflexivity|]].
  - rewrite C96_tail_area; [simpl; lra|]. simpl. intros w [<-|[<-|[<-|[]]]] _; simpl; lra.
  - apply (C96_baggage ex_vehicle). simpl. unfold range_of. simpl. unfold nmi. lra.
Qed.
Print Assumptions C93_closes.
Print Assumptions C93_leaves.
Print Assumptions C93_success.
Print Assumptions C93_failure.
Print Assumptions C93_operating_empty_refuted.
Print Assumptions C94_networks.
Print Assumptions C94_components.
Print Assumptions C94_total.
Print Assumptions C94_suave_closes.
Print Assumptions C94_parts.
Print Assumptions C94_nacelles_twice.
Print Assumptions C94_last_network.
Print Assumptions C95_factors.
Print Assumptions C95_systems_refuted.
Print Assumptions C95_again.
Print Assumptions C95_lost_refuted.
Print Assumptions C95_tube_relief.
Print Assumptions C96_attendants.
Print Assumptions C96_crew.
Print Assumptions C96_monotone.
Print Assumptions C96_payload.
Print Assumptions C96_payload_flops.
Print Assumptions C96_baggage.
Print Assumptions C96_seats.
Print Assumptions C96_no_coach.
Print Assumptions C96_systems.
Print Assumptions C96_tail_area.
