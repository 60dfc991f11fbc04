(** * One engine out, excess power and the best speeds: theorems (C198 - C201) *)
From Coq Require Import Reals Bool Arith String List Lra Lia Permutation.
From Verif Require Import PyBase M_Opt P_Opt M_Noise P_Noise M_Cryo M_Field M_Drag M_Perf.
Import ListNotations.
Local Open Scope R_scope.
Local Open Scope list_scope.

(** ** Vocabulary *)
(** [w] is the first vertical surface of the vehicle and no other surface bears its tag *)
Definition first_fin (ws : list gwing) (w : gwing) : Prop :=
  exists pre post, ws = pre ++ w :: post /\ Forall (fun x => g_vertical x = false) pre /\ g_vertical w = true /\ NoDup (map g_tag ws).
(** the reference area is given *)
Definition area_given (v : gveh) (s : R) : Prop := v_area v = Some s /\ s <> 0.

Lemma quo_some : forall a b, b <> 0 -> quo a b = Some (a / b).
Proof. intros a b N. unfold quo. destruct (Req_EM_T b 0); [contradiction | reflexivity]. Qed.
Lemma ref_given : forall v s, area_given v s -> ref_area v = Ok s.
Proof. intros v s [E N]. unfold ref_area. rewrite E. destruct (Req_EM_T s 0); [contradiction | reflexivity]. Qed.
Lemma fin_tag : forall ws w, first_fin ws w -> vertical_tag ws = Some (g_tag w) /\ by_tag ws (g_tag w) = Ok w.
Proof.
  intros ws w [pre [post [E [F [V N]]]]]. subst ws. induction pre as [|x pre IH]; simpl.
  - rewrite V, String.eqb_refl. split; reflexivity.
  - inversion F; subst. inversion N; subst. simpl in H3. destruct (IH H2 H4) as [A B]. rewrite H1. split; [exact A|].
    destruct (String.eqb_spec (g_tag x) (g_tag w)) as [E|E]; [|exact B].
    exfalso. apply H3. rewrite E, map_app. apply in_or_app. right. left. reflexivity.
Qed.
Lemma no_fin_tag : forall ws, Forall (fun x => g_vertical x = false) ws -> vertical_tag ws = None.
Proof. induction 1 as [|x l E F IH]; simpl; [reflexivity | rewrite E; exact IH]. Qed.

(** *** C198: trim drag of a failed engine *)
(** the fin's side force balances the moment of the engine's thrust and the dead engine's drag about the centre of gravity, and the trim drag is its induced drag *)
Theorem C198_balance : forall v q given stored s w n nets ox os cx cs,
  area_given v s -> first_fin (v_wings v) w -> v_nets v = n :: nets ->
  (g_ac_plain w = false \/ g_origin_list w = false) -> g_origin w = ox :: os -> v_cg v = cx :: cs ->
  let arm := g_ac w + ox - cx in let c := if Req_EM_T given 0 then match stored with Some m => m | None => 0 end else given in
  0 < q -> g_span w <> 0 -> arm <> 0 ->
  exists coef rest side, asymmetry_drag v q given stored = Ok (Some coef :: rest) /\
    side * arm = n_y n * (n_thrust n / n_engines n + c * q * s) /\
    coef * (q * s) * (q * (3141593 / 1000000) * g_span w ^ 2) = side ^ 2.
Proof.
  intros v q given stored s w n nets ox os cx cs A F EN K EO EC arm c Q H L.
  destruct (fin_tag _ _ F) as [T B]. unfold asymmetry_drag. rewrite (ref_given v s A). cbn [bind]. rewrite T, B. cbn [bind].
  unfold lever. replace (g_ac_plain w && g_origin_list w) with false by (destruct K as [K|K]; rewrite K; [reflexivity | symmetry; apply andb_false_r]).
  cbn [bind]. rewrite EN, EO, EC. cbn [map2 map]. fold arm.
  assert (M : milling given stored = c) by (unfold milling, c; destruct (Req_EM_T given 0); [destruct stored; [reflexivity | congruence] | reflexivity]).
  rewrite M. destruct A as [_ S0].
  set (y := n_y n). set (t := n_thrust n / n_engines n). set (h := g_span w).
  assert (D : q * (3141593 / 1000000) * (h * arm) ^ 2 <> 0).
  { apply Rmult_integral_contrapositive_currified; [nra|]. apply pow_nonzero. apply Rmult_integral_contrapositive_currified; assumption. }
  exists (y ^ 2 * (t + c * q * s) ^ 2 / (q * (3141593 / 1000000) * (h * arm) ^ 2) / q / s).
  exists (map (trim q s y t c h) (map2 (fun o cc => g_ac w + o - cc) os cs)), (y * (t + c * q * s) / arm).
  split; [|split].
  - unfold trim at 1. rewrite (quo_some _ _ D). rewrite quo_some by lra. rewrite quo_some by assumption. reflexivity.
  - field. exact L.
  - field. repeat split; try assumption; lra.
Qed.
(** it does not matter on which side the engine stands; it is never negative; at the centre line there is none *)
Theorem C198_side : forall q s y t c h l, trim q s (- y) t c h l = trim q s y t c h l.
Proof. intros. unfold trim. replace ((- y) ^ 2) with (y ^ 2) by ring. reflexivity. Qed.
Lemma trim_some : forall q s y t c h l, 0 < q -> 0 < s -> h <> 0 -> l <> 0 ->
  trim q s y t c h l = Some ((y * (t + c * q * s)) ^ 2 / (q * (3141593 / 1000000) * (h * l) ^ 2) / q / s).
Proof.
  intros q s y t c h l Q S0 H L. unfold trim.
  assert (D : q * (3141593 / 1000000) * (h * l) ^ 2 <> 0).
  { apply Rmult_integral_contrapositive_currified; [nra|]. apply pow_nonzero. apply Rmult_integral_contrapositive_currified; assumption. }
  rewrite (quo_some _ _ D). rewrite quo_some by lra. rewrite quo_some by lra. f_equal. rewrite (Rpow_mult_distr y). reflexivity.
Qed.
Theorem C198_sign : forall q s y t c h l d, 0 < q -> 0 < s -> h <> 0 -> l <> 0 -> trim q s y t c h l = Some d ->
  0 <= d /\ (d = 0 <-> y = 0 \/ t + c * q * s = 0).
Proof.
  intros q s y t c h l d Q S0 H L E. rewrite trim_some in E by assumption.
  assert (E' : d = (y * (t + c * q * s)) ^ 2 / (q * (3141593 / 1000000) * (h * l) ^ 2) / q / s) by congruence. subst d. clear E.
  set (m := y * (t + c * q * s)). set (D := q * (3141593 / 1000000) * (h * l) ^ 2).
  assert (P : 0 < D).
  { unfold D. apply Rmult_lt_0_compat; [lra|]. assert (h * l <> 0) by (apply Rmult_integral_contrapositive_currified; assumption).
    rewrite <- Rsqr_pow2. apply Rsqr_pos_lt. assumption. }
  assert (I : 0 < / D / q / s) by (repeat apply Rdiv_lt_0_compat; try assumption; apply Rinv_0_lt_compat; assumption).
  assert (KEY : m ^ 2 / D / q / s = m ^ 2 * (/ D / q / s)) by (unfold Rdiv; ring).
  rewrite KEY. clear KEY. clearbody D.
  split; [apply Rmult_le_pos; [apply pow2_ge_0 | lra]|]. split.
  - intro Z. apply Rmult_integral in Z. destruct Z as [Z|Z]; [|lra].
    assert (m = 0) by (apply Rsqr_0_uniq; rewrite Rsqr_pow2; exact Z). unfold m in H0. apply Rmult_integral in H0. tauto.
  - intros [Z|Z]; unfold m; rewrite Z; ring.
Qed.
(** a taller fin or a longer arm costs less, exactly as the square of their product *)
Theorem C198_tail : forall q s y t c h l h' l' d d', 0 < q -> 0 < s -> h <> 0 -> l <> 0 -> h' <> 0 -> l' <> 0 ->
  trim q s y t c h l = Some d -> trim q s y t c h' l' = Some d' -> d' * (h' * l') ^ 2 = d * (h * l) ^ 2.
Proof.
  intros q s y t c h l h' l' d d' Q S0 H L H' L' E E'. rewrite trim_some in E, E' by assumption. injection E as E. injection E' as E'. subst.
  field. repeat split; try assumption; lra.
Qed.
(** the state's windmilling drag is used when none is given, as if it had been given *)
Theorem C198_stored : forall v q m other, m <> 0 -> asymmetry_drag v q 0 (Some m) = asymmetry_drag v q m other.
Proof.
  intros v q m other N. unfold asymmetry_drag. replace (milling m other) with (milling 0 (Some m)); [reflexivity|].
  unfold milling. destruct (Req_EM_T 0 0); [|congruence]. destruct (Req_EM_T m 0); [contradiction | reflexivity].
Qed.
(** only the first network counts, and only the first vertical surface *)
Theorem C198_first_network : forall a ws n nets nets' nac cg q given stored,
  asymmetry_drag (GVeh a ws (n :: nets) nac cg) q given stored = asymmetry_drag (GVeh a ws (n :: nets') nac cg) q given stored.
Proof. reflexivity. Qed.
(** without a vertical surface, or without a network, the call fails with UnboundLocalError; the message the code has for the first case is never printed *)
Theorem C198_missing : forall v q given stored s, area_given v s ->
  (Forall (fun x => g_vertical x = false) (v_wings v) -> asymmetry_drag v q given stored = Err UnboundLocalError) /\
  (forall w, first_fin (v_wings v) w -> g_ac_plain w = false \/ g_origin_list w = false -> v_nets v = [] -> asymmetry_drag v q given stored = Err UnboundLocalError).
Proof.
  intros v q given stored s A. unfold asymmetry_drag. rewrite (ref_given v s A). cbn [bind]. split.
  - intro F. rewrite (no_fin_tag _ F). reflexivity.
  - intros w F K E. destruct (fin_tag _ _ F) as [T B]. rewrite T, B. cbn [bind]. unfold lever.
    replace (g_ac_plain w && g_origin_list w) with false by (destruct K as [K|K]; rewrite K; [reflexivity | symmetry; apply andb_false_r]).
    cbn [bind]. rewrite E. reflexivity.
Qed.
(** a fin whose origin is a list and whose aerodynamic centre is a plain number makes it fail with TypeError *)
Theorem C198_plain : forall v q given stored s w, area_given v s -> first_fin (v_wings v) w -> g_ac_plain w = true -> g_origin_list w = true ->
  asymmetry_drag v q given stored = Err TypeError.
Proof.
  intros v q given stored s w A F P L. destruct (fin_tag _ _ F) as [T B]. unfold asymmetry_drag. rewrite (ref_given v s A). cbn [bind]. rewrite T, B. cbn [bind].
  unfold lever. rewrite P, L. reflexivity.
Qed.

Definition a_fin : gwing := GWing "fin" true false true None 20 4 (Some 1) 2 false [30; 0; 1] true.
Definition a_wing : gwing := GWing "main_wing" true true false None 100 30 (Some 9) 2 false [10; 0; 0] true.
Definition a_jet : gveh := GVeh (Some 100) [a_wing; a_fin] [GNet 5 200 2] [30; 30] [12; 0; 0].
Example a_fin_first : first_fin (v_wings a_jet) a_fin.
Proof.
  exists [a_wing], []. split; [reflexivity|]. split; [repeat constructor|]. split; [reflexivity|].
  repeat constructor; simpl; intuition discriminate.
Qed.
Example a_jet_area : area_given a_jet 100.
Proof. split; [reflexivity | lra]. Qed.
(** "the answer is one drag coefficient" is false: it is a row of three, of which the second and third use the origin's sideways and upward places as the arm *)
Theorem C198_row_refuted : exists x y z, asymmetry_drag a_jet 1 0 None = Ok [Some x; Some y; Some z] /\ x < z /\ z < y.
Proof.
  assert (E : asymmetry_drag a_jet 1 0 None = Ok [trim 1 100 5 100 0 4 20; trim 1 100 5 100 0 4 2; trim 1 100 5 100 0 4 3]).
  { unfold asymmetry_drag. rewrite (ref_given a_jet 100 a_jet_area). cbn [bind]. simpl vertical_tag. simpl by_tag. cbn [bind lever].
    simpl. unfold milling. destruct (Req_EM_T 0 0); [|congruence]. replace (200 / 2) with 100 by lra.
    replace (2 + 30 - 12) with 20 by ring. replace (2 + 0 - 0) with 2 by ring. replace (2 + 1 - 0) with 3 by ring. reflexivity. }
  rewrite E, !trim_some by lra. do 3 eexists. split; [reflexivity|]. split; lra.
Qed.
Example C198_balance_case : exists coef rest side, asymmetry_drag a_jet 1 (1 / 100) None = Ok (Some coef :: rest) /\ side * 20 = 5 * (100 + 1) /\
  coef * (1 * 100) * (1 * (3141593 / 1000000) * 4 ^ 2) = side ^ 2.
Proof.
  destruct (C198_balance a_jet 1 (1 / 100) None 100 a_fin (GNet 5 200 2) [] 30 [0; 1] 12 [0; 0] a_jet_area a_fin_first eq_refl (or_introl eq_refl) eq_refl eq_refl)
    as [c [r [f [E [M D]]]]]; simpl; try lra.
  simpl in M, D, E. destruct (Req_EM_T (1 / 100) 0); [lra|].
  exists c, r, f. split; [exact E|]. split; [|simpl; rewrite <- D; reflexivity].
  replace 20 with (2 + 30 - 12) by ring. rewrite M. field.
Qed.

(** *** C199: windmilling drag, lift over drag and thrust with an engine out *)
(** if the vehicle has a reference area it is used; else that of the last main wing; else that of the first wing *)
Lemma main_area_app : forall pre ws acc, Forall (fun w => g_main w = true -> g_sref w <> None) pre -> Forall (fun w => g_main w = false) ws ->
  forall w s, g_main w = true -> g_sref w = Some s -> main_area (pre ++ w :: ws) acc = Ok (Some s).
Proof.
  induction pre as [|x pre IH]; intros ws acc P N w s M E; simpl.
  - rewrite M. unfold sref_of. rewrite E. cbn [bind]. clear - N. revert s. induction N as [|y l H N IH]; intro s; simpl; [reflexivity | rewrite H; apply IH].
  - inversion P; subst. destruct (g_main x) eqn:G; [|apply IH; assumption].
    unfold sref_of. destruct (g_sref x) eqn:D; [|exfalso; apply (H1 eq_refl); reflexivity]. cbn [bind]. apply IH; assumption.
Qed.
Lemma main_area_none : forall ws, Forall (fun w => g_main w = false) ws -> main_area ws None = Ok None.
Proof. induction 1 as [|w l E F IH]; simpl; [reflexivity | rewrite E; exact IH]. Qed.
Theorem C199_area : forall v,
  (forall s, v_area v = Some s -> s <> 0 -> ref_area v = Ok s) /\
  (v_area v = None \/ v_area v = Some 0 ->
    (forall pre w post s, v_wings v = pre ++ w :: post -> g_main w = true -> g_sref w = Some s ->
       Forall (fun w => g_main w = true -> g_sref w <> None) pre -> Forall (fun w => g_main w = false) post -> ref_area v = Ok s) /\
    (forall pre w post s, v_wings v = pre ++ w :: post -> Forall (fun w => g_main w = false) (v_wings v) -> Forall (fun w => g_wing w = false) pre ->
       g_wing w = true -> g_sref w = Some s -> ref_area v = Ok s) /\
    (Forall (fun w => g_main w = false /\ g_wing w = false) (v_wings v) -> ref_area v = Err UnboundLocalError) /\
    (forall w, In w (v_wings v) -> g_main w = true -> Forall (fun w => g_sref w = None) (v_wings v) -> ref_area v = Err AttributeError)).
Proof.
  intro v. split; [intros s E N; apply ref_given; split; assumption|]. intro Z.
  assert (R0 : ref_area v = wing_area (v_wings v)).
  { unfold ref_area. destruct Z as [Z|Z]; rewrite Z; [reflexivity|]. destruct (Req_EM_T 0 0); [reflexivity | congruence]. }
  rewrite R0. unfold wing_area. split; [|split; [|split]].
  - intros pre w post s E M D P N. rewrite E, (main_area_app pre post None P N w s M D). reflexivity.
  - intros pre w post s E N P W D. rewrite (main_area_none _ N). cbn [bind]. rewrite E. clear - P W D.
    induction P as [|x l H F IH]; simpl; [rewrite W; unfold sref_of; rewrite D; reflexivity | rewrite H; exact IH].
  - intro N. rewrite main_area_none by (apply Forall_impl with (2 := N); tauto). cbn [bind].
    clear R0. induction N as [|x l [H1 H2] F IH]; simpl; [reflexivity | rewrite H2; exact IH].
  - intros w I M N. assert (E : forall ws acc, In w ws -> Forall (fun w => g_sref w = None) ws -> main_area ws acc = Err AttributeError).
    { induction ws as [|x ws IH]; intros acc I' N'; [contradiction|]. inversion N'; subst. simpl.
      destruct (g_main x) eqn:G; [unfold sref_of; rewrite H1; reflexivity|]. destruct I' as [I'|I']; [congruence | apply IH; assumption]. }
    rewrite (E _ None I N). reflexivity.
Qed.
(** windmilling drag is proportional to the wetted area of all nacelles together *)
Fixpoint total (l : list R) : R := match l with [] => 0 | x :: r => x + total r end.
Lemma wetted_total : forall v, wetted v = total (v_nacelles v).
Proof.
  intro v. unfold wetted. assert (E : forall l a, fold_left (fun s n => s + n) l a = a + total l).
  { induction l as [|x l IH]; intro a; simpl; [ring | rewrite IH; ring]. }
  rewrite E. ring.
Qed.
Theorem C199_windmilling : forall v s, area_given v s ->
  exists c, windmilling_drag v = Ok (Some c) /\ c * s = 7274 / 1000000 * total (v_nacelles v).
Proof.
  intros v s A. unfold windmilling_drag. rewrite (ref_given v s A). cbn [bind]. destruct A as [_ N]. rewrite quo_some by exact N.
  eexists. split; [reflexivity|]. rewrite wetted_total. field. exact N.
Qed.
Theorem C199_order : forall a ws nets cg l l', Permutation l l' -> windmilling_drag (GVeh a ws nets l cg) = windmilling_drag (GVeh a ws nets l' cg).
Proof.
  intros a ws nets cg l l' P. unfold windmilling_drag. rewrite !wetted_total. simpl. replace (total l') with (total l); [reflexivity|].
  induction P; simpl; lra.
Qed.
(** "one engine's nacelle is counted" is false: the second nacelle doubles the drag although one engine is out *)
Theorem C199_all_refuted : exists c c', windmilling_drag (GVeh (Some 100) [] [] [30] []) = Ok (Some c) /\ windmilling_drag (GVeh (Some 100) [] [] [30; 30] []) = Ok (Some c') /\
  0 < c /\ c' = 2 * c.
Proof.
  unfold windmilling_drag. rewrite !(ref_given _ 100) by (split; [reflexivity | lra]). cbn [bind]. rewrite !quo_some by lra. rewrite !wetted_total. simpl.
  do 2 eexists. split; [reflexivity|]. split; [reflexivity|]. split; lra.
Qed.
(** lift over drag at the safety speed is that of the last main wing's aspect ratio, or the first wing's; it rises with the aspect ratio and with the speed ratio *)
Lemma main_aspect_app : forall pre w post acc, g_main w = true -> Forall (fun x => g_main x = false) post ->
  main_aspect (pre ++ w :: post) acc = Some (aspect w).
Proof.
  induction pre as [|x pre IH]; intros w post acc M N; simpl; [|apply IH; assumption].
  rewrite M. induction N as [|y l H N IH]; simpl; [reflexivity | rewrite H; exact IH].
Qed.
Theorem C199_ratio : forall ws k cl,
  (forall pre w post, ws = pre ++ w :: post -> g_main w = true -> Forall (fun x => g_main x = false) post ->
     ratio_2ndseg ws k cl = ratio_2ndseg [w] k cl) /\
  (forall pre w post, ws = pre ++ w :: post -> Forall (fun x => g_main x = false) ws -> Forall (fun x => g_wing x = false) pre -> g_wing w = true ->
     ratio_2ndseg ws k cl = ratio_2ndseg [w] k cl) /\
  (Forall (fun x => g_main x = false /\ g_wing x = false) ws -> ratio_2ndseg ws k cl = Err UnboundLocalError) /\
  ratio_2ndseg ws None cl = ratio_2ndseg ws (Some (12 / 10)) cl.
Proof.
  intros ws k cl. assert (NM : forall l, Forall (fun x => g_main x = false) l -> main_aspect l None = None).
  { induction 1 as [|x l H N IH]; simpl; [reflexivity | rewrite H; exact IH]. }
  unfold ratio_2ndseg. split; [|split; [|split]].
  - intros pre w post E M N. subst ws. rewrite (main_aspect_app pre w post None M N). simpl. rewrite M. reflexivity.
  - intros pre w post E N P W. rewrite (NM _ N). subst ws. apply Forall_app in N. destruct N as [_ N]. inversion N; subst. simpl. rewrite H1, W. cbn [bind].
    replace (first_aspect (pre ++ w :: post)) with (Ok (aspect w)); [reflexivity|].
    clear - P W. induction P as [|x l H F IH]; simpl; [rewrite W; reflexivity | rewrite H; exact IH].
  - intro N. rewrite NM by (apply Forall_impl with (2 := N); tauto).
    induction N as [|x l [H1 H2] F IH]; simpl; [reflexivity | rewrite H2; exact IH].
  - replace (120 / 100) with (12 / 10) by lra. reflexivity.
Qed.
Theorem C199_ratio_rises : forall w w' k k' cl a b, g_main w = true -> g_main w' = true -> 0 <= aspect w -> aspect w <= aspect w' -> 0 < k -> k <= k' -> 0 <= cl ->
  ratio_2ndseg [w] (Some k) cl = Ok a -> ratio_2ndseg [w'] (Some k') cl = Ok b -> a <= b.
Proof.
  intros w w' k k' cl a b M M' A0 A K0 K C E E'. unfold ratio_2ndseg in *. simpl in E, E'. rewrite M in E. rewrite M' in E'. simpl in E, E'.
  injection E as E. injection E' as E'. subst.
  pose proof (sqrt_le_1 (aspect w) (aspect w') A0 ltac:(lra) A).
  assert (cl / (k' * (k' * 1)) <= cl / (k * (k * 1))); [|lra].
  unfold Rdiv. apply Rmult_le_compat_l; [exact C|]. apply Rinv_le_contravar; nra.
Qed.
(** with an engine out the thrust is the full thrust less one engine's, whatever the throttle is set to, and the throttle is left as it was *)
Theorem C199_engine_out : forall evaluate n throttle, n <> 0 ->
  snd (engine_out evaluate n throttle) = throttle /\
  (let full := evaluate (repeat 1 (length throttle)) in
   fst (fst (engine_out evaluate n throttle)) = fst full - fst full / n /\ snd (fst (engine_out evaluate n throttle)) = snd full - snd full / n).
Proof.
  intros evaluate n throttle N. unfold engine_out. cbn [fst snd]. split.
  - induction throttle as [|x l IH]; simpl; [reflexivity | f_equal; exact IH].
  - replace (map (fun _ => 1) throttle) with (repeat 1 (length throttle)) by (induction throttle as [|x l IH]; simpl; [reflexivity | f_equal; exact IH]).
    split; field; exact N.
Qed.
Example C199_case : ref_area a_jet = Ok 100 /\ ref_area (GVeh None [a_wing; a_fin] [] [] []) = Err AttributeError /\
  snd (engine_out (fun l => (total l, 1)) 2 [1 / 2; 3 / 10]) = [1 / 2; 3 / 10].
Proof.
  split; [apply ref_given, a_jet_area|]. split; [reflexivity|]. reflexivity.
Qed.

(** *** C200: the speed-altitude diagram *)
(** at the stall speed the greatest lift coefficient carries the weight; slower it does not *)
Theorem C200_stall : forall rho g mass s clmax, 0 < rho -> 0 < g -> 0 < mass -> 0 < s -> 0 < clmax ->
  let vs := stall rho g mass s clmax in let lift v := / 2 * rho * v ^ 2 * s * clmax in
  0 < vs /\ lift vs = mass * g /\ (forall v, 0 <= v -> (lift v < mass * g <-> v < vs)).
Proof.
  intros rho g mass s clmax R0 G M S0 C vs lift.
  assert (D : 0 < rho * s * clmax) by (repeat apply Rmult_lt_0_compat; assumption).
  assert (W : 0 < mass * g) by (apply Rmult_lt_0_compat; assumption).
  assert (Q : 0 < 2 * (mass * g) / (rho * s * clmax)) by (apply Rdiv_lt_0_compat; lra).
  assert (V : 0 < vs) by (apply sqrt_lt_R0; exact Q).
  assert (E : vs ^ 2 = 2 * (mass * g) / (rho * s * clmax)) by (unfold vs, stall; apply pow2_sqrt; lra).
  assert (L : lift vs = mass * g).
  { unfold lift. rewrite E. field. repeat split; lra. }
  split; [exact V|]. split; [exact L|]. intros v P. rewrite <- L. unfold lift.
  assert (K : forall x, / 2 * rho * x ^ 2 * s * clmax = x ^ 2 * (rho * s * clmax / 2)) by (intro; field).
  rewrite !K. assert (K0 : 0 < rho * s * clmax / 2) by lra. split; intro H.
  - apply Rmult_lt_reg_r in H; [|exact K0]. nra.
  - apply Rmult_lt_compat_r; [exact K0|]. nra.
Qed.

(** what the table should say at an altitude and a speed *)
Definition entry_spec (e : eplane) (rho : R -> R) (drag : R -> R -> R) (h v c : R) : Prop :=
  (/ 2 * rho h * v ^ 2 * e_s e * e_clmax e <= e_w e -> c = 0) /\
  (e_w e < / 2 * rho h * v ^ 2 * e_s e * e_clmax e ->
     exists p, power e h v = Ok p /\ let excess := Rmin p (e_max e) - drag h v * v in
       (excess <= 0 -> c = 0) /\ (0 < excess -> c * fpm * e_w e = excess)).
Lemma mapE_ok : forall {A B} (f : A -> result B) l r, mapE f l = Ok r ->
  length r = length l /\ forall i x, nth_error l i = Some x -> exists y, nth_error r i = Some y /\ f x = Ok y.
Proof.
  induction l as [|a l IH]; simpl; intros r E.
  - injection E as E. subst r. split; [reflexivity|]. intros [|i] x H; discriminate.
  - destruct (f a) as [y|] eqn:F; [|discriminate]. cbn [bind] in E. destruct (mapE f l) as [ys|] eqn:G; [|discriminate]. cbn [bind] in E. injection E as E. subst r.
    destruct (IH ys eq_refl) as [L N]. split; [simpl; congruence|]. intros [|i] x H; simpl in *.
    + injection H as H. subst x. exists y. split; [reflexivity | exact F].
    + apply N, H.
Qed.
Lemma climb_spec : forall e rho drag h v c, 0 < e_w e -> 0 < rho h -> 0 < e_s e -> 0 < e_clmax e -> 0 <= v ->
  climb e rho drag h v = Ok c -> 0 <= c /\ entry_spec e rho drag h v (c / fpm).
Proof.
  intros e rho drag h v c W R0 S0 C V E. unfold climb in E.
  destruct (C200_stall (rho h) 1 (e_w e) (e_s e) (e_clmax e) R0 ltac:(lra) W S0 C) as [P [L K]]. specialize (K v V). unfold stall in *. rewrite Rmult_1_r in *.
  assert (F : 0 < fpm) by (unfold fpm; lra).
  destruct (Rltb (sqrt (2 * e_w e / (rho h * e_s e * e_clmax e))) v) eqn:T.
  - apply Rltb_true in T. destruct (power e h v) as [p|] eqn:PW; [|discriminate]. cbn [bind] in E. injection E as E. subst c.
    split; [apply Rmax_l|]. split.
    + intro H. exfalso. destruct (Req_dec (/ 2 * rho h * v ^ 2 * e_s e * e_clmax e) (e_w e)) as [Q|Q].
      * assert (X : v ^ 2 = (sqrt (2 * e_w e / (rho h * e_s e * e_clmax e))) ^ 2).
        { apply Rmult_eq_reg_r with (/ 2 * rho h * e_s e * e_clmax e); [|assert (0 < / 2 * rho h * e_s e * e_clmax e) by (repeat apply Rmult_lt_0_compat; lra); lra].
          transitivity (e_w e); [rewrite <- Q; ring | rewrite <- L at 1; ring]. }
        nra.
      * assert (H' : v < sqrt (2 * e_w e / (rho h * e_s e * e_clmax e))) by (apply K; lra). lra.
    + intros _. exists p. split; [exact PW|]. cbv zeta. set (x := Rmin p (e_max e) - drag h v * v).
      assert (I : 0 < 1 / e_w e) by (apply Rdiv_lt_0_compat; lra). split; intro H.
      * rewrite Rmax_left by (replace (1 / e_w e * x) with (- (1 / e_w e * - x)) by ring; assert (0 <= 1 / e_w e * - x) by (apply Rmult_le_pos; lra); lra).
        unfold Rdiv. ring.
      * rewrite Rmax_right by (apply Rmult_le_pos; lra). field. lra.
  - apply Rltb_false in T. injection E as E. subst c. split; [lra|]. split; [intros _; unfold Rdiv; ring|].
    intro H. exfalso. destruct (Rle_lt_or_eq_dec _ _ T) as [Q|Q]; [apply K in Q; lra|]. rewrite Q in H. lra.
Qed.
Lemma open_nth : forall a b n j, (j < n)%nat -> nth_error (open_linspace a b n) j = Some (a + INR j * ((b - a) / INR n)).
Proof.
  intros a b n j H. unfold open_linspace. rewrite nth_error_map, (nth_error_nth' _ 0%nat) by (rewrite seq_length; exact H). rewrite seq_nth by exact H. reflexivity.
Qed.
Lemma open_length : forall a b n, length (open_linspace a b n) = n.
Proof. intros. unfold open_linspace. rewrite map_length, seq_length. reflexivity. Qed.
Lemma lin_nth : forall a b n i, (i < n)%nat -> nth_error (linspace a b n) i = Some (if Nat.eqb n 1 then a else a + INR i * ((b - a) / INR (n - 1))).
Proof.
  intros a b n i H. unfold linspace. rewrite nth_error_map, (nth_error_nth' _ 0%nat) by (rewrite seq_length; exact H). rewrite seq_nth by exact H. reflexivity.
Qed.
(** a square table; altitudes from the ground to the ceiling inclusive, speeds from rest to below the greatest; each entry is zero unless the aircraft flies faster than
    its stall speed with power to spare, and then the climb rate that excess power gives the weight *)
Theorem C200_table : forall e rho drag ceiling top k t, (2 <= k)%nat -> 0 < e_w e -> (forall h, 0 < rho h) -> 0 < e_s e -> 0 < e_clmax e -> 0 <= top ->
  V_h e rho drag ceiling top (CInt k) = Ok t ->
  length t = k /\ forall i j, (i < k)%nat -> (j < k)%nat -> exists row c, nth_error t i = Some row /\ length row = k /\ nth_error row j = Some c /\
    0 <= c /\ entry_spec e rho drag (ceiling * INR i / INR (k - 1)) (top * INR j / INR k) c.
Proof.
  intros e rho drag ceiling top k t K W R0 S0 C T E. unfold V_h in E.
  destruct (mapE _ (linspace 0 ceiling k)) as [m|] eqn:M; [|discriminate]. cbn [bind] in E. injection E as E. subst t.
  destruct (mapE_ok _ _ _ M) as [L N]. rewrite map_length. rewrite L. unfold linspace at 1. rewrite map_length, seq_length. split; [reflexivity|].
  intros i j I J. destruct (N i _ (lin_nth 0 ceiling k i I)) as [row [ER F]].
  destruct (mapE_ok _ _ _ F) as [L' N']. destruct (N' j _ (open_nth 0 top k j J)) as [c [EC G]].
  replace (Nat.eqb k 1) with false in G by (symmetry; apply Nat.eqb_neq; lia).
  assert (KP : 0 < INR k) by (apply lt_0_INR; lia). assert (KP' : 0 < INR (k - 1)) by (apply lt_0_INR; lia).
  replace (0 + INR i * ((ceiling - 0) / INR (k - 1))) with (ceiling * INR i / INR (k - 1)) in G by (field; lra).
  replace (0 + INR j * ((top - 0) / INR k)) with (top * INR j / INR k) in G by (field; lra).
  apply climb_spec in G; [|assumption|apply R0|assumption|assumption|].
  - exists (map (fun c => c / fpm) row), (c / fpm). rewrite !nth_error_map, ER, map_length, L', open_length. rewrite EC. repeat split; try reflexivity.
    + apply Rmult_le_pos; [apply G | left; apply Rinv_0_lt_compat; unfold fpm; lra].
    + apply G.
    + apply G.
  - apply Rmult_le_pos; [apply Rmult_le_pos; [exact T | apply pos_INR] | left; apply Rinv_0_lt_compat; exact KP].
Qed.
(** the power: one propeller's times the number of engines, or the sum over the first so many propellers; the two agree for propellers that are alike *)
Lemma laps_sum : forall n ps h v f acc, (n <= length ps)%nat -> laps ps n h v f acc = Ok (acc + total (map (fun p => p h v * f) (firstn n ps))).
Proof.
  induction n as [|n IH]; intros ps h v f acc H; cbn [laps]; [f_equal; simpl; ring|]. destruct ps as [|p ps]; simpl in *; [lia|].
  rewrite IH by lia. f_equal. ring.
Qed.
Lemma laps_short : forall n ps h v f acc, (length ps < n)%nat -> laps ps n h v f acc = Err IndexError.
Proof. induction n as [|n IH]; intros ps h v f acc H; [lia|]. destruct ps as [|p ps]; simpl in *; [reflexivity | apply IH; lia]. Qed.
Theorem C200_power : forall e h v,
  (e_identical e = true -> forall p ps, e_props e = p :: ps -> power e h v = Ok (INR (e_n e) * p h v)) /\
  (e_identical e = false -> (e_n e <= length (e_props e))%nat -> power e h v = Ok (total (map (fun p => p h v) (firstn (e_n e) (e_props e))))) /\
  (e_identical e = false -> (length (e_props e) < e_n e)%nat -> power e h v = Err IndexError).
Proof.
  intros e h v. unfold power. split; [|split].
  - intros I p ps E. rewrite I, E. simpl. f_equal. ring.
  - intros I L. rewrite I, laps_sum by exact L. f_equal. rewrite Rplus_0_l. f_equal. apply map_ext. intro p. ring.
  - intros I L. rewrite I. apply laps_short, L.
Qed.
Theorem C200_alike : forall w s cl p n m mx h v, (n <= m)%nat -> (0 < m)%nat ->
  power (EPlane w s cl (repeat p m) true n mx) h v = power (EPlane w s cl (repeat p m) false n mx) h v.
Proof.
  intros w s cl p n m mx h v L P. destruct m as [|m]; [lia|].
  rewrite (proj1 (C200_power (EPlane w s cl (repeat p (S m)) true n mx) h v) eq_refl p (repeat p m) eq_refl).
  rewrite (proj1 (proj2 (C200_power (EPlane w s cl (repeat p (S m)) false n mx) h v)) eq_refl) by (cbn [e_n e_props]; rewrite repeat_length; exact L).
  cbn [e_n e_props]. f_equal. replace (firstn n (repeat p (S m))) with (repeat p n).
  - clear. induction n as [|n IH]; [simpl; ring|]. rewrite S_INR. cbn [repeat map total]. rewrite <- IH. ring.
  - clear P. revert m L. induction n as [|n IH]; intros m L; [reflexivity|]. simpl. f_equal. destruct m as [|m]; [assert (n = 0)%nat by lia; subst; reflexivity|]. apply IH. lia.
Qed.
(** with whole numbers and enough propellers the diagram is always drawn *)
Lemma mapE_total : forall {A B} (f : A -> result B) l, (forall x, In x l -> exists y, f x = Ok y) -> exists r, mapE f l = Ok r.
Proof.
  induction l as [|a l IH]; intro H; [exists []; reflexivity|]. destruct (H a (or_introl eq_refl)) as [y Y]. destruct IH as [r E]; [intros x I; apply H; right; exact I|].
  exists (y :: r). simpl. rewrite Y. cbn [bind]. rewrite E. reflexivity.
Qed.
Theorem C200_answers : forall e rho drag ceiling top k, (if e_identical e then 0 < length (e_props e) else e_n e <= length (e_props e))%nat ->
  exists t, V_h e rho drag ceiling top (CInt k) = Ok t.
Proof.
  intros e rho drag ceiling top k H. unfold V_h.
  assert (P : forall h v, exists c, climb e rho drag h v = Ok c).
  { intros h v. unfold climb. destruct (Rltb _ _); [|eexists; reflexivity]. unfold power. destruct (e_identical e); rewrite laps_sum by exact H; eexists; reflexivity. }
  destruct (mapE_total (fun h => mapE (fun v => climb e rho drag h v) (open_linspace 0 top k)) (linspace 0 ceiling k)) as [t E].
  - intros h _. apply mapE_total. intros v _. apply P.
  - rewrite E. eexists. reflexivity.
Qed.
(** "the number of grid points need not be given" is false: the default, 20., is not a whole number of python's and every call that keeps it fails *)
Theorem C200_default_refuted : forall e rho drag ceiling top, V_h e rho drag ceiling top (CFloat 20) = Err TypeError.
Proof. reflexivity. Qed.
Definition a_plane : eplane := EPlane 1000 10 1 [fun _ _ => 50000] true 2 80000.
Example C200_case : exists t, V_h a_plane (fun _ => 1) (fun _ _ => 100) 6000 100 (CInt 4) = Ok t /\
  entry_spec a_plane (fun _ => 1) (fun _ _ => 100) (6000 * INR 1 / INR 3) (100 * INR 2 / INR 4) (nth 2 (nth 1 t []) 0) /\
  e_w a_plane < / 2 * 1 * (100 * INR 2 / INR 4) ^ 2 * e_s a_plane * e_clmax a_plane.
Proof.
  destruct (C200_answers a_plane (fun _ => 1) (fun _ _ => 100) 6000 100 4) as [t E]; [simpl; lia|]. exists t. split; [exact E|]. split; [|simpl; lra].
  destruct (C200_table a_plane (fun _ => 1) (fun _ _ => 100) 6000 100 4 t ltac:(lia)) as [L N]; simpl; try lra; [intro; lra | exact E|].
  destruct (N 1 2 ltac:(lia) ltac:(lia))%nat as [row [c [E1 [_ [E2 [_ S0]]]]]].
  rewrite (nth_error_nth _ _ _ E1), (nth_error_nth _ _ _ E2). exact S0.
Qed.

(** *** C201: the best speeds *)
(** the search, for this function and these bounds, stops at a least value between the bounds *)
Definition finds_least (minimise : (R -> R) -> R -> R -> R) (f : R -> R) (a b : R) : Prop :=
  a <= minimise f a b <= b /\ forall u, a <= u <= b -> f (minimise f a b) <= f u.
Theorem C201_best : forall minimise polar vs up, (forall u, 0 < fst (polar u)) ->
  finds_least minimise (fun u => three_halves (polar u)) vs up -> finds_least minimise (fun u => minus_ld (polar u)) vs up ->
  let r := range_endurance minimise polar vs up in
  let ld u := fst (polar u) / snd (polar u) in let l32d u := Rpower (fst (polar u)) (3 / 2) / snd (polar u) in
  (vs <= fst (fst r) <= up /\ snd (fst r) = l32d (fst (fst r)) /\ forall u, vs <= u <= up -> l32d u <= snd (fst r)) /\
  (vs <= fst (snd r) <= up /\ snd (snd r) = ld (fst (snd r)) /\ forall u, vs <= u <= up -> ld u <= snd (snd r)) /\
  maximum_lift_to_drag minimise polar vs up = snd r.
Proof.
  intros minimise polar vs up P F1 F2 r ld l32d. unfold r, range_endurance, maximum_lift_to_drag, best. cbn [fst snd].
  assert (T : forall u, three_halves (polar u) = - l32d u).
  { intro u. unfold three_halves, l32d, pw, Rltb. destruct (Rlt_dec 0 (fst (polar u))) as [|X]; [unfold Rdiv; ring | exfalso; apply X, P]. }
  assert (L : forall u, minus_ld (polar u) = - ld u) by (intro u; unfold minus_ld, ld, Rdiv; ring).
  split; [|split; [|reflexivity]].
  - destruct F1 as [I M]. split; [exact I|]. rewrite T. split; [ring|].
    intros u U. specialize (M u U). cbv beta in M. rewrite !T in M. lra.
  - destruct F2 as [I M]. split; [exact I|]. rewrite L. split; [ring|].
    intros u U. specialize (M u U). cbv beta in M. rewrite !L in M. lra.
Qed.
(** for a parabolic polar in level flight the best lift over drag is the textbook's, 1 / (2 sqrt (cd0 k)), found at the textbook's speed, if that speed is in range *)
Theorem C201_parabola : forall minimise rho g mass s clmax cd0 k up,
  0 < rho -> 0 < g -> 0 < mass -> 0 < s -> 0 < clmax -> 0 < cd0 -> 0 < k ->
  let cl u := 2 * (mass * g) / (rho * s * u ^ 2) in let polar u := (cl u, cd0 + k * cl u ^ 2) in
  let vs := stall rho g mass s clmax in let star := sqrt (2 * (mass * g) / (rho * s * sqrt (cd0 / k))) in
  vs <= star <= up -> finds_least minimise (fun u => minus_ld (polar u)) vs up ->
  snd (maximum_lift_to_drag minimise polar vs up) = 1 / (2 * sqrt (cd0 * k)) /\ fst (maximum_lift_to_drag minimise polar vs up) = star.
Proof.
  intros minimise rho g mass s clmax cd0 k up R0 G M S0 C D K cl polar vs star B F.
  destruct (C200_stall rho g mass s clmax R0 G M S0 C) as [V _]. fold vs in V.
  assert (W : 0 < mass * g) by (apply Rmult_lt_0_compat; assumption).
  assert (RS : 0 < rho * s) by (apply Rmult_lt_0_compat; assumption).
  assert (CP : forall u, 0 < u -> 0 < cl u).
  { intros u U. apply Rdiv_lt_0_compat; [lra|]. apply Rmult_lt_0_compat; [exact RS | apply pow_lt, U]. }
  assert (DK : 0 < cd0 / k) by (apply Rdiv_lt_0_compat; assumption).
  assert (SP : 0 < sqrt (cd0 / k)) by (apply sqrt_lt_R0, DK).
  assert (SS : sqrt (cd0 / k) ^ 2 = cd0 / k) by (apply pow2_sqrt; lra).
  set (x := sqrt (cd0 / k)) in *.
  assert (SP0 : 0 < star) by lra.
  assert (ST : star ^ 2 = 2 * (mass * g) / (rho * s * x)).
  { unfold star. apply pow2_sqrt. left. apply Rdiv_lt_0_compat; [lra | apply Rmult_lt_0_compat; assumption]. }
  assert (CS : cl star = x).
  { unfold cl. rewrite ST. field. repeat split; lra. }
  assert (KX : k * x ^ 2 = cd0) by (rewrite SS; field; lra).
  assert (VAL : x / (cd0 + k * x ^ 2) = 1 / (2 * sqrt (cd0 * k))).
  { assert (Y : sqrt (cd0 * k) = k * x).
    { rewrite <- (sqrt_pow2 (k * x)) by (apply Rmult_le_pos; lra). f_equal. transitivity (k * (k * x ^ 2)); [rewrite KX; ring | ring]. }
    rewrite Y, KX. assert (0 < k * x) by (apply Rmult_lt_0_compat; assumption).
    assert (Y2 : cd0 + cd0 = 2 * (k * x) * x) by (rewrite <- KX; ring). rewrite Y2. field. split; lra. }
  assert (UP : forall c, 0 < c -> c / (cd0 + k * c ^ 2) <= 1 / (2 * (k * x)) /\ (c / (cd0 + k * c ^ 2) = 1 / (2 * (k * x)) -> c = x)).
  { intros c P. assert (Q : 0 < cd0 + k * c ^ 2) by (assert (0 < k * c ^ 2) by (apply Rmult_lt_0_compat; [exact K | apply pow_lt, P]); lra).
    assert (KX0 : 0 < k * x) by (apply Rmult_lt_0_compat; assumption).
    assert (ID : cd0 + k * c ^ 2 - c * (2 * (k * x)) = k * (c - x) ^ 2) by (rewrite <- KX; ring).
    assert (E : 1 / (2 * (k * x)) - c / (cd0 + k * c ^ 2) = k * (c - x) ^ 2 / (2 * (k * x) * (cd0 + k * c ^ 2))).
    { rewrite <- ID. field. repeat split; lra. }
    assert (NN : 0 <= k * (c - x) ^ 2) by (apply Rmult_le_pos; [lra | apply pow2_ge_0]).
    assert (DP : 0 < 2 * (k * x) * (cd0 + k * c ^ 2)) by (apply Rmult_lt_0_compat; lra).
    split.
    - assert (0 <= k * (c - x) ^ 2 / (2 * (k * x) * (cd0 + k * c ^ 2))) by (apply Rmult_le_pos; [exact NN | left; apply Rinv_0_lt_compat, DP]). lra.
    - intro EQ. rewrite EQ in E. assert (Z : k * (c - x) ^ 2 = 0).
      { apply Rmult_eq_reg_r with (/ (2 * (k * x) * (cd0 + k * c ^ 2))); [|apply Rinv_neq_0_compat; lra]. unfold Rdiv in E at 3. lra. }
      apply Rmult_integral in Z. destruct Z as [Z|Z]; [lra|]. assert (c - x = 0) by (apply Rsqr_0_uniq; rewrite Rsqr_pow2; exact Z). lra. }
  unfold maximum_lift_to_drag, best. cbn [fst snd].
  destruct F as [I MIN]. set (m := minimise _ vs up) in *.
  assert (L : forall u, minus_ld (polar u) = - (cl u / (cd0 + k * cl u ^ 2))) by (intro u; unfold minus_ld, polar, Rdiv; cbn [fst snd]; ring).
  pose proof (MIN star B) as H. cbv beta in H. rewrite !L in H. rewrite L, CS in *.
  assert (KX0 : 1 / (2 * (k * x)) = x / (cd0 + k * x ^ 2)).
  { rewrite KX. assert (0 < k * x) by (apply Rmult_lt_0_compat; assumption). assert (Y2 : cd0 + cd0 = 2 * (k * x) * x) by (rewrite <- KX; ring). rewrite Y2. field. split; lra. }
  destruct (UP (cl m) (CP m ltac:(lra))) as [U1 U2]. rewrite KX0 in U1, U2.
  assert (EQ : cl m / (cd0 + k * cl m ^ 2) = x / (cd0 + k * x ^ 2)) by lra.
  split; [rewrite EQ, <- VAL; ring|]. specialize (U2 EQ).
  assert (MP : 0 < m) by lra. assert (SQ : m ^ 2 = star ^ 2).
  { rewrite ST. rewrite <- U2. unfold cl. field. assert (0 < m ^ 2) by (apply pow_lt, MP). repeat split; lra. }
  nra.
Qed.
(** both theorems' hypotheses are met *)
Example C201_best_case : let polar u := (1 + u ^ 2, 1) in let last := fun (_ : R -> R) (_ b : R) => b in
  finds_least last (fun u => three_halves (polar u)) 1 2 /\ finds_least last (fun u => minus_ld (polar u)) 1 2 /\
  snd (maximum_lift_to_drag last polar 1 2) = 5.
Proof.
  cbv zeta. unfold finds_least, three_halves, minus_ld, maximum_lift_to_drag, best, minus_ld, pw, Rltb. cbn [fst snd].
  split; [|split; [|lra]].
  - split; [lra|]. intros u U. destruct (Rlt_dec 0 (1 + 2 ^ 2)); [|lra]. destruct (Rlt_dec 0 (1 + u ^ 2)); [|nra].
    assert (LE : Rpower (1 + u ^ 2) (3 / 2) <= Rpower (1 + 2 ^ 2) (3 / 2)) by (apply Rle_Rpower_l; [lra | split; nra]).
    revert LE. generalize (Rpower (1 + u ^ 2) (3 / 2)), (Rpower (1 + 2 ^ 2) (3 / 2)). intros. lra.
  - split; [lra|]. intros u U. nra.
Qed.
Example C201_parabola_case : let one := fun (_ : R -> R) (_ _ : R) => 1 in
  let cl u := 2 * (1 * 1) / (2 * 1 * u ^ 2) in let polar u := (cl u, 1 + 1 * cl u ^ 2) in
  stall 2 1 1 1 4 = 1 / 2 /\ sqrt (2 * (1 * 1) / (2 * 1 * sqrt (1 / 1))) = 1 /\ finds_least one (fun u => minus_ld (polar u)) (1 / 2) 3.
Proof.
  cbv zeta. split; [|split].
  - unfold stall. replace (2 * (1 * 1) / (2 * 1 * 4)) with ((1 / 2) ^ 2) by field. apply sqrt_pow2. lra.
  - replace (1 / 1) with 1 by field. rewrite sqrt_1. replace (2 * (1 * 1) / (2 * 1 * 1)) with 1 by field. apply sqrt_1.
  - unfold finds_least, minus_ld. cbn [fst snd]. split; [lra|]. intros u U.
    set (c := 2 * (1 * 1) / (2 * 1 * u ^ 2)).
    assert (P : 0 < c) by (apply Rdiv_lt_0_compat; nra). clearbody c.
    replace (2 * (1 * 1) / (2 * 1 * 1 ^ 2)) with 1 by field.
    assert (Q : 0 < 1 + 1 * c ^ 2) by nra.
    assert (c / (1 + 1 * c ^ 2) <= 1 / 2).
    { apply Rmult_le_reg_r with (1 + 1 * c ^ 2); [exact Q|]. unfold Rdiv at 1. rewrite Rmult_assoc, Rinv_l by lra. pose proof (pow2_ge_0 (c - 1)). lra. }
    unfold Rdiv in *. lra.
Qed.
Print Assumptions C198_balance.
Print Assumptions C198_side.
Print Assumptions C198_sign.
Print Assumptions C198_tail.
Print Assumptions C198_stored.
Print Assumptions C198_first_network.
Print Assumptions C198_missing.
Print Assumptions C198_plain.
Print Assumptions C198_row_refuted.
Print Assumptions C199_area.
Print Assumptions C199_windmilling.
Print Assumptions C199_order.
Print Assumptions C199_all_refuted.
Print Assumptions C199_ratio.
Print Assumptions C199_ratio_rises.
Print Assumptions C199_engine_out.
Print Assumptions C200_stall.
Print Assumptions C200_table.
Print Assumptions C200_power.
Print Assumptions C200_alike.
Print Assumptions C200_answers.
Print Assumptions C200_default_refuted.
Print Assumptions C201_best.
Print Assumptions C201_parabola.
