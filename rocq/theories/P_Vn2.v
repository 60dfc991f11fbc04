(** * Flight envelope: proofs about the whole diagram *)
From Coq Require Import Reals List Bool Arith String Lia Lra Psatz.
From Verif Require Import PyBase M_Opt P_Opt M_Vn S_Vn P_Vn.
Import ListNotations.
Local Open Scope R_scope.
Local Open Scope list_scope.

Lemma fold_max_ge l : forall a, a <= fold_left Rmax l a /\ forall x, In x l -> x <= fold_left Rmax l a.
Proof.
  induction l as [|y l IH]; intros a; cbn [fold_left]; [split; [lra | intros x []]|].
  destruct (IH (Rmax a y)) as [H1 H2]. pose proof (Rmax_l a y). pose proof (Rmax_r a y). split; [lra|].
  intros x [->|Hx]; [lra | now apply H2].
Qed.
Lemma maximum_ge l x : In x l -> x <= maximum l.
Proof. destruct l as [|a l]; [intros []|]. cbn [maximum]. intros [->|Hx]; [exact (proj1 (fold_max_ge l x)) | exact (proj2 (fold_max_ge l a) x Hx)]. Qed.
Lemma fold_min_le l : forall a, fold_left Rmin l a <= a /\ forall x, In x l -> fold_left Rmin l a <= x.
Proof.
  induction l as [|y l IH]; intros a; cbn [fold_left]; [split; [lra | intros x []]|].
  destruct (IH (Rmin a y)) as [H1 H2]. pose proof (Rmin_l a y). pose proof (Rmin_r a y). split; [lra|].
  intros x [->|Hx]; [lra | now apply H2].
Qed.
Lemma minimum_le l x : In x l -> minimum l <= x.
Proof. destruct l as [|a l]; [intros []|]. cbn [minimum]. intros [->|Hx]; [exact (proj1 (fold_min_le l x)) | exact (proj2 (fold_min_le l a) x Hx)]. Qed.
Lemma fold_min_in l : forall a, In (fold_left Rmin l a) (a :: l).
Proof.
  induction l as [|y l IH]; intro a; cbn [fold_left]; [now left|].
  destruct (IH (Rmin a y)) as [E|H]; [|right; right; exact H]. rewrite <- E. unfold Rmin. destruct (Rle_dec a y); [now left | right; now left].
Qed.
Lemma minimum_gt l b : l <> [] -> Forall (fun x => b < x) l -> b < minimum l.
Proof. destruct l as [|a l]; [congruence|]. intros _ H. rewrite Forall_forall in H. apply H. apply fold_min_in. Qed.

(** ** the limits *)
Ltac rcases := repeat match goal with
  | |- context [Rcase_abs ?x] => destruct (Rcase_abs x)
  | H : context [Rcase_abs ?x] |- _ => destruct (Rcase_abs x) end.
Lemma positive_limit_range w pos : 0 < w -> 25 / 10 <= positive_limit w pos <= Rmax (38 / 10) pos.
Proof.
  intro W. unfold positive_limit. pose proof (Rmax_l (38 / 10) pos). pose proof (Rmax_r (38 / 10) pos). ltb; lra.
Qed.
Lemma negative_ok neg n : n <= -1 -> neg <= 0 -> negative_check neg n <= -1 /\ negative_check neg n <= neg.
Proof. intros A B. unfold negative_check. rewrite (Rabs_left n), (Rabs_left1 neg) by lra. ltb; lra. Qed.
Lemma limits_ok part cat w pos neg np nn : limit_load_factors part cat w pos neg = Ok (np, nn) -> 0 < w -> neg <= 0 ->
  least_limit part cat <= np <= Rmax (Rmax (38 / 10) (least_limit part cat)) pos /\ nn <= -1 /\ nn <= neg.
Proof.
  intros H W N. unfold limit_load_factors in H. unfold least_limit.
  pose proof (positive_limit_range w pos W) as PL.
  pose proof (Rmax_l (38 / 10) pos) as X1.
  destruct (Nat.eqb part 25).
  - injection H as <- <-.
    rewrite (Rmax_left (38 / 10) (25 / 10)) by lra. split; [lra|]. apply negative_ok; [ltb; lra | assumption].
  - destruct (Nat.eqb part 23); [|discriminate].
    destruct (String.eqb cat "normal" || String.eqb cat "commuter")%bool eqn:EN.
    + injection H as <- <-.
      assert (EU : String.eqb cat "utility" = false) by (apply orb_true_iff in EN; destruct EN as [E|E]; apply String.eqb_eq in E; subst; reflexivity).
      assert (EA : String.eqb cat "acrobatic" = false) by (apply orb_true_iff in EN; destruct EN as [E|E]; apply String.eqb_eq in E; subst; reflexivity).
      rewrite EU, EA. rewrite (Rmax_left (38 / 10) (25 / 10)) by lra. split; [lra|]. apply negative_ok; lra.
    + destruct (String.eqb cat "utility").
      * injection H as <- <-. rewrite (Rmax_right (38 / 10) (44 / 10)) by lra. pose proof (Rmax_l (44 / 10) pos). pose proof (Rmax_r (44 / 10) pos).
        split; [ltb; lra|]. apply negative_ok; [ltb; lra | assumption].
      * destruct (String.eqb cat "acrobatic"); [|discriminate]. injection H as <- <-.
        rewrite (Rmax_right (38 / 10) 6) by lra. pose proof (Rmax_l 6 pos). pose proof (Rmax_r 6 pos).
        split; [ltb; lra|]. apply negative_ok; [ltb; lra | assumption].
Qed.
Lemma least_ge part cat : 25 / 10 <= least_limit part cat.
Proof. unfold least_limit. destruct (Nat.eqb part 25), (String.eqb cat "utility"), (String.eqb cat "acrobatic"); lra. Qed.

(** ** towards the dive speed *)
Lemma dive_pos cat np g2 g3 vc vd P Q q1 :
  List.length P = List.length Q -> (2 <= List.length Q)%nat -> nth 1 Q 0 = 1 ->
  gust_dive cat np g2 g3 vc vd (Half (P ++ [vd; vd]) (Q ++ [q1; 0])) =
  if Rltb (Rabs np) (Rabs g2) then
    if Rltb (Rabs np) (Rabs g3) then Half (P ++ [vd; vd]) (Q ++ [g3; 0])
    else Half (P ++ [(q1 - g2) * (vd - vc) / (g3 - g2) + vc; vd; vd]) (Q ++ [q1; q1; 0])
  else Half (P ++ [vd; vd]) (Q ++ [q1; 0]).
Proof.
  intros L L2 H1. unfold gust_dive. cbn [h_v h_n].
  assert (E1 : forall r, nthR 1 (Q ++ r) = 1) by (intro r; unfold nthR; rewrite app_nth1 by lia; exact H1).
  rewrite E1. replace (Rltb 0 1) with true by (symmetry; apply Rltb_true; lra).
  assert (K : (List.length (Q ++ [q1; 0%R]) - 2)%nat = List.length Q) by (rewrite app_length; simpl; lia).
  rewrite K. destruct (Rltb (Rabs np) (Rabs g2)); [|reflexivity].
  destruct (Rltb (Rabs np) (Rabs g3)).
  - f_equal. now apply set_at_len.
  - unfold gust_dive_intersection. cbn [h_v h_n]. rewrite E1. replace (Rltb 0 1) with true by (symmetry; apply Rltb_true; lra).
    rewrite nthR_app by reflexivity. f_equal; [now apply insert_at_len | now apply insert_at_len].
Qed.
Definition dive_cross (cat : string) (m g2 g3 vc vd : R) : R * R :=
  if String.eqb cat "acrobatic" then
      let v := ((g3 + 1) * vc + (m - g2) * vd) / (g3 - g2 + m + 1) in
      (v, (m + 1) / (vc - vd) * v - ((m + 1) / (vc - vd) * vd + 1))
    else let v := (g3 * vc + (m - g2) * vd) / (g3 - g2 + m) in (v, m * (v - vd) / (vc - vd)).
Lemma dive_neg cat nn g2 g3 vc vd P Q e :
  List.length P = List.length Q -> (2 <= List.length Q)%nat -> nth 1 Q 0 = -1 ->
  gust_dive cat nn g2 g3 vc vd (Half (P ++ [vd]) (Q ++ [e])) =
  if Rltb g3 e then
    if Rltb (Rabs nn) (Rabs g2) then Half (P ++ [vd; vd]) (Q ++ [g3; e])
    else let (v, n) := dive_cross cat (minimum (Q ++ [g3; e])) g2 g3 vc vd in Half (P ++ [v; vd; vd]) (Q ++ [n; g3; e])
  else Half (P ++ [vd]) (Q ++ [e]).
Proof.
  intros L L2 H1. unfold gust_dive. cbn [h_v h_n].
  assert (E1 : forall r, nthR 1 (Q ++ r) = -1) by (intro r; unfold nthR; rewrite app_nth1 by lia; exact H1).
  rewrite E1. replace (Rltb 0 (-1)) with false by (symmetry; apply Rltb_false; lra).
  assert (K : (List.length (Q ++ [e]) - 1)%nat = List.length Q) by (rewrite app_length; simpl; lia).
  rewrite K. rewrite nthR_app by reflexivity. destruct (Rltb g3 e); [|reflexivity].
  rewrite (nthR_app _ P) by lia. rewrite !insert_at_len by lia.
  assert (K2 : (List.length (Q ++ [g3; e]) - 2)%nat = List.length Q) by (rewrite app_length; simpl; lia).
  rewrite K2. destruct (Rltb (Rabs nn) (Rabs g2)).
  - f_equal. now apply set_at_len.
  - unfold gust_dive_intersection, dive_cross. cbn [h_v h_n]. rewrite E1. replace (Rltb 0 (-1)) with false by (symmetry; apply Rltb_false; lra).
    destruct (String.eqb cat "acrobatic"); f_equal; apply insert_at_len; lia.
Qed.

(** ** the whole diagram *)
(** what follows the manoeuvre point, on either side, before the dive section is resolved *)
Definition tail_pos (c : craft) (np ur uc vc : R) : list R * list R :=
  if Rltb (Rabs np) (Rabs (gust_load c ur (va_pos c np))) then
    let vi := crossing c (c_clmax c) ur in
    (more_v (va_pos c np) vi ++ [vi; vc], map (fun v => (v / vs_pos c) ^ 2) (more_v (va_pos c np) vi) ++ [gust_load c ur vi; gust_load c uc vc])
  else if Rltb (Rabs np) (Rabs (gust_load c uc vc)) then
    ([498 * (np - 1) * wing_loading c / (gust_alleviation c * uc * c_cla c); vc], [np; gust_load c uc vc])
  else ([], []).
Definition tail_neg (c : craft) (nn ur uc vc : R) : list R * list R :=
  if Rltb (Rabs nn) (Rabs (gust_load c ur (va_neg c nn))) then
    let vi := crossing c (c_clmin c) ur in
    (more_v (va_neg c nn) vi ++ [vi; vc], map (fun v => - (v / vs_neg c) ^ 2) (more_v (va_neg c nn) vi) ++ [gust_load c ur vi; nn])
  else if Rltb (Rabs nn) (Rabs (gust_load c uc vc)) then
    ([498 * (nn - 1) * wing_loading c / (gust_alleviation c * uc * c_cla c); vc], [nn; gust_load c uc vc])
  else ([vc], [nn]).
Definition end_pos (np g2 g3 vc vd : R) : list R * list R :=
  if Rltb (Rabs np) (Rabs g2) then
    if Rltb (Rabs np) (Rabs g3) then ([vd; vd], [g3; 0]) else ([(np - g2) * (vd - vc) / (g3 - g2) + vc; vd; vd], [np; np; 0])
  else ([vd; vd], [np; 0]).
Definition end_neg (cat : string) (nn g2 g3 vc vd e : R) (sofar : list R) : list R * list R :=
  if Rltb g3 e then
    if Rltb (Rabs nn) (Rabs g2) then ([vd; vd], [g3; e])
    else let (v, n) := dive_cross cat (minimum (sofar ++ [g3; e])) g2 g3 vc vd in ([v; vd; vd], [n; g3; e])
  else ([vd], [e]).
Definition two_sided (cat : string) : bool := (String.eqb cat "acrobatic" || String.eqb cat "utility")%bool.

Record run := Run { r_np : R; r_nn : R; r_ur : R; r_uc : R; r_ud : R; r_vc1 : R; r_vc : R; r_vd : R }.
Definition design (part : nat) (cat : string) (c : craft) (np nn : R) : run :=
  let '(ur, uc, ud) := gust_speeds part cat (c_alt c) in
  let vc1 := minimum_cruise part cat c (gust_alleviation c) uc in
  let vc := at_least vc1 (cruise_above_manoeuvre (va_pos c np) (va_neg c nn) (keas c (c_vc c))) in
  Run np nn ur uc ud vc1 vc (dive_speed part cat (wing_loading c) vc vc1).

Lemma diagram_is part cat pos neg c d : flyable c -> V_n_diagram part cat pos neg c = Ok d ->
  exists np nn, limit_load_factors part cat (c_weight c) pos neg = Ok (np, nn) /\
  let r := design part cat c np nn in
  let g2p := gust_load c (r_uc r) (r_vc r) in let g2n := gust_load c (- r_uc r) (r_vc r) in
  let tp := tail_pos c np (r_ur r) (r_uc r) (r_vc r) in let tn := tail_neg c nn (- r_ur r) (- r_uc r) (r_vc r) in
  let e := if two_sided cat then -1 else 0 in
  let ep := end_pos np g2p (gust_load c (r_ud r) (r_vd r)) (r_vc r) (r_vd r) in
  let en := end_neg cat nn g2n (gust_load c (- r_ud r) (r_vd r)) (r_vc r) (r_vd r) e (nn_ c nn ++ snd tn) in
  let last := if two_sided cat then ([r_vd r], [0]) else ([], []) in
  g_pos d = Half (pv c np ++ fst tp ++ fst ep) (pn c np ++ snd tp ++ snd ep) /\
  g_neg d = Half (nv c nn ++ fst tn ++ fst en ++ fst last) (nn_ c nn ++ snd tn ++ snd en ++ snd last) /\
  g_vc d = r_vc r /\ g_vd d = r_vd r /\ g_gust_pos d = g2p /\ g_gust_neg d = g2n /\
  g_n_pos d = maximum (h_n (g_pos d)) /\ g_n_neg d = minimum (h_n (g_neg d)).
Proof.
  intros F H. unfold V_n_diagram in H. destruct (limit_load_factors part cat (c_weight c) pos neg) as [[np nn]|e0] eqn:EL; cbn [bind] in H; [|discriminate].
  exists np, nn. split; [reflexivity|].
  unfold design. destruct (gust_speeds part cat (c_alt c)) as [[ur uc] ud].
  cbn [r_ur r_uc r_ud r_vc r_vd]. injection H as <-. cbn [g_pos g_neg g_vc g_vd g_gust_pos g_gust_neg g_n_pos g_n_neg].
  rewrite before_pos, before_neg, !gust_factor_is by assumption.
  set (vc := at_least _ _). set (vd := dive_speed _ _ _ _ _).
  rewrite corner_pos, corner_neg by assumption. fold (two_sided cat).
  cbv zeta. split; [|split; [|repeat split; reflexivity]].
  - unfold tail_pos. unfold end_pos.
    destruct (Rltb (Rabs np) (Rabs (gust_load c ur (va_pos c np)))).
    + cbv zeta. set (vi := crossing c (c_clmax c) ur).
      change [vi; vc; vd; vd] with ([vi; vc] ++ [vd; vd]). change [gust_load c ur vi; gust_load c uc vc; np; 0] with ([gust_load c ur vi; gust_load c uc vc] ++ [np; 0]).
      rewrite !app_assoc. rewrite dive_pos.
      * destruct (Rltb _ (Rabs (gust_load c uc vc))); [destruct (Rltb (Rabs np) (Rabs (gust_load c ud vd)))|]; cbn [fst snd]; rewrite <- !app_assoc; reflexivity.
      * rewrite !app_length, map_length. unfold pv, pn. now rewrite len_head_v, len_head_n.
      * rewrite !app_length. unfold pn. rewrite len_head_n. lia.
      * reflexivity.
    + destruct (Rltb (Rabs np) (Rabs (gust_load c uc vc))) eqn:E2.
      * set (vi := 498 * (np - 1) * wing_loading c / (gust_alleviation c * uc * c_cla c)).
        change [vi; vc; vd; vd] with ([vi; vc] ++ [vd; vd]). change [np; gust_load c uc vc; np; 0] with ([np; gust_load c uc vc] ++ [np; 0]).
        rewrite !app_assoc. rewrite dive_pos; [|reflexivity|cbn; lia|reflexivity]. rewrite E2.
        destruct (Rltb (Rabs np) (Rabs (gust_load c ud vd))); cbn [fst snd]; rewrite <- !app_assoc; reflexivity.
      * rewrite dive_pos; [|reflexivity|cbn; lia|reflexivity]. rewrite E2. reflexivity.
  - unfold tail_neg.
    assert (D : forall tv tn : list R, List.length tv = List.length tn ->
      (let hn := gust_dive cat nn (gust_load c (- uc) vc) (gust_load c (- ud) vd) vc vd (Half (nv c nn ++ tv ++ [vd]) (nn_ c nn ++ tn ++ [if two_sided cat then -1 else 0])) in
       if two_sided cat then Half (h_v hn ++ [vd]) (h_n hn ++ [0]) else hn) =
      let en := end_neg cat nn (gust_load c (- uc) vc) (gust_load c (- ud) vd) vc vd (if two_sided cat then -1 else 0) (nn_ c nn ++ tn) in
      let last := if two_sided cat then ([vd], [0]) else ([], []) in
      Half (nv c nn ++ tv ++ fst en ++ fst last) (nn_ c nn ++ tn ++ snd en ++ snd last)).
    { intros tv tn L. cbv zeta. rewrite (app_assoc (nv c nn)), (app_assoc (nn_ c nn)). rewrite dive_neg.
      - unfold end_neg. destruct (Rltb _ _); [destruct (Rltb _ _); [|destruct (dive_cross _ _ _ _ _ _) as [v n]]|];
        destruct (two_sided cat); cbn [fst snd h_v h_n]; rewrite <- ?app_assoc; cbn [app]; rewrite ?app_nil_r; reflexivity.
      - rewrite !app_length. unfold nv, nn_. rewrite len_head_v, len_head_n. lia.
      - rewrite !app_length. unfold nn_. rewrite len_head_n. lia.
      - reflexivity. }
    destruct (Rltb (Rabs nn) (Rabs (gust_load c (- ur) (va_neg c nn)))).
    + set (vi := crossing c (c_clmin c) (- ur)).
      refine (eq_trans _ (D (more_v (va_neg c nn) vi ++ [vi; vc]) (map (fun v => - (v / vs_neg c) ^ 2) (more_v (va_neg c nn) vi) ++ [gust_load c (- ur) vi; nn]) _));
      [rewrite <- !app_assoc; reflexivity | rewrite !app_length, map_length; reflexivity].
    + destruct (Rltb (Rabs nn) (Rabs (gust_load c (- uc) vc))).
      * exact (D [498 * (nn - 1) * wing_loading c / (gust_alleviation c * - uc * c_cla c); vc] [nn; gust_load c (- uc) vc] eq_refl).
      * exact (D [vc] [nn] eq_refl).
Qed.

(** ** speeds of the design *)
Lemma va_pos_sq c np : flyable c -> 0 <= np -> va_pos c np ^ 2 = np * vs_pos c ^ 2.
Proof. intros F N. rewrite va_pos_eq by assumption. replace ((vs_pos c * sqrt np) ^ 2) with (vs_pos c ^ 2 * sqrt np ^ 2) by ring. rewrite sqrt_pow2 by assumption. ring. Qed.
Lemma va_neg_sq c nn : flyable c -> va_neg c nn ^ 2 = Rabs nn * vs_neg c ^ 2.
Proof. intros F. rewrite va_neg_eq by assumption. replace ((vs_neg c * sqrt (Rabs nn)) ^ 2) with (vs_neg c ^ 2 * sqrt (Rabs nn) ^ 2) by ring. rewrite sqrt_pow2 by apply Rabs_pos. ring. Qed.
Lemma sqrt_ge1 x : 1 <= x -> 1 <= sqrt x.
Proof. intro. rewrite <- sqrt_1. apply sqrt_le_1_alt. lra. Qed.
Lemma sqrt_gt1 x : 1 < x -> 1 < sqrt x.
Proof. intro. rewrite <- sqrt_1. apply sqrt_lt_1_alt. lra. Qed.
Lemma va_gt c np : flyable c -> 1 < np -> vs_pos c < va_pos c np.
Proof. intros F N. rewrite va_pos_eq by lra. pose proof (vs_pos_pos c F). pose proof (sqrt_gt1 np N). nra. Qed.
Lemma va_neg_ge c nn : flyable c -> nn <= -1 -> vs_neg c <= va_neg c nn.
Proof. intros F N. rewrite va_neg_eq by assumption. pose proof (vs_neg_pos c F). pose proof (sqrt_ge1 (Rabs nn)). rewrite (Rabs_left nn) in * by lra. nra. Qed.

Lemma cruise_up vap van vc : 0 < vap -> 0 < van -> vc <= cruise_above_manoeuvre vap van vc /\
  (vap <> van \/ vap <= vc -> vap <= cruise_above_manoeuvre vap van vc /\ van <= cruise_above_manoeuvre vap van vc).
Proof.
  intros A B. unfold cruise_above_manoeuvre. ltb; cbn [andb]; split; try lra.
Qed.
Lemma at_least_ge m v : m <= at_least m v /\ v <= at_least m v.
Proof. unfold at_least. ltb; lra. Qed.
Lemma dive_ge part cat wl vc vc1 : 0 < vc -> 115 / 100 * vc <= dive_speed part cat wl vc vc1.
Proof. intro V. unfold dive_speed. destruct (Nat.eqb part 25); [lra|]. ltb; lra. Qed.
Lemma dive_le part cat wl vc vc1 : 0 < vc -> 0 <= vc1 <= vc -> 0 < wl -> wl <= 400 -> dive_speed part cat wl vc vc1 <= 16 / 10 * vc.
Proof. intros V V1 W W4. unfold dive_speed. destruct (Nat.eqb part 25); [lra|]. destruct (String.eqb cat "acrobatic"), (String.eqb cat "utility"); ltb; nra. Qed.
Lemma min_cruise_pos part cat c kg u : Nat.eqb part 25 = false -> 0 < wing_loading c -> wing_loading c <= 400 -> 0 <= minimum_cruise part cat c kg u.
Proof.
  intros P W W4. unfold minimum_cruise. rewrite P. pose proof (sqrt_pos (wing_loading c)).
  destruct (String.eqb cat "acrobatic"); ltb; nra.
Qed.

Lemma gust_range part cat alt ur uc ud : gust_speeds part cat alt = (ur, uc, ud) -> alt <= 50000 ->
  0 < uc /\ uc <= ur /\ 0 < ud /\ 16 / 10 * ud <= uc.
Proof.
  unfold gust_speeds. intros H A. destruct (Nat.eqb part 25).
  - injection H as <- <- <-. ltb; lra.
  - destruct (String.eqb cat "commuter"); injection H as <- <- <-; ltb; lra.
Qed.
