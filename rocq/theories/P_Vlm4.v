(** * Vortex lattice: boundary conditions and loads *)
From Coq Require Import Reals List Bool Arith Lra Psatz Lia.
From Verif Require Import PyBase M_Opt P_Opt M_Rot P_Rot S_Wing P_Deriv M_Evtol S_Elec M_Vlm S_Rot S_Vlm P_Rotor P_Vlm P_Vlm2 P_Vlm3.
Import ListNotations.
Local Open Scope R_scope.

(** ** normals *)
Lemma npnorm_norm a : npnorm a = norm a.
Proof. unfold npnorm, norm, vdot. f_equal. Qed.
Lemma norm_pos_ne a : a <> V3 0 0 0 -> 0 < norm a.
Proof.
  intro H. apply sqrt_lt_R0. apply Rnot_le_lt. intro L. apply H. destruct a as [x y z]. unfold vdot in L; cbn in L.
  assert (x = 0) by nra. assert (y = 0) by nra. assert (z = 0) by nra. subst. reflexivity.
Qed.
Lemma vdot_scaled k a b : vdot (scaled k a) b = k * vdot a b. Proof. unfold vdot, scaled; cbn [vx vy vz]. ring. Qed.
Lemma vdot_scaled_r k a b : vdot a (scaled k b) = k * vdot a b. Proof. unfold vdot, scaled; cbn [vx vy vz]. ring. Qed.
Lemma vdot_plus a b c : vdot (plus a b) c = vdot a c + vdot b c. Proof. unfold vdot, plus; cbn [vx vy vz]. ring. Qed.
Lemma unit_of c : c <> V3 0 0 0 -> vdot (scaled (/ norm c) c) (scaled (/ norm c) c) = 1.
Proof. intro H. pose proof (norm_pos_ne c H). rewrite vdot_scaled, vdot_scaled_r, <- norm_sq. field. lra. Qed.
Definition edges (p : panel) : v3 * v3 := (minus (q_b1 p) (q_a1 p), minus (q_a2 p) (q_a1 p)).
Lemma unit_normal_spec p : cross (minus (q_b1 p) (q_a1 p)) (minus (q_a2 p) (q_a1 p)) <> V3 0 0 0 ->
  norm (unit_normal p) = 1 /\ vdot (unit_normal p) (minus (q_b1 p) (q_a1 p)) = 0 /\ vdot (unit_normal p) (minus (q_a2 p) (q_a1 p)) = 0 /\ 0 <= vz (unit_normal p).
Proof.
  intro H. unfold unit_normal. cbn zeta. change (npcross (vless (q_b1 p) (q_a1 p)) (vless (q_a2 p) (q_a1 p))) with (cross (minus (q_b1 p) (q_a1 p)) (minus (q_a2 p) (q_a1 p))).
  change npnorm with norm. change vtimes3 with scaled. set (c := cross _ _) in *. pose proof (unit_of c H) as U.
  assert (P1 : vdot c (minus (q_b1 p) (q_a1 p)) = 0) by (unfold c, cross, vdot; cbn [vx vy vz]; ring).
  assert (P2 : vdot c (minus (q_a2 p) (q_a1 p)) = 0) by (unfold c, cross, vdot; cbn [vx vy vz]; ring).
  lcase (vz (scaled (/ norm c) c)) 0.
  - split; [|split; [|split]].
    + apply norm_of; [lra|]. rewrite vdot_scaled, vdot_scaled_r, U. ring.
    + rewrite !vdot_scaled, P1. ring.
    + rewrite !vdot_scaled, P2. ring.
    + unfold scaled in *; cbn [vz] in *. lra.
  - split; [|split; [|split]].
    + apply norm_of; [lra|]. rewrite U. ring.
    + rewrite !vdot_scaled, P1. ring.
    + rewrite !vdot_scaled, P2. ring.
    + assumption.
Qed.
(** a panel with slopes tan delta and tan phi *)
Lemma unit_normal_slopes p delta phi : cross (minus (q_b1 p) (q_a1 p)) (minus (q_a2 p) (q_a1 p)) <> V3 0 0 0 ->
  (forall e, e = minus (q_b1 p) (q_a1 p) \/ e = minus (q_a2 p) (q_a1 p) -> vz e = vx e * tan delta + vy e * tan phi) ->
  unit_normal p = surface_normal delta phi.
Proof.
  intros H HS. unfold unit_normal, surface_normal. cbn zeta. change (npcross (vless (q_b1 p) (q_a1 p)) (vless (q_a2 p) (q_a1 p))) with (cross (minus (q_b1 p) (q_a1 p)) (minus (q_a2 p) (q_a1 p))).
  change npnorm with norm. change vtimes3 with scaled.
  pose proof (HS _ (or_introl eq_refl)) as S1. pose proof (HS _ (or_intror eq_refl)) as S2. clear HS.
  set (e1 := minus (q_b1 p) (q_a1 p)) in *. set (e2 := minus (q_a2 p) (q_a1 p)) in *. set (t := V3 (- tan delta) (- tan phi) 1).
  set (m := vx e1 * vy e2 - vy e1 * vx e2).
  assert (EC : cross e1 e2 = scaled m t) by (unfold cross, scaled, t, m; cbn [vx vy vz]; rewrite S1, S2; f_equal; ring).
  rewrite EC in *.
  assert (M0 : m <> 0). { intro Z. apply H. unfold scaled, t; cbn [vx vy vz]. rewrite Z. f_equal; ring. }
  assert (NT : 0 < norm t). { apply norm_pos_ne. unfold t. intro E. apply (f_equal vz) in E. cbn in E. lra. }
  assert (EN : norm (scaled m t) = Rabs m * norm t).
  { apply norm_of; [apply Rmult_le_pos; [apply Rabs_pos|lra]|]. rewrite vdot_scaled, vdot_scaled_r, <- norm_sq.
    assert (A : Rabs m * Rabs m = m * m) by (rewrite <- Rabs_mult; apply Rabs_right; pose proof (Rle_0_sqr m) as U; unfold Rsqr in U; lra).
    transitivity (Rabs m * Rabs m * (norm t * norm t)); [rewrite A; ring|ring]. }
  rewrite EN. 
  assert (EZ : vz (scaled (/ (Rabs m * norm t)) (scaled m t)) = m / Rabs m / norm t) by (unfold scaled, t; cbn [vz]; fold t; pose proof (Rabs_no_R0 m M0); field; split; first [assumption|lra]).
  rewrite EZ. destruct (Rdichotomy _ _ M0) as [L|L].
  - rewrite Rabs_left by lra. assert (EQ : m / - m / norm t = - / norm t) by (field; lra). rewrite EQ.
    assert (0 < / norm t) by (apply Rinv_0_lt_compat; lra). rewrite (proj2 (Rltb_true (- / norm t) 0)) by lra.
    unfold scaled; cbn [vx vy vz]. f_equal; field; lra.
  - rewrite Rabs_right by lra. assert (EQ : m / m / norm t = / norm t) by (field; lra). rewrite EQ.
    assert (0 < / norm t) by (apply Rinv_0_lt_compat; lra). rewrite (proj2 (Rltb_false (/ norm t) 0)) by lra.
    unfold scaled; cbn [vx vy vz]. f_equal; field; lra.
Qed.
Lemma row_induced delta phi cs gs : row_times (map (matrix_entry delta phi) cs) gs = matrix_entry delta phi (induced cs gs).
Proof.
  revert gs; induction cs as [|c cs IH]; intros [|g gs]; cbn [map row_times induced].
  1-3: unfold matrix_entry; cbn [vx vy vz]; ring.
  rewrite IH. unfold matrix_entry, plus, scaled; cbn [vx vy vz]. ring.
Qed.
Definition shrink (delta phi : R) : R := sqrt (1 - (sin delta * sin phi) * (sin delta * sin phi)).
Lemma shrink_spec delta phi : 0 < cos delta -> 0 < cos phi -> 0 < shrink delta phi /\ shrink delta phi = cos delta * cos phi * norm (V3 (- tan delta) (- tan phi) 1).
Proof.
  intros Cd Cp. pose proof (sin2_cos2 delta) as D. pose proof (sin2_cos2 phi) as P. unfold Rsqr in *.
  set (t := V3 (- tan delta) (- tan phi) 1).
  assert (NT : 0 < norm t). { apply norm_pos_ne. unfold t. intro E. apply (f_equal vz) in E. cbn in E. lra. }
  assert (PP : 0 < cos delta * cos phi * norm t) by (apply Rmult_lt_0_compat; [apply Rmult_lt_0_compat|]; assumption).
  assert (E : shrink delta phi = cos delta * cos phi * norm t).
  { unfold shrink. rewrite <- (sqrt_square (cos delta * cos phi * norm t)) by lra. f_equal.
    transitivity (cos delta * cos delta * (cos phi * cos phi) * (norm t * norm t)); [|ring]. rewrite norm_sq. unfold vdot, t; cbn [vx vy vz]. unfold tan.
    assert (S1 : sin delta * sin delta = 1 - cos delta * cos delta) by lra. assert (S2 : sin phi * sin phi = 1 - cos phi * cos phi) by lra.
    field_simplify_eq; [|lra]. ring [S1 S2]. }
  rewrite E. split; [exact PP|reflexivity].
Qed.
Lemma entry_normal delta phi c : 0 < cos delta -> 0 < cos phi -> matrix_entry delta phi c = - shrink delta phi * vdot c (surface_normal delta phi).
Proof.
  intros Cd Cp. destruct (shrink_spec delta phi Cd Cp) as [P E]. rewrite E. unfold surface_normal. cbn zeta.
  assert (NT : 0 < norm (V3 (- tan delta) (- tan phi) 1)) by (apply norm_pos_ne; intro Z; apply (f_equal vz) in Z; cbn in Z; lra).
  rewrite vdot_scaled_r. set (n := norm _) in *. unfold matrix_entry, vdot, tan; cbn [vx vy vz]. field. repeat split; lra.
Qed.
Lemma tangency delta phi cs gs (w : v3) : 0 < cos delta -> 0 < cos phi ->
  row_times (map (matrix_entry delta phi) cs) gs = vdot w (surface_normal delta phi) ->
  vdot (plus w (induced cs gs)) (surface_normal delta phi) = (1 - / shrink delta phi) * vdot w (surface_normal delta phi).
Proof.
  intros Cd Cp H. rewrite row_induced, entry_normal in H by assumption. destruct (shrink_spec delta phi Cd Cp) as [P _].
  rewrite vdot_plus. assert (E : vdot (induced cs gs) (surface_normal delta phi) = - / shrink delta phi * vdot w (surface_normal delta phi)) by (rewrite <- H; field; lra). rewrite E. ring.
Qed.
Lemma shrink_one delta phi : 0 < cos delta -> 0 < cos phi -> (1 - / shrink delta phi = 0 <-> sin delta = 0 \/ sin phi = 0).
Proof.
  intros Cd Cp. destruct (shrink_spec delta phi Cd Cp) as [P _].
  assert (Q : 1 - / shrink delta phi = 0 <-> shrink delta phi = 1). { split; intro H; [rewrite <- (Rinv_inv (shrink delta phi)); replace (/ shrink delta phi) with 1 by lra; apply Rinv_1|rewrite H; field]. }
  rewrite Q. clear Q. unfold shrink in *.
  assert (N : 0 <= 1 - sin delta * sin phi * (sin delta * sin phi)) by (apply Rnot_lt_le; intro L; rewrite sqrt_neg_0 in P by lra; lra).
  split.
  - intro E. assert (E2 : sqrt (1 - sin delta * sin phi * (sin delta * sin phi)) * sqrt (1 - sin delta * sin phi * (sin delta * sin phi)) = 1) by (rewrite E; ring). rewrite sqrt_sqrt in E2 by exact N.
    apply Rmult_integral. nra.
  - intros [Z|Z]; rewrite Z; replace (1 - _) with 1 by ring; apply sqrt_1.
Qed.
(** ** loads: arrays *)
Lemma cumsum_app c l m : cumsum_from c (l ++ m) = cumsum_from c l ++ cumsum_from (c + total l) m.
Proof. revert c; induction l as [|a l IH]; intro c; cbn [app cumsum_from]; [f_equal; unfold total; cbn; ring|]. rewrite IH. cbn [app]. do 2 f_equal. f_equal. unfold total; cbn [fold_right]. ring. Qed.
Lemma cumsum_length c l : length (cumsum_from c l) = length l. Proof. revert c; induction l; intro c; cbn; [reflexivity|]. f_equal. apply IHl. Qed.
Lemma cumsum_nth c l j : (j < length l)%nat -> nth j (cumsum_from c l) 0 = c + total (firstn (S j) l).
Proof.
  revert c j; induction l as [|a l IH]; intros c j H; [cbn in H; lia|]. destruct j as [|j]; cbn [cumsum_from nth firstn].
  - unfold total; cbn. ring.
  - rewrite IH by (cbn in H; lia). unfold total; cbn [fold_right firstn]. destruct l; [cbn in H; lia|]. cbn [fold_right]. ring.
Qed.
Lemma running_cumsum l c d : map2 (fun a b => a - b) (cumsum_from c l) (repeat d (length l)) = running (c - d) l.
Proof.
  revert c; induction l as [|a l IH]; intro c; cbn [cumsum_from repeat length map2 running]; [reflexivity|].
  replace (c - d + a) with (c + a - d) by ring. f_equal. apply IH.
Qed.
Definition nonempty (strips : list (list R)) : Prop := Forall (fun s => s <> []) strips.
Lemma strip_cumsum_gen P strips :
  map2 (fun c o => c - o) (cumsum_from (total P) (concat strips))
    (concat (map2 (fun (o : R) (n : nat) => repeat o n) (map (fun b => total (firstn b (P ++ concat strips))) (starts (length P) strips)) (map (@length R) strips)))
  = concat (map (running 0) strips).
Proof.
  revert P; induction strips as [|s r IH]; intro P; [reflexivity|]. cbn [concat starts map map2].
  assert (F : firstn (length P) (P ++ s ++ concat r) = P) by (rewrite firstn_app, Nat.sub_diag, firstn_all; cbn; apply app_nil_r). rewrite F.
  rewrite cumsum_app, map2_app by (rewrite cumsum_length, repeat_length; reflexivity).
  rewrite running_cumsum. replace (total P - total P) with 0 by ring. f_equal.
  specialize (IH (P ++ s)). rewrite app_length, total_app, <- app_assoc in IH. exact IH.
Qed.
Lemma starts_bound n0 strips b : nonempty strips -> In b (starts n0 strips) -> (n0 <= b < n0 + length (concat strips))%nat.
Proof.
  intro H. revert n0. induction H as [|s r Hs Hr IH]; intros n0 I; [contradiction|]. cbn [starts concat] in *. rewrite app_length. destruct s as [|a s]; [contradiction|]. cbn [length] in *.
  destruct I as [<-|I]; [lia|]. apply IH in I. lia.
Qed.
Lemma strip_cumsum_spec strips : nonempty strips -> strip_cumsum (concat strips) (starts 0 strips) (map (@length R) strips) = concat (map (running 0) strips).
Proof.
  intro H. unfold strip_cumsum. cbn zeta. rewrite <- (strip_cumsum_gen [] strips). cbn [app length]. unfold total at 1; cbn [fold_right]. f_equal. f_equal. f_equal.
  destruct strips as [|s r]; [reflexivity|]. cbn [starts map]. f_equal. 
  set (arr := concat (s :: r)). apply map_ext_in. intros b Hb. inversion H; subst. destruct s as [|a s]; [contradiction|].
  assert (B : (0 + length (a :: s) <= b < length arr)%nat). { unfold arr. cbn [concat]. rewrite app_length. pose proof (starts_bound (length (a :: s)) r b ltac:(assumption) Hb). lia. }
  destruct b as [|j]; [cbn in B; lia|]. rewrite cumsum_nth by lia. ring.
Qed.
Lemma last_shift l : l <> [] -> roll1 l = shift_in (last l 0) l.
Proof.
  intro H. destruct l as [|a r]; [contradiction|]. unfold roll1. set (x := last (a :: r) 0). cbn [shift_in]. f_equal. clear x H. revert a. induction r as [|b r IH]; intro a; [reflexivity|]. cbn [removelast shift_in]. f_equal. apply IH.
Qed.
Lemma last_cons (l : list R) : forall a d, last (a :: l) d = last l a.
Proof. induction l as [|b l IH]; intros a d; [reflexivity|]. change (last (a :: b :: l) d) with (last (b :: l) d). rewrite (IH b d). symmetry. apply IH. Qed.
Lemma shift_app d l m : shift_in d (l ++ m) = shift_in d l ++ shift_in (last l d) m.
Proof. revert d; induction l as [|a l IH]; intro d; [reflexivity|]. cbn [app shift_in]. rewrite IH, last_cons. reflexivity. Qed.
Lemma shift_length d l : length (shift_in d l) = length l. Proof. revert d; induction l; intro d; cbn; [reflexivity|]. f_equal. apply IHl. Qed.
Lemma running_length c l : length (running c l) = length l. Proof. revert c; induction l; intro c; cbn; [reflexivity|]. f_equal. apply IHl. Qed.
Lemma shift_running c l : shift_in c (running c l) = ahead c l.
Proof. revert c; induction l as [|a l IH]; intro c; [reflexivity|]. cbn [running shift_in ahead]. f_equal. apply IH. Qed.
Lemma clear_none (r x : list R) : length x = length r -> clear_where (map (fun _ => false) r) x = x.
Proof. revert x; induction r; intros [|b x] H; cbn in *; try discriminate; [reflexivity|]. unfold clear_where in *; cbn [map2]. f_equal. apply IHr. lia. Qed.
Lemma gant_spec strips : nonempty strips -> gant (concat strips) (starts 0 strips) (map (@length R) strips) (marks_first strips) = concat (map (ahead 0) strips).
Proof.
  intro H. unfold gant. rewrite strip_cumsum_spec by exact H.
  destruct strips as [|s r] eqn:ES; [reflexivity|]. rewrite <- ES in *.
  assert (NE : concat (map (running 0) strips) <> []).
  { subst. inversion H; subst. destruct s; [contradiction|]. discriminate. }
  rewrite (last_shift _ NE). generalize (last (concat (map (running 0) strips)) 0). clear NE ES s r.
  induction H as [|s r Hs Hr IH]; intro d; [reflexivity|]. cbn [map concat]. unfold marks_first in *. cbn [map concat]. fold (first_of s).
  rewrite shift_app. unfold clear_where. rewrite map2_app by (rewrite shift_length, running_length, first_length; reflexivity). f_equal; [|apply IH].
  destruct s as [|a s]; [contradiction|]. cbn [first_of running shift_in map2 ahead]. f_equal. 
  fold (clear_where (map (fun _ : R => false) s) (shift_in (0 + a) (running (0 + a) s))). rewrite clear_none by (rewrite shift_length, running_length; reflexivity). apply shift_running.
Qed.
Lemma reduceat_gen P strips : nonempty strips ->
  map (fun s => if Nat.ltb (fst s) (snd s) then total (firstn (snd s - fst s) (skipn (fst s) (P ++ concat strips))) else nth (fst s) (P ++ concat strips) 0) (slices (starts (length P) strips) (length (P ++ concat strips)))
  = map total strips.
Proof.
  intro H. revert P. induction H as [|s r Hs Hr IH]; intro P; [reflexivity|]. cbn [starts concat map].
  assert (L : (0 < length s)%nat) by (destruct s; [contradiction|cbn; lia]).
  assert (K : forall e, e = (length P + length s)%nat -> (if Nat.ltb (fst (length P, e)) (snd (length P, e)) then total (firstn (snd (length P, e) - fst (length P, e)) (skipn (fst (length P, e)) (P ++ s ++ concat r))) else nth (fst (length P, e)) (P ++ s ++ concat r) 0) = total s).
  { intros e ->. cbn [fst snd]. rewrite (proj2 (Nat.ltb_lt _ _)) by lia. rewrite skipn_app, Nat.sub_diag, skipn_all. cbn [app skipn].
    replace (length P + length s - length P)%nat with (length s) by lia. rewrite firstn_app, Nat.sub_diag, firstn_all. cbn [firstn]. rewrite app_nil_r. reflexivity. }
  specialize (IH (P ++ s)). rewrite app_length, <- app_assoc in IH.
  destruct r as [|s' r'] eqn:ER.
  - cbn [starts slices map concat] in *. rewrite (K (length (P ++ s ++ []))) by (rewrite !app_length; cbn; lia). reflexivity.
  - rewrite <- ER in *. assert (E : slices (length P :: starts (length P + length s) r) (length (P ++ s ++ concat r)) = (length P, (length P + length s)%nat) :: slices (starts (length P + length s) r) (length (P ++ s ++ concat r))) by (rewrite ER; reflexivity).
    rewrite E. cbn [map]. rewrite (K _ eq_refl). f_equal. exact IH.
Qed.
Lemma reduceat_spec strips : nonempty strips -> reduceat (concat strips) (starts 0 strips) = map total strips.
Proof. intro H. exact (reduceat_gen [] strips H). Qed.
(** ** loads: one strip *)
Lemma to_wind_inner f a b : vdot (to_wind f a) (to_wind f b) = vdot a b.
Proof.
  pose proof (sin2_cos2 (f_alpha f)) as A. pose proof (sin2_cos2 (f_psi f)) as P. unfold Rsqr in *.
  assert (S1 : sin (f_alpha f) * sin (f_alpha f) = 1 - cos (f_alpha f) * cos (f_alpha f)) by lra. assert (S2 : sin (f_psi f) * sin (f_psi f) = 1 - cos (f_psi f) * cos (f_psi f)) by lra.
  unfold vdot, to_wind; cbn [vx vy vz]. ring [S1 S2].
Qed.
Lemma strip_loads_wind f xb zb s :
  V3 (r_drag (strip_loads f xb zb s)) (r_fy (strip_loads f xb zb s)) (r_lift (strip_loads f xb zb s)) = scaled (p_es s * p_chord s) (to_wind f (body_force f s)) /\
  V3 (r_roll (strip_loads f xb zb s)) (r_moment (strip_loads f xb zb s)) (r_yaw (strip_loads f xb zb s)) = scaled (p_es s * p_chord s) (to_wind f (body_moment f xb zb s)).
Proof.
  unfold strip_loads. cbn zeta. set (b := body_force f s). set (m := body_moment f xb zb s). cbn [r_drag r_fy r_lift r_roll r_moment r_yaw].
  unfold to_wind, scaled; cbn [vx vy vz]. split; f_equal; ring.
Qed.
Lemma body_force_size f s : vdot (body_force f s) (body_force f s) = cnc f s * cnc f s + caxl f s * caxl f s.
Proof.
  pose proof (sin2_cos2 (p_zeta s)) as A. pose proof (sin2_cos2 (p_phi s)) as P. unfold Rsqr in *.
  assert (S1 : sin (p_zeta s) * sin (p_zeta s) = 1 - cos (p_zeta s) * cos (p_zeta s)) by lra. assert (S2 : sin (p_phi s) * sin (p_phi s) = 1 - cos (p_phi s) * cos (p_phi s)) by lra.
  unfold body_force, vdot; cbn [vx vy vz]. set (n := cnc f s). set (x := caxl f s). ring [S1 S2].
Qed.
Lemma body_moment_shift f xb zb dx dz s : body_moment f (xb + dx) (zb + dz) s = minus (body_moment f xb zb s) (cross (V3 dx 0 dz) (body_force f s)).
Proof. unfold body_moment. cbn zeta. set (b := body_force f s). unfold minus, cross; cbn [vx vy vz]. f_equal; ring. Qed.
Lemma normal_force_kutta f s : sin (f_psi f) = 0 -> cos (f_psi f) = 1 -> p_chord s <> 0 -> p_panels s <> [] ->
  normal_force f s * p_chord s = 2 * total (map (fun l => l_gamma l * (cos (f_alpha f) + l_onset l)) (p_panels s)).
Proof.
  intros HS HC Hc Hp. unfold normal_force, strip_pressures. cbn zeta. set (n := INR (length (p_panels s))).
  assert (Hn : n <> 0) by (unfold n; apply not_0_INR; destruct (p_panels s); [contradiction|discriminate]).
  assert (G : forall l rk g, total (map (sinf n) (pressures f s n rk g l)) * p_chord s = 2 * total (map (fun l => l_gamma l * (cos (f_alpha f) + l_onset l)) l)).
  { induction l as [|a l IH]; intros rk g; cbn [pressures map]; [unfold total; cbn; ring|].
    unfold total in *; cbn [fold_right]. rewrite Rmult_plus_distr_r, IH. unfold pressure, sinf. cbn zeta. rewrite HS, HC.
    match goal with |- context [?c * 2 * ?d * ?g0 / ?e] => replace (c * 2 * d * g0 / e) with 0 by (unfold Rdiv; ring) end. field. split; assumption. }
  apply G.
Qed.
Lemma nose_moment_arms f s : p_panels s <> [] ->
  nose_moment f s = - total (map2 (fun (k : nat) dcp => INR k / INR (length (p_panels s)) * sinf (INR (length (p_panels s))) dcp) (seq 0 (length (p_panels s))) (strip_pressures f s)).
Proof.
  intro Hp. unfold nose_moment, strip_pressures. set (n := INR (length (p_panels s))).
  assert (Hn : n <> 0) by (unfold n; apply not_0_INR; destruct (p_panels s); [contradiction|discriminate]).
  assert (G : forall l k g rk, rk = INR k + 1 -> edge_moment n rk (pressures f s n rk g l) = - total (map2 (fun (k : nat) dcp => INR k / n * sinf n dcp) (seq k (length l)) (pressures f s n rk g l))).
  { induction l as [|a l IH]; intros k g rk E; cbn [pressures edge_moment length seq map2]; [unfold total; cbn; ring|].
    unfold total in *; cbn [fold_right]. rewrite (IH (S k)) by (rewrite S_INR; lra). rewrite E. field. exact Hn. }
  apply (G (p_panels s) 0%nat 0 1). cbn. ring.
Qed.
Lemma suction_nonneg f s : 0 <= p_stb s -> 0 <= suction f s.
Proof.
  intro H. unfold suction. cbn zeta. set (c := p_cle s + _). pose proof PI_RGT_0. pose proof (Rabs_pos (p_spc s)). pose proof (Rle_0_sqr c) as U. unfold Rsqr in U.
  apply Rmult_le_pos; [apply Rmult_le_pos; [apply Rmult_le_pos; [lra|assumption]|exact U]|exact H].
Qed.
Lemma suction_way_unit f s : (p_spc s < 0 -> hd 0 (strip_pressures f s) <> 0) -> fst (suction_way f s) * fst (suction_way f s) + snd (suction_way f s) * snd (suction_way f s) = 1.
Proof.
  intro H. unfold suction_way. cbn zeta. set (a := l_slope _ - _). pose proof (sin2_cos2 a) as A. unfold Rsqr in A.
  lcase (p_spc s) 0; cbn [fst snd]; [|lra]. specialize (H ltac:(assumption)). set (d := hd 0 _) in *.
  assert (SG : sign d * sign d = 1). { clear -H. unfold sign. lcase d 0; [ring|]. clear E. lcase 0 d; [ring|]. exfalso. apply H. lra. }
  assert (Rabs (cos a) * Rabs (cos a) = cos a * cos a) by (rewrite <- Rabs_mult; apply Rabs_right; pose proof (Rle_0_sqr (cos a)) as U; unfold Rsqr in U; lra). nra.
Qed.
(** the other wing *)
Definition other_side (s : strip) : strip :=
  {| p_chord := p_chord s; p_panels := p_panels s; p_tle := p_tle s; p_tte := p_tte s; p_cosdl := p_cosdl s; p_zeta := p_zeta s; p_phi := - p_phi s; p_at := mirror (p_at s); p_es := p_es s; p_cle := p_cle s; p_stb := p_stb s; p_spc := p_spc s |}.
Lemma other_pressures f s : strip_pressures f (other_side s) = strip_pressures f s.
Proof.
  unfold strip_pressures. assert (G : forall l n rk g, pressures f (other_side s) n rk g l = pressures f s n rk g l).
  { induction l as [|a l IH]; intros; cbn [pressures]; [reflexivity|]. f_equal. apply IH. }
  apply G.
Qed.
Lemma other_loads f xb zb s : sin (f_psi f) = 0 -> let a := strip_loads f xb zb s in let b := strip_loads f xb zb (other_side s) in
  r_lift b = r_lift a /\ r_drag b = r_drag a /\ r_moment b = r_moment a /\ r_fy b = - r_fy a /\ r_roll b = - r_roll a /\ r_yaw b = - r_yaw a.
Proof.
  intros HS. cbn zeta.
  assert (N : normal_force f (other_side s) = normal_force f s) by (unfold normal_force; rewrite other_pressures; reflexivity).
  assert (AX : axial_force f (other_side s) = axial_force f s) by (unfold axial_force; rewrite other_pressures; reflexivity).
  assert (NM : nose_moment f (other_side s) = nose_moment f s) by (unfold nose_moment; rewrite other_pressures; reflexivity).
  assert (SU : suction f (other_side s) = suction f s) by (unfold suction; rewrite other_pressures; reflexivity).
  assert (SW : suction_way f (other_side s) = suction_way f s) by (unfold suction_way; rewrite other_pressures; reflexivity).
  assert (CN : cnc f (other_side s) = cnc f s) by (unfold cnc; rewrite N, SU, SW; reflexivity).
  assert (CX : caxl f (other_side s) = caxl f s) by (unfold caxl; rewrite AX, SU, SW; reflexivity).
  assert (BF : body_force f (other_side s) = mirror (body_force f s)).
  { unfold body_force. rewrite CN, CX. unfold mirror; cbn [p_phi p_zeta other_side vx vy vz]. rewrite cos_neg, sin_neg. f_equal. ring. }
  assert (LM : forall s0, lateral_moment f s0 = 0) by (intro s0; unfold lateral_moment; rewrite HS; ring).
  assert (BM : body_moment f xb zb (other_side s) = V3 (- vx (body_moment f xb zb s)) (vy (body_moment f xb zb s)) (- vz (body_moment f xb zb s))).
  { unfold body_moment. rewrite !LM, BF, NM. cbn zeta. unfold mirror; cbn [p_phi p_chord p_at other_side vx vy vz]. unfold mirror; cbn [vx vy vz]. rewrite cos_neg, sin_neg. f_equal; ring. }
  unfold strip_loads. rewrite BF, BM, HS. cbn [r_lift r_drag r_moment r_fy r_roll r_yaw p_chord p_es other_side]. unfold mirror; cbn [vx vy vz].
  repeat split; ring.
Qed.
Lemma total_opposite {A} (g : A -> R) (h : A -> A) l : (forall a, In a l -> g (h a) = - g a) -> total (map g (l ++ map h l)) = 0.
Proof.
  intro H. rewrite map_app, total_app, map_map. assert (E : total (map (fun a => g (h a)) l) = - total (map g l)).
  { induction l as [|a l IH]; [unfold total; cbn; ring|]. unfold total in *; cbn [map fold_right]. rewrite IH, (H a (or_introl eq_refl)) by (intros; apply H; right; assumption). ring. }
  rewrite E. ring.
Qed.
Lemma totals_wings f xb zb sref cbar span surf (wings : list (list strip)) : sref <> 0 -> Forall (fun w => w <> []) wings -> length surf = length wings -> Forall (fun a => a <> 0) surf ->
  let t := totals f xb zb sref cbar span surf (starts 0 (map (map (fun _ => 0)) wings)) (concat wings) in
  v_CL t * sref = total (map2 Rmult (v_CL_wing t) surf) /\ v_CDi t * sref = total (map2 Rmult (v_CDi_wing t) surf).
Proof.
  intros HR HW HL HS. unfold totals. cbn zeta. cbn [v_CL v_CDi v_CL_wing v_CDi_wing].
  assert (G : forall g : wind_loads -> R, total (map g (map (strip_loads f xb zb) (concat wings))) / sref * sref = total (map2 Rmult (map2 Rdiv (reduceat (map g (map (strip_loads f xb zb) (concat wings))) (starts 0 (map (map (fun _ => 0)) wings))) surf) surf)).
  { intro g. rewrite map_map. set (q := fun x => g (strip_loads f xb zb x)).
    assert (E : map q (concat wings) = concat (map (map q) wings)) by apply concat_map.
    assert (ST : forall n, starts n (map (map (fun _ => 0)) wings) = starts n (map (map q) wings)).
    { clear. induction wings as [|w r IH]; intro n; [reflexivity|]. cbn [map starts]. rewrite !map_length. f_equal. apply IH. }
    rewrite ST, E. rewrite reduceat_spec.
    2:{ clear -HW. induction HW; cbn [map]; constructor; [|assumption]. destruct x; [contradiction|discriminate]. }
    assert (TC : forall ll, total (concat ll) = total (map total ll)) by (induction ll as [|a ll IH]; [reflexivity|]; cbn [concat map]; rewrite total_app, IH; reflexivity).
    rewrite TC. replace (total (map total (map (map q) wings)) / sref * sref) with (total (map total (map (map q) wings))) by (field; exact HR). f_equal.
    set (ls := map total (map (map q) wings)). assert (LL : length ls = length surf) by (unfold ls; rewrite !map_length; lia). clearbody ls. clear -HS LL.
    revert surf HS LL; induction ls as [|a ls IH]; intros [|b surf] HS LL; cbn in *; try discriminate; [reflexivity|]. inversion HS; subst. f_equal; [field; assumption|]. apply IH; [assumption|lia]. }
  split; [exact (G r_lift)|exact (G r_drag)].
Qed.
