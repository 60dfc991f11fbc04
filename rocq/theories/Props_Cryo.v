(** * Properties of cryogenic coolers, coolants, current leads, dynamos and superconducting rotors *)
From Coq Require Import Reals List Bool Lia Lra Psatz.
From Verif Require Import PyBase M_Opt P_Opt M_Cryo S_Cryo P_Cryo.
Import ListNotations.
Local Open Scope R_scope.

(** ** C180 cryocoolers *)
(** an answer for every point, or for none: the coldest temperature a cooler reaches moves with the ambient, degree for degree *)
Theorem C180_reach k l : k <> Other -> (forall p, In p l -> 1 <= cp_tgt p) ->
  (cryocooler k l = Unreachable <-> exists p, In p l /\ cp_tgt p < room_min k + (cp_amb p - 29215 / 100)) /\
  ((forall p, In p l -> room_min k + (cp_amb p - 29215 / 100) <= cp_tgt p) ->
     exists ps, cryocooler k l = Powers ps /\ length ps = length l).
Proof.
  intros K T. assert (E : cryocooler k l = if existsb (fun p => Rltb (cp_tgt p - temp_min k (cp_amb p)) 0) l then Unreachable else Powers (map (cool_point k) l)).
  { unfold cryocooler. rewrite (targets_id l T). destruct k; reflexivity || now destruct K. }
  rewrite E. split.
  - split.
    + destruct (existsb _ l) eqn:X; [|discriminate]. intros _. apply existsb_exists in X. destruct X as (p & I & L). apply Rltb_true in L. exists p. unfold temp_min in L. split; [exact I|lra].
    + intros (p & I & L). replace (existsb _ l) with true; [reflexivity|]. symmetry. apply existsb_exists. exists p. split; [exact I|]. apply Rltb_true. unfold temp_min. lra.
  - intro H. replace (existsb _ l) with false. { eexists. split; [reflexivity|apply map_length]. }
    symmetry. apply existsb_false. intros p I. apply Rltb_false. specialize (H p I). unfold temp_min. lra.
Qed.
(** points do not disturb each other *)
Theorem C180_points k l ps i p : k <> Other -> (forall p, In p l -> 1 <= cp_tgt p) -> cryocooler k l = Powers ps ->
  nth_error l i = Some p -> exists a, nth_error ps i = Some a /\ cryocooler k [p] = Powers [a].
Proof.
  intros K T E N. unfold cryocooler in *. rewrite (targets_id l T) in E. rewrite (targets_id [p]). 2:{ intros q [<-|[]]. apply T. now apply nth_error_In in N. }
  assert (E' : (if existsb (fun p => Rltb (cp_tgt p - temp_min k (cp_amb p)) 0) l then Unreachable else Powers (map (cool_point k) l)) = Powers ps) by (destruct k; exact E || now destruct K).
  destruct (existsb _ l) eqn:X; [discriminate|]. injection E' as <-. exists (cool_point k p). split; [now apply map_nth_error|].
  rewrite existsb_false in X. specialize (X p (nth_error_In l i N)). cbn [existsb]. rewrite X. cbn. destruct k; reflexivity || now destruct K.
Qed.
(** no cooler beats Carnot, at any ambient, from 24 K up *)
Theorem C180_second_law k amb q t ps : k <> Other -> 0 <= q -> 24 <= t -> room_min k + (amb - 29215 / 100) < t -> t < amb ->
  cryocooler k [CP amb q t] = Powers ps -> exists w m, ps = [Some (w, m)] /\ carnot_power q t amb <= w.
Proof.
  intros K Q T M H E. assert (E' : cryocooler k [CP amb q t] = Powers [cool_point k (CP amb q t)]).
  { unfold cryocooler. rewrite targets_id. 2:{ intros p [<-|[]]. cbn. lra. } replace (existsb _ _) with false; [destruct k; reflexivity || now destruct K|].
    symmetry. apply existsb_false. intros p [<-|[]]. apply Rltb_false. unfold temp_min. cbn. lra. }
  rewrite E in E'. injection E' as ->. rewrite cool_some by (auto; unfold temp_min; cbn; lra). cbn [cp_load cp_tgt cp_amb]. do 2 eexists. split; [reflexivity|].
  unfold carnot_power, temp_min. pose proof (carnot_ok k K (amb - t)) as C. pose proof (slope_pos k K).
  set (e := slope k * (t - (room_min k - (29215 / 100 - amb)))). assert (0 < e) by (apply Rmult_lt_0_compat; lra).
  assert (D : e * (amb - t) <= t). { replace (e * (amb - t)) with (slope k * (29215 / 100 - room_min k - (amb - t)) * (amb - t)) by (unfold e; ring). lra. }
  apply Rmult_le_reg_r with (t * e); [apply Rmult_lt_0_compat; lra|]. replace (q * (amb - t) / t * (t * e)) with (q * (e * (amb - t))) by (field; lra).
  replace (q / e * (t * e)) with (q * t) by (field; lra). apply Rmult_le_compat_l; lra.
Qed.
(** a colder target, a hotter ambient and a bigger load all cost power and mass *)
Theorem C180_cost k amb amb' q q' t t' : k <> Other -> 1 <= t' -> t' <= t -> amb <= amb' -> 0 < q -> q <= q' -> room_min k + (amb' - 29215 / 100) < t' ->
  exists w m w' m', cryocooler k [CP amb q t] = Powers [Some (w, m)] /\ cryocooler k [CP amb' q' t'] = Powers [Some (w', m')] /\
    0 < w <= w' /\ m <= m' /\ (t' < t \/ amb < amb' \/ q < q' -> w < w' /\ m < m') /\
    (forall d, 1 <= t + d -> cryocooler k [CP (amb + d) q (t + d)] = Powers [Some (w, m)]).
Proof.
  intros K T1 T A Q QQ M.
  assert (G : forall amb q t, 1 <= t -> room_min k + (amb - 29215 / 100) < t ->
    let e := slope k * (t - (room_min k + (amb - 29215 / 100))) in cryocooler k [CP amb q t] = Powers [Some (q / e, cooler_mass k (q / e))]).
  { clear - K. intros amb q t T M. unfold cryocooler. rewrite targets_id. 2:{ intros p [<-|[]]. cbn. lra. } replace (existsb _ _) with false.
    2:{ symmetry. apply existsb_false. intros p [<-|[]]. apply Rltb_false. unfold temp_min. cbn. lra. }
    assert (X : map (cool_point k) [CP amb q t] = [Some (q / (slope k * (t - (room_min k + (amb - 29215 / 100)))), cooler_mass k (q / (slope k * (t - (room_min k + (amb - 29215 / 100))))))]).
    { cbn [map]. rewrite cool_some by (auto; unfold temp_min; cbn; lra). cbn [cp_load cp_tgt cp_amb]. unfold temp_min. replace (room_min k - (29215 / 100 - amb)) with (room_min k + (amb - 29215 / 100)) by ring. reflexivity. }
    rewrite X. destruct k; reflexivity || now destruct K. }
  pose proof (slope_pos k K) as S. set (e := slope k * (t - (room_min k + (amb - 29215 / 100)))). set (e' := slope k * (t' - (room_min k + (amb' - 29215 / 100)))).
  assert (E' : 0 < e') by (apply Rmult_lt_0_compat; lra). assert (E : e' <= e) by (apply Rmult_le_compat_l; lra).
  assert (MM : forall x y, x <= y -> cooler_mass k x <= cooler_mass k y) by (intros; destruct k; cbn; lra).
  assert (MS : forall x y, x < y -> cooler_mass k x < cooler_mass k y) by (intros; destruct k; cbn; lra || now destruct K).
  assert (W : 0 < q / e) by (apply Rdiv_lt_0_compat; lra).
  assert (C : q / e <= q' / e'). { unfold Rdiv. apply Rmult_le_compat; try lra. apply Rlt_le, Rinv_0_lt_compat; lra. apply Rinv_le_contravar; lra. }
  exists (q / e), (cooler_mass k (q / e)), (q' / e'), (cooler_mass k (q' / e')).
  split; [apply G; lra|]. split; [apply G; lra|]. split; [lra|]. split; [auto|]. split.
  - intro D. assert (C' : q / e < q' / e').
    { destruct (Req_dec q q') as [<-|N].
      - assert (e' < e) by (apply Rmult_lt_compat_l; lra). unfold Rdiv. apply Rmult_lt_compat_l; [lra|]. apply Rinv_lt_contravar; [|lra]. apply Rmult_lt_0_compat; lra.
      - apply Rlt_le_trans with (q' / e). { unfold Rdiv. apply Rmult_lt_compat_r; [apply Rinv_0_lt_compat|]; lra. } unfold Rdiv. apply Rmult_le_compat_l; [lra|]. apply Rinv_le_contravar; lra. }
    auto.
  - intros d D. rewrite G by lra. replace (slope k * (t + d - (room_min k + (amb + d - 29215 / 100)))) with e by (unfold e; ring). reflexivity.
Qed.
(** findings: a target below 1 K moves its neighbours; ambients colder than the target still cost power, although the cooler is announced as disabled *)
Theorem C180_points_refuted : exists l p ps a, nth_error l 0 = Some p /\ cryocooler GM l = Powers ps /\ cryocooler GM [p] = Powers [a] /\ nth_error ps 0 <> Some a.
Proof.
  exists [CP (28675 / 100) 1 4; CP (28675 / 100) 1 (1 / 2)], (CP (28675 / 100) 1 4).
  do 2 eexists. split; [reflexivity|]. split; [|split].
  - unfold cryocooler, targets. replace (existsb _ [CP (28675 / 100) 1 4; CP (28675 / 100) 1 (1 / 2)]) with true.
    2:{ symmetry. apply existsb_exists. eexists. split; [right; left; reflexivity|]. apply Rltb_true. cbn. lra. }
    replace (existsb _ _) with false; [reflexivity|]. symmetry. apply existsb_false. intros p [<-|[<-|[]]]; apply Rltb_false; unfold temp_min; cbn [cp_tgt cp_amb room_min]; [pose proof (Rmax_l 4 5)|pose proof (Rmax_r (1 / 2) 5)]; lra.
  - unfold cryocooler. rewrite targets_id. 2:{ intros p [<-|[]]. cbn. lra. } replace (existsb _ _) with false; [reflexivity|].
    symmetry. apply existsb_false. intros p [<-|[]]. apply Rltb_false. unfold temp_min. cbn. lra.
  - cbn [map nth_error]. intro X. injection X as X. rewrite !cool_some in X; try discriminate.
    + cbn [cp_load cp_tgt cp_amb] in X. injection X as X _. unfold temp_min in X. cbn [slope room_min] in X. rewrite Rmax_right in X by lra. lra.
    + unfold temp_min. cbn. lra.
    + unfold temp_min. cbn [cp_amb cp_tgt room_min]. rewrite Rmax_right by lra. lra.
Qed.
Theorem C180_disabled_refuted : exists w m, cryocooler FPS [CP 250 100 280] = Powers [Some (w, m)] /\ 0 < w.
Proof.
  destruct (C180_cost FPS 250 250 100 100 280 280) as (w & m & w2 & m2 & E & _ & W & _); try discriminate; try (cbn; lra). exists w, m. split; [exact E|lra].
Qed.
Theorem C180_unknown l : cryocooler Other l = Zeros. Proof. reflexivity. Qed.
Example C180_ex : exists w m, cryocooler FPS [CP 290 100 60] = Powers [Some (w, m)] /\ 2630 < w < 2631 /\ 6 * carnot_power 100 60 290 < w.
Proof.
  do 2 eexists. split.
  - unfold cryocooler. rewrite targets_id. 2:{ intros p [<-|[]]. cbn. lra. } replace (existsb _ _) with false.
    2:{ symmetry. apply existsb_false. intros p [<-|[]]. apply Rltb_false. unfold temp_min. cbn. lra. }
    cbn [map]. rewrite cool_some by (try discriminate; unfold temp_min; cbn; lra). reflexivity.
  - unfold temp_min, carnot_power. cbn. lra.
Qed.

(** ** C181 coolant *)
(** the heat taken up is a difference of enthalpies, so it can be split at any temperature but the boiling point *)
Theorem C181_enthalpy g p a b : a <= b -> a <> boil_temp g p -> b <> boil_temp g p ->
  heat_per_kg g a b p = 1000 * (enthalpy g p b - enthalpy g p a).
Proof. exact (enthalpy_heat g p a b). Qed.
Theorem C181_split g p a b c : a <= b -> b <= c -> a <> boil_temp g p -> b <> boil_temp g p -> c <> boil_temp g p ->
  heat_per_kg g a c p = heat_per_kg g a b p + heat_per_kg g b c p.
Proof. intros. rewrite !C181_enthalpy by (assumption || lra). ring. Qed.
(** finding: heating to exactly the boiling point and on from there loses the heat of evaporation *)
Theorem C181_split_refuted g p a c : a < boil_temp g p -> boil_temp g p < c ->
  heat_per_kg g a c p = heat_per_kg g a (boil_temp g p) p + heat_per_kg g (boil_temp g p) c p + 1000 * latent g p.
Proof. intros A C. rewrite heat_both, heat_liquid, heat_gas by lra. ring. Qed.
(** the flow carries the load away; with hydrogen between 15 K and 300 K below 1.2 MPa there is an answer, less for hotter equipment and colder coolant, in proportion to the load *)
Theorem C181_balance g a b load p m : coolant_use g a b load p = Ok m -> m * heat_per_kg g a b p = load.
Proof. unfold coolant_use. cbv zeta. destruct (Req_EM_T _ 0) as [|N]; [discriminate|]. intro E. injection E as <-. field. exact N. Qed.
Theorem C181_hydrogen a a' b b' load p : 0 < p <= 1200000 -> 15 <= a' -> a' <= a -> a < b -> b <= b' -> b' <= 300 -> 0 < load ->
  exists m m', coolant_use liquid_h2 a b load p = Ok m /\ coolant_use liquid_h2 a' b' load p = Ok m' /\ 0 < m' <= m /\
    (a' < a \/ b < b' -> m' < m) /\ (forall k, coolant_use liquid_h2 a b (k * load) p = Ok (k * m)).
Proof.
  intros P A A' B B' C L. pose proof (h2_warms p P) as W.
  pose proof (heat_pos _ _ _ p a b W ltac:(lra) ltac:(lra) ltac:(lra)) as H. pose proof (heat_pos _ _ _ p a' b' W ltac:(lra) ltac:(lra) ltac:(lra)) as H'.
  assert (M1 : heat_per_kg liquid_h2 a b p <= heat_per_kg liquid_h2 a b' p /\ (b < b' -> heat_per_kg liquid_h2 a b p < heat_per_kg liquid_h2 a b' p)).
  { destruct (Req_dec b b') as [<-|N]; [split; lra|]. destruct (heat_more _ _ _ p a b b' W ltac:(lra) ltac:(lra) ltac:(lra) ltac:(lra)) as [X|[X _]]; [split; lra|lra]. }
  assert (M2 : heat_per_kg liquid_h2 a b' p <= heat_per_kg liquid_h2 a' b' p /\ (a' < a -> heat_per_kg liquid_h2 a b' p < heat_per_kg liquid_h2 a' b' p)).
  { destruct (Req_dec a a') as [<-|N]; [split; lra|]. pose proof (heat_colder _ _ _ p a a' b' W ltac:(lra) ltac:(lra) ltac:(lra) ltac:(lra)). split; lra. }
  set (h := heat_per_kg liquid_h2 a b p) in *. set (h' := heat_per_kg liquid_h2 a' b' p) in *. exists (load / h), (load / h').
  unfold coolant_use. cbv zeta. fold h h'. destruct (Req_EM_T h 0); [lra|]. destruct (Req_EM_T h' 0); [lra|]. split; [reflexivity|]. split; [reflexivity|].
  split; [|split].
  - split; [apply Rdiv_lt_0_compat; lra|]. unfold Rdiv. apply Rmult_le_compat_l; [lra|]. apply Rinv_le_contravar; lra.
  - intro D. unfold Rdiv. apply Rmult_lt_compat_l; [lra|]. apply Rinv_lt_contravar; [apply Rmult_lt_0_compat|]; lra.
  - intro k. f_equal. unfold Rdiv. ring.
Qed.
(** the boiling point rises with the pressure *)
Theorem C181_boil g p q : 0 < an_b g -> 0 < p -> p < q -> ln q < an_a g * ln 10 -> boil_temp g p < boil_temp g q.
Proof.
  intros B P Q A. pose proof ln10_pos as T. pose proof (ln_increasing p q P Q) as L. unfold boil_temp.
  assert (X : ln q / ln 10 < an_a g). { apply Rmult_lt_reg_r with (ln 10); [exact T|]. unfold Rdiv. rewrite Rmult_assoc, Rinv_l by lra. lra. }
  assert (Y : ln p / ln 10 < ln q / ln 10). { unfold Rdiv. apply Rmult_lt_compat_r; [now apply Rinv_0_lt_compat|exact L]. }
  apply Rplus_lt_compat_r. unfold Rdiv at 1 3. apply Rmult_lt_compat_l; [exact B|]. apply Rinv_lt_contravar; [apply Rmult_lt_0_compat|]; lra.
Qed.
(** finding: equipment no warmer than the boiling point, cooled by a coolant no colder, divides by zero; equipment colder than its coolant asks for a negative flow *)
Theorem C181_nothing g a b load p : b <= boil_temp g p -> boil_temp g p <= a -> coolant_use g a b load p = Err ZeroDivisionError.
Proof. intros B A. unfold coolant_use. cbv zeta. rewrite heat_none by lra. now destruct (Req_EM_T 0 0). Qed.
Lemma boil_1bar : boil_temp liquid_h2 (10 ^ 5) = 99395 / 1000 / (354314 / 100000) - 7726 / 1000.
Proof.
  unfold boil_temp. assert (E : ln (10 ^ 5) = 5 * ln 10). { rewrite <- (Rpower_pow 5) by lra. unfold Rpower. rewrite ln_exp. cbn [INR]. ring. }
  rewrite E. pose proof ln10_pos. cbn [an_a an_b an_c liquid_h2]. replace (5 * ln 10 / ln 10) with 5 by (field; lra). f_equal. f_equal. lra.
Qed.
Theorem C181_negative_refuted : exists m, coolant_use liquid_h2 100 50 1 (10 ^ 5) = Ok m /\ m < 0.
Proof.
  assert (H : heat_per_kg liquid_h2 100 50 (10 ^ 5) < 0).
  { rewrite heat_gas by (rewrite boil_1bar; lra). rewrite quad_swap by apply cubic_cont.
    pose proof (quad_pos (gas_cp liquid_h2) 50 100 (cubic_cont _ _ _ _) ltac:(lra) (fun t T => proj2 (proj1 (h2_warms 1 ltac:(lra)) t ltac:(lra)))). lra. }
  exists (1 / heat_per_kg liquid_h2 100 50 (10 ^ 5)). unfold coolant_use. cbv zeta. destruct (Req_EM_T _ 0); [lra|]. split; [reflexivity|].
  unfold Rdiv. rewrite Rmult_1_l. now apply Rinv_lt_0_compat.
Qed.
Example C181_ex : exists m, coolant_use liquid_h2 18 60 1000 (10 ^ 5) = Ok m /\ 0 < m.
Proof. destruct (C181_hydrogen 18 18 60 60 1000 (10 ^ 5)) as (m & m' & E & _ & M & _); try lra. exists m. split; [exact E|lra]. Qed.

(** ** C182 current leads *)
(** the least heat of a lead: proportional to the current, and adding in squares along the lead, for any conducting material *)
Theorem C182_heat m c x h i : conducts m -> c < x -> x < h -> 0 < i ->
  exists q1 q2 q, q_min m c x i = Ok q1 /\ q_min m x h i = Ok q2 /\ q_min m c h i = Ok q /\ q ^ 2 = q1 ^ 2 + q2 ^ 2 /\ 0 < q1 < q /\ 0 < q2 < q /\
    (forall j, q_min m c h (j * i) = Ok (j * q)).
Proof.
  intros M A B I. rewrite !q_min_ok by (assumption || lra). do 3 eexists. do 3 (split; [reflexivity|]).
  set (f := fun t => m_k m t / m_s m t). pose proof (quad_pos f c x (ratio_cont m M) A (fun y _ => ratio_pos m M y)) as P1.
  pose proof (quad_pos f x h (ratio_cont m M) B (fun y _ => ratio_pos m M y)) as P2. pose proof (quad_split f c x h (ratio_cont m M)) as E.
  assert (SQ : forall z, 0 < z -> (i * sqrt (2 * z)) ^ 2 = i ^ 2 * (2 * z)). { intros z Z. rewrite Rpow_mult_distr. f_equal. rewrite <- Rsqr_pow2. apply Rsqr_sqrt. lra. }
  split. { rewrite !SQ by lra. rewrite E. ring. }
  assert (PS : forall z, 0 < z -> 0 < i * sqrt (2 * z)). { intros z Z. apply Rmult_lt_0_compat; [exact I|]. apply sqrt_lt_R0. lra. }
  assert (LT : forall y z, 0 < y -> y < z -> i * sqrt (2 * y) < i * sqrt (2 * z)). { intros y z Y Z. apply Rmult_lt_compat_l; [exact I|]. apply sqrt_lt_1; lra. }
  split; [split; [auto|apply LT; lra]|]. split; [split; [auto|apply LT; lra]|]. intro j. rewrite q_min_ok by (assumption || lra). fold f. f_equal. ring.
Qed.
(** the cross section chosen lets in less heat than any other, whatever the length; half of it comes by conduction; the mass grows with the current and with the square of the length *)
Theorem C182_optimum k s rho c h i l : 0 < k -> 0 < s -> c < h -> 0 < i -> 0 < l ->
  exists ld, initialize_lead (new_lead c h i l (flat k s rho)) = Ok ld /\ 0 < le_area ld /\
    bar_heat k s (h - c) l i (le_area ld) = le_min ld /\ (forall a, 0 < a -> le_min ld <= bar_heat k s (h - c) l i a) /\
    q_min (flat k s rho) c h i = Ok (le_min ld) /\ le_q ld = le_min ld / 2 /\ le_mass ld = rho * (le_area ld * l) /\
    (forall j, 0 < j -> forall ld', initialize_lead (new_lead c h (j * i) l (flat k s rho)) = Ok ld' -> le_mass ld' = j * le_mass ld) /\
    (forall j, 0 < j -> forall ld', initialize_lead (new_lead c h i (j * l) (flat k s rho)) = Ok ld' -> le_mass ld' = j ^ 2 * le_mass ld /\ le_min ld' = le_min ld).
Proof.
  intros K S L I P. eexists. split; [apply flat_init; assumption|]. cbn [le_area le_min le_q le_mass].
  set (r := root k s (h - c)). pose proof (root_pos k s (h - c) K S ltac:(lra)) as R0. fold r in R0. pose proof (root_sq k s (h - c) K S ltac:(lra)) as Q. fold r in Q.
  assert (SR : 0 < s * r) by now apply Rmult_lt_0_compat.
  assert (KD : k * (h - c) = s * (r * r) / 2). { rewrite Q. field. lra. }
  split. { apply Rdiv_lt_0_compat; [now apply Rmult_lt_0_compat|exact SR]. }
  assert (BH : forall a, 0 < a -> bar_heat k s (h - c) l i a = s * (r * r) / 2 * (a / l) + i ^ 2 * (l / (s * a)) / 2).
  { intros a A. unfold bar_heat. rewrite <- KD. field. repeat split; lra. }
  split. { rewrite BH by (apply Rdiv_lt_0_compat; [now apply Rmult_lt_0_compat|exact SR]). field. repeat split; lra. }
  split. { intros a A. rewrite BH by assumption. set (u := s * a / l). assert (0 < u) by (apply Rdiv_lt_0_compat; [now apply Rmult_lt_0_compat|lra]).
    replace (s * (r * r) / 2 * (a / l)) with (r * r * u / 2) by (unfold u; field; lra). replace (i ^ 2 * (l / (s * a)) / 2) with (i ^ 2 / u / 2) by (unfold u; field; repeat split; lra).
    apply Rmult_le_reg_r with (2 * u); [lra|]. replace ((r * r * u / 2 + i ^ 2 / u / 2) * (2 * u)) with ((r * u) ^ 2 + i ^ 2) by (field; lra). pose proof (pow2_ge_0 (r * u - i)). nra. }
  split. { rewrite flat_q by assumption. reflexivity. } split; [reflexivity|]. split; [ring|]. split.
  - intros j J ld' E. rewrite flat_init in E by (assumption || now apply Rmult_lt_0_compat). injection E as <-. cbn [le_mass]. fold r. field. repeat split; lra.
  - intros j J ld' E. rewrite flat_init in E by (assumption || now apply Rmult_lt_0_compat). injection E as <-. cbn [le_mass le_min]. fold r. split; [field; repeat split; lra|reflexivity].
Qed.
(** where the conductivity changes evenly with temperature, the ratio of length to area weighs the heat at each temperature by that slope *)
Theorem C182_slope m a b c h i q : (forall t, m_s m t = a + b * t) -> i <> 0 ->
  la_ratio m c h i q = Ok (((a + b * c) * q + quad (fun t => q_val m t h i * b) c h) / i ^ 2).
Proof.
  intros L I. unfold la_ratio. destruct (Req_EM_T (i ^ 2) 0) as [Z|Z]; [exfalso; apply (pow_nonzero i 2 I Z)|].
  rewrite L. assert (F : (fun t => q_val m t h i * derivative (m_s m) t) = (fun t => q_val m t h i * b)).
  { apply FunctionalExtensionality.functional_extensionality. intro t. f_equal. unfold derivative. rewrite !L. field. }
  rewrite F. reflexivity.
Qed.
(** up to the design current: heat in proportion to the current, power to its square *)
Theorem C182_part_load k s rho c h i l n j : 0 < k -> 0 < s -> c < h -> 0 < i -> 0 < l -> 0 <= j <= i ->
  exists ld, initialize_lead (new_lead c h i l (flat k s rho)) = Ok ld /\
    calc_current n ld j = Some (Ok (j / i * le_min ld, (j / i) ^ 2 * le_min ld)).
Proof.
  intros K S L I P J. eexists. split; [apply flat_init; assumption|]. unfold calc_current. cbn [le_opt le_un le_min].
  replace (Rltb i j) with false by (symmetry; apply Rltb_false; lra). destruct (Req_EM_T i 0); [lra|]. do 3 f_equal; field; lra.
Qed.
(** finding: the heat at no current is reported as zero, although half of the design heat leaks in (the unpowered heat is stored under another name) *)
Theorem C182_unpowered_refuted k s rho c h i l n : 0 < k -> 0 < s -> c < h -> 0 < i -> 0 < l ->
  exists ld u, initialize_lead (new_lead c h i l (flat k s rho)) = Ok ld /\ q_unpowered ld = Ok (u, 0) /\ 0 < u /\ u = le_min ld / 2 /\
    calc_current n ld 0 = Some (Ok (0, 0)).
Proof.
  intros K S L I P. eexists. exists (i * root k s (h - c) / 2). split; [apply flat_init; assumption|]. pose proof (root_pos k s (h - c) K S ltac:(lra)) as R0.
  pose proof (Rmult_lt_0_compat _ _ I R0). pose proof (root_sq k s (h - c) K S ltac:(lra)) as Q. set (r := root k s (h - c)) in *. cbn [le_min]. split.
  - unfold q_unpowered. cbn [le_len le_mat le_cold le_hot le_area flat m_k]. destruct (Req_EM_T l 0); [lra|]. rewrite quad_const. do 2 f_equal.
    transitivity (i * (k / s * (h - c)) / r); [field; repeat split; lra|]. replace (k / s * (h - c)) with (r * r / 2) by lra. field. lra.
  - split; [lra|]. split; [reflexivity|]. unfold calc_current. cbn [le_opt le_un le_min]. replace (Rltb i 0) with false by (symmetry; apply Rltb_false; lra).
    destruct (Req_EM_T i 0); [lra|]. do 3 f_equal; field; lra.
Qed.
(** finding: above the design current there is no answer: up to 1.98 times the search runs for ever, since it raises the guess when the guess is already too high *)
Theorem C182_overload_refuted k s rho c h i l j : 0 < k -> 0 < s -> 0 <= c -> c < h -> 0 < i -> 0 < l -> i < j -> j <= 198 / 100 * i ->
  exists ld, initialize_lead (new_lead c h i l (flat k s rho)) = Ok ld /\ forall n, calc_current n ld j = None.
Proof.
  intros K S C L I P J1 J2. eexists. split; [apply flat_init; assumption|]. intro n. unfold calc_current. cbn [le_opt le_hot].
  replace (Rltb i j) with true by (symmetry; apply Rltb_true; lra). apply loop_stuck; cbn [le_len le_hot]; try lra.
  intros tm T. pose proof (root_pos k s (h - c) K S ltac:(lra)) as R0. set (r := root k s (h - c)) in *.
  pose proof (flat_test k s rho c h j l tm i (l * i / (s * r) * l * rho) (l * i / (s * r)) i (i * r) 0 (i * r / 2) K S ltac:(lra) ltac:(lra) ltac:(lra)) as [E F].
  rewrite F, E. do 3 eexists. split; [reflexivity|]. pose proof (root_mono k s (h - c) (tm - h) K S ltac:(lra) ltac:(lra)) as A1. pose proof (root_mono k s (h - c) (tm - c) K S ltac:(lra) ltac:(lra)) as A2. fold r in A1, A2.
  apply Rlt_le_trans with (l * i / (s * r) * s / j * (r + r)).
  - replace (l * i / (s * r) * s / j * (r + r)) with (2 * l * (i / j)) by (field; repeat split; lra).
    assert (100 / 198 <= i / j). { apply Rmult_le_reg_r with j; [lra|]. unfold Rdiv at 2. rewrite Rmult_assoc, Rinv_l by lra. lra. } nra.
  - apply Rmult_le_compat_l; [|lra]. apply Rlt_le. apply Rdiv_lt_0_compat; [|lra]. apply Rmult_lt_0_compat; [|lra]. apply Rdiv_lt_0_compat; now apply Rmult_lt_0_compat.
Qed.
(** and far enough above it the second guess divides by zero *)
Theorem C182_far_overload_refuted k s rho c h i l j n : 0 < k -> 0 < s -> 0 <= c -> c < h -> 0 < i -> 0 < l -> i < j ->
  100 / 99 * i * (root k s h + root k s (2 * h - c)) < j * root k s (h - c) ->
  exists ld, initialize_lead (new_lead c h i l (flat k s rho)) = Ok ld /\ calc_current (2 + n) ld j = Some (Err ZeroDivisionError).
Proof.
  intros K S C L I P J B. eexists. split; [apply flat_init; assumption|]. unfold calc_current. cbn [le_opt le_hot].
  replace (Rltb i j) with true by (symmetry; apply Rltb_true; lra). cbn [Nat.add lead_loop].
  pose proof (root_pos k s (h - c) K S ltac:(lra)) as R0. set (r := root k s (h - c)) in *.
  pose proof (flat_test k s rho c h j l (2 * h) i (l * i / (s * r) * l * rho) (l * i / (s * r)) i (i * r) 0 (i * r / 2) K S ltac:(lra) ltac:(lra) ltac:(lra)) as [E F].
  rewrite F, E. cbn [le_len]. destruct (Req_EM_T l 0); [lra|]. replace (2 * h - h) with h in * by ring.
  pose proof (root_pos k s h K S ltac:(lra)) as R1. pose proof (root_pos k s (2 * h - c) K S ltac:(lra)) as R2. set (u := root k s h + root k s (2 * h - c)) in *.
  assert (TL : l * i / (s * r) * s / j * u < 99 / 100 * l).
  { replace (l * i / (s * r) * s / j * u) with (l * (i * u / (r * j))) by (field; repeat split; lra). replace (99 / 100 * l) with (l * (99 / 100)) by ring. apply Rmult_lt_compat_l; [lra|].
    pose proof (Rmult_lt_0_compat r j R0 ltac:(lra)). apply Rmult_lt_reg_r with (r * j); [assumption|]. unfold Rdiv at 1. rewrite Rmult_assoc, Rinv_l by lra. lra. }
  set (tl := l * i / (s * r) * s / j * u) in *. replace (Rltb l tl) with false by (symmetry; apply Rltb_false; lra).
  replace (Rltb (1 / 100) (Rabs ((tl - l) / l))) with true.
  2:{ symmetry. apply Rltb_true. rewrite Rabs_left1. - apply Rmult_lt_reg_r with l; [lra|]. replace (- ((tl - l) / l) * l) with (l - tl) by (field; lra). lra.
      - apply Rmult_le_reg_r with l; [lra|]. replace ((tl - l) / l * l) with (tl - l) by (field; lra). lra. }
  unfold test_length. cbn [le_mat le_hot]. unfold q_min at 1. destruct (Req_EM_T (h - h) 0); [|lra]. cbn [bind]. reflexivity.
Qed.
Example C182_ex : exists ld, initialize_lead (new_lead 20 300 100 (3 / 10) (flat 400 58000000 8960)) = Ok ld /\ 0 < le_mass ld /\ forall n, calc_current n ld 101 = None.
Proof.
  destruct (C182_overload_refuted 400 58000000 8960 20 300 100 (3 / 10) 101) as (ld & E & N); try lra. exists ld. split; [exact E|]. split; [|exact N].
  destruct (C182_optimum 400 58000000 8960 20 300 100 (3 / 10)) as (ld' & E' & A & _ & _ & _ & _ & M & _); try lra. rewrite E in E'. injection E' as <-. rewrite M. nra.
Qed.

(** ** C183 dynamos, supplies and rotors *)
Definition parabola (d : dynamo) (x : R) : R := - (dy_eff d / dy_cur d ^ 2) * (x - dy_cur d) ^ 2 + dy_eff d.
Theorem C183_efficiency d xs : 0 < dy_cur d -> 0 < dy_eff d -> (forall x, In x xs -> in_range d x) ->
  exists es, efficiency_curve d xs = Some es /\ length es = length xs /\
    forall i x e, nth_error xs i = Some x -> nth_error es i = Some e ->
      36 / 100 * dy_eff d <= e <= dy_eff d /\ (e = dy_eff d <-> x = dy_cur d) /\
      (forall j y f, nth_error xs j = Some y -> nth_error es j = Some f -> (Rabs (x - dy_cur d) < Rabs (y - dy_cur d) <-> f < e)).
Proof.
  intros C E R. unfold efficiency_curve. replace (existsb _ xs) with false.
  2:{ symmetry. apply existsb_false. intros x I. specialize (R x I). unfold in_range in R. apply orb_false_iff. split; apply Rltb_false; lra. }
  eexists. split; [reflexivity|]. split; [apply map_length|]. fold (parabola d).
  assert (A : 0 < dy_eff d / dy_cur d ^ 2) by (apply Rdiv_lt_0_compat; [exact E|now apply pow_lt]).
  assert (AC : dy_eff d / dy_cur d ^ 2 * dy_cur d ^ 2 = dy_eff d) by (field; lra). set (a := dy_eff d / dy_cur d ^ 2) in *.
  intros i x e X Y. rewrite (map_nth_error _ _ _ X) in Y. injection Y as <-. pose proof (R x (nth_error_In _ _ X)) as B. unfold in_range in B.
  pose proof (pow2_ge_0 (x - dy_cur d)) as SQ. split; [|split].
  - unfold parabola; fold a. assert ((x - dy_cur d) ^ 2 <= (8 / 10 * dy_cur d) ^ 2). { apply pow_maj_Rabs. apply Rabs_le. lra. } replace ((8 / 10 * dy_cur d) ^ 2) with (64 / 100 * dy_cur d ^ 2) in H by field. pose proof (Rmult_le_compat_l a _ _ (Rlt_le _ _ A) H). pose proof (Rmult_le_pos a _ (Rlt_le _ _ A) SQ). lra.
  - split; [|intros ->; unfold parabola; ring]. unfold parabola; fold a. intro Z. assert (a * (x - dy_cur d) ^ 2 = 0) by lra. apply Rmult_integral in H. destruct H as [H|H]; [lra|].
    assert (x - dy_cur d = 0). { destruct (Req_dec (x - dy_cur d) 0) as [|N]; [assumption|]. exfalso. apply (pow_nonzero _ 2 N H). } lra.
  - intros j y f Yj F. rewrite (map_nth_error _ _ _ Yj) in F. injection F as <-. unfold parabola; fold a. split; intro H.
    + assert ((x - dy_cur d) ^ 2 < (y - dy_cur d) ^ 2). { rewrite <- !Rsqr_pow2. now apply Rsqr_lt_abs_1. } nra.
    + assert ((x - dy_cur d) ^ 2 < (y - dy_cur d) ^ 2) by nra. rewrite <- !Rsqr_pow2 in H0. now apply Rsqr_lt_abs_0.
Qed.
(** shaft power is output plus heat load, neither negative; idle points take no power *)
Lemma effs_nth d xs i x : (forall x, In x xs -> in_range d x) -> nth_error xs i = Some x -> nth_error (effs d xs) i = Some (parabola d x).
Proof.
  intros R X. unfold effs, efficiency_curve. replace (existsb _ xs) with false.
  2:{ symmetry. apply existsb_false. intros y I. specialize (R y I). unfold in_range in R. apply orb_false_iff. split; apply Rltb_false; lra. }
  fold (parabola d). now rewrite (map_nth_error _ _ _ X).
Qed.
Lemma parabola_pos d x : 0 < dy_cur d -> 0 < dy_eff d -> in_range d x -> 36 / 100 * dy_eff d <= parabola d x <= dy_eff d.
Proof.
  intros C E R. destruct (C183_efficiency d [x] C E) as (es & EE & _ & H). { intros y [<-|[]]; exact R. }
  specialize (H 0%nat x (parabola d x) eq_refl). assert (N : nth_error es 0 = Some (parabola d x)).
  { pose proof (effs_nth d [x] 0 x) as N. unfold effs in N. rewrite EE in N. apply N; [intros y [<-|[]]; exact R|reflexivity]. }
  destruct (H N) as [B _]. exact B.
Qed.
Lemma map2_nth_some {A B C} (f : A -> B -> C) l m i a b : nth_error l i = Some a -> nth_error m i = Some b -> nth_error (map2 f l m) i = Some (f a b).
Proof. revert m i. induction l as [|x l IH]; intros m [|i] L M; try discriminate; destruct m as [|y m]; try discriminate; cbn in *. - congruence. - now apply IH. Qed.
Theorem C183_shaft d xs outs i x o : 0 < dy_cur d -> 0 < dy_eff d <= 1 -> (forall x, In x xs -> in_range d x) -> nth_error xs i = Some x -> nth_error outs i = Some o -> 0 <= o ->
  exists p q, nth_error (shaft_power d xs outs) i = Some (Some p, Some q) /\ p = o + q /\ 0 <= q /\ (o = 0 -> p = 0) /\
    p * (36 / 100 * dy_eff d) <= o <= p * dy_eff d /\
    (forall s rpm, 0 < dy_eff s -> dy_cur s = dy_cur d -> exists w, nth_error (dynamo_supply s rpm xs outs) i = Some (Some w) /\ o <= w * dy_eff s).
Proof.
  intros C E R X O P. pose proof (R x (nth_error_In _ _ X)) as Rx. pose proof (parabola_pos d x C (proj1 E) Rx) as B. set (e := parabola d x) in *.
  assert (SUP : forall s rpm, 0 < dy_eff s -> dy_cur s = dy_cur d -> exists w, nth_error (dynamo_supply s rpm xs outs) i = Some (Some w) /\ o <= w * dy_eff s).
  { intros s rpm ES CS. assert (RS : forall x, In x xs -> in_range s x) by (intros y I; unfold in_range; rewrite CS; now apply R).
    pose proof (parabola_pos s x ltac:(lra) ES (RS x (nth_error_In _ _ X))) as BS. exists (o / parabola s x). unfold dynamo_supply.
    rewrite (map2_nth_some _ _ _ _ _ _ (effs_nth s xs i x RS X) O). unfold quo. destruct (Req_EM_T (parabola s x) 0); [nra|]. split; [reflexivity|].
    apply Rle_trans with (o / parabola s x * parabola s x); [right; field; assumption|]. apply Rmult_le_compat_l; [|lra]. apply Rmult_le_pos; [exact P|]. apply Rlt_le, Rinv_0_lt_compat. nra. }
  unfold shaft_power. rewrite (map2_nth_some _ _ _ _ _ _ (effs_nth d xs i x R X) O). fold e. cbv zeta. destruct (Req_EM_T o 0) as [Z|Z].
  - exists 0, (0 - o). split; [reflexivity|]. subst o. split; [ring|]. split; [lra|]. split; [reflexivity|]. split; [lra|exact SUP].
  - assert (0 < e) by nra. unfold quo. destruct (Req_EM_T e 0); [lra|]. exists (o / e), (o / e - o). split; [reflexivity|]. split; [ring|].
    assert (OE : 0 < o / e) by (apply Rdiv_lt_0_compat; lra). assert (EO : o / e * e = o) by (field; lra).
    split; [nra|]. split; [intro; lra|]. split; [split; nra|exact SUP].
Qed.
(** finding: one current outside 20% to 180% of the rating leaves no finite answer for any loaded point *)
Theorem C183_out_of_range d xs outs i x o y : In y xs -> ~ in_range d y -> nth_error xs i = Some x -> nth_error outs i = Some o -> o <> 0 ->
  nth_error (shaft_power d xs outs) i = Some (None, None) /\ forall rpm, nth_error (dynamo_supply d rpm xs outs) i = Some None.
Proof.
  intros Y N X O Z. assert (E : nth_error (effs d xs) i = Some 0).
  { unfold effs, efficiency_curve. replace (existsb _ xs) with true. { now rewrite (map_nth_error _ _ _ X). } symmetry. apply existsb_exists. exists y. split; [exact Y|].
    apply orb_true_iff. unfold in_range in N. destruct (Rlt_dec (dy_cur d * (18 / 10)) y); [left; now apply Rltb_true|right; apply Rltb_true]. apply Rnot_le_lt. intro. apply N. lra. }
  unfold shaft_power, dynamo_supply. split; [|intro rpm]; rewrite (map2_nth_some _ _ _ _ _ _ E O); unfold quo; destruct (Req_EM_T o 0); try contradiction; destruct (Req_EM_T 0 0); try lra; reflexivity.
Qed.
(** the speed has no say *)
Theorem C183_speed d xs outs r r' : dynamo_supply d r xs outs = dynamo_supply d r' xs outs. Proof. reflexivity. Qed.
Theorem C183_supply eff out : (0 < eff -> exists p, supply_power eff out = Ok p /\ p * eff = out /\ (eff <= 1 -> 0 <= out -> out <= p)) /\ supply_power 0 out = Err ZeroDivisionError.
Proof.
  unfold supply_power. split; [|now destruct (Req_EM_T 0 0)]. intro E. destruct (Req_EM_T eff 0); [lra|]. exists (out / eff). split; [reflexivity|].
  assert (X : out / eff * eff = out) by (field; lra). split; [exact X|]. intros L P. assert (0 <= out / eff). { apply Rmult_le_pos; [lra|]. apply Rlt_le, Rinv_0_lt_compat. lra. } nra.
Qed.
(** the rotor: power is voltage times current; the heat load is that power plus what leaks in, in proportion to the temperature difference *)
Theorem C183_rotor r cur amb : 0 < ro_area r -> 0 < ro_rval r ->
  exists p v q, rotor_power r cur amb = Ok (p, v, q) /\ p = v * cur /\ v = ro_res r * cur /\ q * ro_rval r = p * ro_rval r + (amb - ro_temp r) * ro_area r /\
    (0 <= ro_res r -> ro_temp r <= amb -> 0 <= p <= q).
Proof.
  intros A V. unfold rotor_power. destruct (Req_EM_T (ro_area r) 0); [lra|]. assert (X : 0 < ro_rval r / ro_area r) by now apply Rdiv_lt_0_compat. destruct (Req_EM_T _ 0); [lra|].
  do 3 eexists. split; [reflexivity|]. split; [ring|]. split; [ring|]. split; [field; lra|]. intros S T. pose proof (pow2_ge_0 cur). split; [now apply Rmult_le_pos|].
  assert (0 <= (amb - ro_temp r) / (ro_rval r / ro_area r)). { apply Rmult_le_pos; [lra|]. apply Rlt_le. now apply Rinv_0_lt_compat. } lra.
Qed.
(** finding: a rotor left at its defaults has no surface and divides by zero *)
Theorem C183_rotor_default r cur amb : ro_area r = 0 -> rotor_power r cur amb = Err ZeroDivisionError.
Proof. intro E. unfold rotor_power. rewrite E. now destruct (Req_EM_T 0 0). Qed.
Example C183_ex : exists p q, nth_error (shaft_power (Dynamo (1 / 2) 100) [100; 60] [10; 0]) 0 = Some (Some p, Some q) /\ p = 20.
Proof.
  destruct (C183_shaft (Dynamo (1 / 2) 100) [100; 60] [10; 0] 0 100 10) as (p & q & E & A & Q & _ & B & _); cbn [dy_cur dy_eff]; try lra; try reflexivity.
  { intros x [<-|[<-|[]]]; unfold in_range; cbn; lra. } exists p, q. split; [exact E|].
  unfold shaft_power in E. rewrite (map2_nth_some _ _ _ 0 (1 / 2) 10) in E.
  - cbv zeta in E. destruct (Req_EM_T 10 0); [lra|]. unfold quo in E. destruct (Req_EM_T (1 / 2) 0); [lra|]. injection E as <- _. lra.
  - rewrite (effs_nth _ _ 0 100); [f_equal; unfold parabola; cbn; lra| |reflexivity]. intros x [<-|[<-|[]]]; unfold in_range; cbn; lra.
  - reflexivity.
Qed.
Print Assumptions C180_reach.
Print Assumptions C180_points.
Print Assumptions C180_second_law.
Print Assumptions C180_cost.
Print Assumptions C180_points_refuted.
Print Assumptions C180_disabled_refuted.
Print Assumptions C180_unknown.
Print Assumptions C181_enthalpy.
Print Assumptions C181_split.
Print Assumptions C181_split_refuted.
Print Assumptions C181_balance.
Print Assumptions C181_hydrogen.
Print Assumptions C181_boil.
Print Assumptions C181_nothing.
Print Assumptions C181_negative_refuted.
Print Assumptions C182_heat.
Print Assumptions C182_optimum.
Print Assumptions C182_part_load.
Print Assumptions C182_slope.
Print Assumptions C182_unpowered_refuted.
Print Assumptions C182_overload_refuted.
Print Assumptions C182_far_overload_refuted.
Print Assumptions C183_efficiency.
Print Assumptions C183_shaft.
Print Assumptions C183_out_of_range.
Print Assumptions C183_speed.
Print Assumptions C183_supply.
Print Assumptions C183_rotor.
Print Assumptions C183_rotor_default.
