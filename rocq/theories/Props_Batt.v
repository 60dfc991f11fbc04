(** * C41-C43, C52: batteries *)
From Coq Require Import Reals List Bool Arith ZArith Lra Lia Psatz.
From Verif Require Import M_Opt P_Opt M_Mission P_Mission M_Cheb S_Cheb P_Cheb Props_Cheb M_Util P_Util Props_Util M_Batt S_Batt P_Batt.
Import ListNotations.
Local Open Scope R_scope.
Local Open Scope list_scope.

(** ** C41: the lithium-ion battery *)
Theorem C41_charge : forall n q d i, let o := energy_calc n q d in let full := q_Emax q * q_Egrowth q in 0 < full ->
  0 <= o_SOC o i <= 1 /\ o_DOD o i = 1 - o_SOC o i /\
  (0 <= o_E o i <= full -> o_SOC o i * full = o_E o i) /\ (full <= o_E o i -> o_SOC o i = 1) /\ (o_E o i <= 0 -> o_SOC o i = 0).
Proof.
  intros n q d i o full HF. destruct (share (o_E o i) full HF) as (A & B & C & D). repeat split; try apply A; auto.
Qed.
(** a battery that is never filled stores what is put in, less the losses *)
Theorem C41_balance : forall n q d, let o := energy_calc n q d in
  (forall i, (i < n)%nat -> q_E q 0%nat + energy_in n (q_I q) (net_power q o) i <= q_Emax q * q_Egrowth q) ->
  forall i, (i < n)%nat -> o_E o i = q_E q 0%nat + energy_in n (q_I q) (net_power q o) i.
Proof.
  intros n q d o H i Hi. pose (P := fun k => q_power q k - Rabs (o_losses o k)).
  assert (L : forall k, P k = net_power q o k).
  { intro k. unfold P, net_power. f_equal. apply Rabs_pos_eq. cbn [o energy_calc o_losses].
    apply Rmult_le_pos; [apply pow2_ge_0|]. ltb; lra. }
  assert (M : forall k, mulv n (q_I q) P k = energy_in n (q_I q) (net_power q o) k) by (intro k; apply mulv_ext; intros; apply L).
  rewrite <- M. change (o_E o i) with (stored n (q_I q) (q_D q) P (q_E q) (q_Emax q * q_Egrowth q) i).
  apply stored_free; [|exact Hi]. intros k Hk. rewrite M. apply H, Hk.
Qed.
(** a battery charged at every control point stores no more than it can hold *)
Theorem C41_full : forall n dt q d, let o := energy_calc n q d in let full := q_Emax q * q_Egrowth q in
  segment_calculus n dt (q_I q) (q_D q) -> q_E q 0%nat <= full -> (forall i, (i < n)%nat -> 0 < net_power q o i) ->
  forall i, (i < n)%nat -> o_E o i = Rmin (q_E q 0%nat + energy_in n (q_I q) (net_power q o) i) full.
Proof.
  intros n dt q d o full HS HE HP i Hi. pose (P := fun k => q_power q k - Rabs (o_losses o k)).
  assert (L : forall k, P k = net_power q o k).
  { intro k. unfold P, net_power. f_equal. apply Rabs_pos_eq. cbn [o energy_calc o_losses].
    apply Rmult_le_pos; [apply pow2_ge_0|]. ltb; lra. }
  destruct (calculus_undoes n dt (q_I q) (q_D q) HS) as (U & Z).
  assert (M : forall k, mulv n (q_I q) P k = energy_in n (q_I q) (net_power q o) k) by (intro k; apply mulv_ext; intros; apply L).
  rewrite <- M. change (o_E o i) with (stored n (q_I q) (q_D q) P (q_E q) full i).
  apply stored_full; auto. intros k Hk. rewrite L. apply HP, Hk.
Qed.
(** three control points: what the calculus is *)
Lemma three_points : forall dt I D, segment_calculus 3 dt I D ->
  (forall v, mulv 3 I v 1%nat = dt * (3 / 4 * v 1%nat - 1 / 4 * v 2%nat) /\ mulv 3 I v 2%nat = dt * v 1%nat /\ mulv 3 I v 0%nat = 0) /\
  dt <> 0 /\ (forall v, mulv 3 D v 1%nat = (v 2%nat - v 0%nat) / dt /\ mulv 3 D v 2%nat = (v 0%nat - 4 * v 1%nat + 3 * v 2%nat) / dt).
Proof.
  intros dt I D (inv & x & D0 & I0 & Hi & HC & Hdt & HI & HD).
  destruct (discretize_parts _ _ _ _ _ _ Hi HC) as (Ex & ED & _ & K & EK & HK). subst x.
  assert (X0 : cheb_nodes 3 0 = 0) by (unfold cheb_nodes; cbn; replace (PI * 0 / _) with 0 by field; rewrite cos_0; field).
  assert (X1 : cheb_nodes 3 1 = 1 / 2) by (unfold cheb_nodes; cbn; replace (PI * 1 / _) with (PI / 2) by field; rewrite cos_PI2; field).
  assert (X2 : cheb_nodes 3 2 = 1) by (unfold cheb_nodes; cbn; replace (PI * (1 + 1) / _) with PI by field; rewrite cos_PI; field).
  assert (D10 : D0 1%nat 0%nat = -1) by (rewrite ED; unfold diff_matrix, raw_D, weights; cbn [Sum Nat.eqb Nat.sub orb]; rewrite X0, X1; cbn [pow]; field).
  assert (D11 : D0 1%nat 1%nat = 0) by (rewrite ED; unfold diff_matrix, raw_D, weights; cbn [Sum Nat.eqb Nat.sub orb]; rewrite X0, X1, X2; cbn [pow]; field).
  assert (D12 : D0 1%nat 2%nat = 1) by (rewrite ED; unfold diff_matrix, raw_D, weights; cbn [Sum Nat.eqb Nat.sub orb]; rewrite X2, X1; cbn [pow]; field).
  assert (D20 : D0 2%nat 0%nat = 1) by (rewrite ED; unfold diff_matrix, raw_D, weights; cbn [Sum Nat.eqb Nat.sub orb]; rewrite X0, X2; cbn [pow]; field).
  assert (D21 : D0 2%nat 1%nat = -4) by (rewrite ED; unfold diff_matrix, raw_D, weights; cbn [Sum Nat.eqb Nat.sub orb]; rewrite X1, X2; cbn [pow]; field).
  assert (D22 : D0 2%nat 2%nat = 3) by (rewrite ED; unfold diff_matrix, raw_D, weights; cbn [Sum Nat.eqb Nat.sub orb]; rewrite X0, X1, X2; cbn [pow]; field).
  pose proof (proj1 (HK 0%nat 0%nat ltac:(lia) ltac:(lia))) as A. pose proof (proj1 (HK 0%nat 1%nat ltac:(lia) ltac:(lia))) as B.
  pose proof (proj1 (HK 1%nat 0%nat ltac:(lia) ltac:(lia))) as C. pose proof (proj1 (HK 1%nat 1%nat ltac:(lia) ltac:(lia))) as E.
  rewrite <- ?ED in A, B, C, E. unfold product, tail_of_matrix, identity in A, B, C, E. cbn [Sum Nat.sub Nat.eqb] in A, B, C, E.
  rewrite ?D11, ?D12, ?D21, ?D22 in *.
  assert (K10 : K 1%nat 0%nat = 1) by lra. assert (K11 : K 1%nat 1%nat = 0) by lra.
  assert (K00 : K 0%nat 0%nat = 3 / 4) by lra. assert (K01 : K 0%nat 1%nat = - (1 / 4)) by lra.
  split; [|split; [exact Hdt|]]; intro v; unfold mulv; cbn [Sum]; rewrite ?HI, ?HD, ?EK; cbn [pad]; rewrite ?D10, ?D11, ?D12, ?D20, ?D21, ?D22, ?K00, ?K01, ?K10, ?K11;
    repeat split; try field; assumption.
Qed.
Lemma three_exist : exists I D, segment_calculus 3 1 I D.
Proof.
  destruct (C38_total some_inverse 3 C38_inverts) as ([[x D] J] & H); [lia|].
  exists (fun i j => J i j * 1), (fun i j => D i j / 1), some_inverse, x, D, J. repeat split; [apply C38_inverts|exact H|lra].
Qed.
(** but a battery filled by a charge that is followed by a discharge holds more than it can *)
Definition idle (P : col) (E0 Emax : R) (I D : mat) : li_in :=
  LiIn (fun _ => 0) P 4 1 1 (fun _ => 300) Emax (fun _ => E0) (fun _ => 0) 1 1 I D (fun i => INR i).
Lemma idle_E : forall P E0 Emax I D i, o_E (energy_calc 3 (idle P E0 Emax I D) true) i = stored 3 I D P (fun _ => E0) Emax i.
Proof.
  intros. cbn [energy_calc idle o_E q_current q_power q_Vmax q_mass q_Cp q_T q_Emax q_E q_Q q_Rgrowth q_Egrowth q_I q_D q_time].
  rewrite Rmult_1_r.
  assert (X : forall a x, a - Rabs (0 ^ 2 * x) = a) by (intros; replace (0 ^ 2 * x) with 0 by ring; rewrite Rabs_R0; ring).
  unfold stored. cbv zeta.
  assert (M : forall f : nat -> R, (fun k => P k - Rabs (0 ^ 2 * f k)) = (fun k => P k - Rabs (0 ^ 2 * f k))) by reflexivity.
  f_equal. apply mulv_ext. intros j _. rewrite !X.
  assert (Y : forall f k, mulv 3 I (fun j => P j - Rabs (0 ^ 2 * f j)) k = mulv 3 I P k) by (intros; apply mulv_ext; intros; apply X).
  match goal with |- (if _ then _ - ?a else _) = (if _ then _ - ?b else _) => replace a with b; [reflexivity|] end.
  apply mulv_ext. intros k _. rewrite Y. reflexivity.
Qed.
Theorem C41_over_refuted : exists dt q, let o := energy_calc 3 q true in let full := q_Emax q * q_Egrowth q in
  segment_calculus 3 dt (q_I q) (q_D q) /\ 0 <= q_E q 0%nat <= full /\ full < o_E o 1%nat.
Proof.
  destruct three_exist as (I & D & H). pose proof (three_points 1 I D H) as (A & _ & B).
  exists 1, (idle (fun i => if Nat.eqb i 1 then 1 else -1) 0 (1 / 2) I D). cbv zeta.
  split; [exact H|]. rewrite idle_E. cbn [idle q_Emax q_Egrowth q_E]. split; [lra|].
  unfold stored. cbv zeta.
  match goal with |- _ < mulv 3 I ?f _ + _ => rewrite (proj1 (A f)) end. cbn [Nat.eqb].
  repeat match goal with |- context [mulv 3 D ?f 1%nat] => rewrite (proj1 (B f)) | |- context [mulv 3 D ?f 2%nat] => rewrite (proj2 (B f)) end.
  repeat match goal with |- context [mulv 3 I ?f 2%nat] => rewrite (proj1 (proj2 (A f))) | |- context [mulv 3 I ?f 0%nat] => rewrite (proj2 (proj2 (A f)))
    | |- context [mulv 3 I ?f 1%nat] => rewrite (proj1 (A f)) end. cbn [Nat.eqb].
  ltb; lra.
Qed.
(** and nothing stops a discharge at zero: the energy goes below it, the state of charge reads zero *)
Theorem C41_empty_refuted : exists dt q, let o := energy_calc 3 q true in
  segment_calculus 3 dt (q_I q) (q_D q) /\ 0 < q_E q 0%nat <= q_Emax q * q_Egrowth q /\ o_E o 2%nat < 0 /\ o_SOC o 2%nat = 0.
Proof.
  destruct three_exist as (I & D & H). pose proof (three_points 1 I D H) as (A & _ & B).
  exists 1, (idle (fun i => -1) (1 / 4) (1 / 2) I D). cbv zeta.
  assert (E2 : o_E (energy_calc 3 (idle (fun i => -1) (1 / 4) (1 / 2) I D) true) 2%nat < 0).
  { rewrite idle_E. rewrite stored_free; [|intros [|[|[|i]]] Hi; [rewrite (proj2 (proj2 (A _)))|rewrite (proj1 (A _))|rewrite (proj1 (proj2 (A _)))|lia]; lra|lia].
    rewrite (proj1 (proj2 (A _))). lra. }
  split; [exact H|]. split; [cbn [idle q_E q_Emax q_Egrowth]; lra|]. split; [exact E2|].
  apply (C41_charge 3 (idle (fun i => -1) (1 / 4) (1 / 2) I D) true 2%nat); [cbn [idle q_Emax q_Egrowth]; lra|lra].
Qed.
Theorem C41_voltage : forall n q d i, let o := energy_calc n q d in 0 < q_Vmax q ->
  0 < o_Voc o i <= q_Vmax q /\
  forall j, o_SOC o i < o_SOC o j -> o_Voc o i <= o_Voc o j /\ (o_Voc o i < q_Vmax q -> o_Voc o i < o_Voc o j).
Proof.
  intros n q d i o HV. assert (S : forall k, 0 <= o_SOC o k <= 1) by (intro k; apply clip01_range).
  assert (V : forall k, o_Voc o k = if Rltb (q_Vmax q) (li_voltage (o_SOC o k) * q_Vmax q) then q_Vmax q else li_voltage (o_SOC o k) * q_Vmax q) by reflexivity.
  pose proof (voltage_pos (o_SOC o i) (proj1 (S i))) as P. assert (0 < li_voltage (o_SOC o i) * q_Vmax q) by (apply Rmult_lt_0_compat; assumption).
  split; [rewrite V; ltb; lra|]. intros j Hj. pose proof (voltage_up _ _ (proj1 (S i)) Hj) as U.
  assert (li_voltage (o_SOC o i) * q_Vmax q < li_voltage (o_SOC o j) * q_Vmax q) by nra. rewrite !V. ltb; lra.
Qed.
(** a full battery shows its maximum voltage *)
Theorem C41_full_voltage : forall n q d i, let o := energy_calc n q d in 0 < q_Vmax q -> o_SOC o i = 1 -> o_Voc o i = q_Vmax q.
Proof.
  intros n q d i o HV H.
  assert (V : o_Voc o i = if Rltb (q_Vmax q) (li_voltage (o_SOC o i) * q_Vmax q) then q_Vmax q else li_voltage (o_SOC o i) * q_Vmax q) by reflexivity.
  rewrite V, H. assert (1 < li_voltage 1).
  { unfold li_voltage. assert (exp (-35 * 1) < 1 / 1000).
    { replace (-35 * 1) with (- (35)) by ring. rewrite exp_Ropp. replace (1 / 1000) with (/ 1000) by field. apply Rinv_lt_contravar; [pose proof (exp_pos 35); lra|].
      pose proof (exp_ineq1 5 ltac:(lra)) as Q. replace 35 with (5 + 5 + 5 + 5 + 5 + 5 + 5) by ring. rewrite !exp_plus.
      assert (6 * 6 <= exp 5 * exp 5) by nra. assert (36 * 36 <= exp 5 * exp 5 * (exp 5 * exp 5)) by nra. assert (1 <= exp 5 * exp 5 * exp 5) by nra. nra. }
    lra. }
  ltb; nra.
Qed.
Theorem C41_losses : forall n q d i, let o := energy_calc n q d in
  0 <= o_R o i /\ (0 < q_Rgrowth q -> 0 < o_R o i) /\ o_losses o i = (o_current o i) ^ 2 * o_R o i /\ 0 <= o_losses o i /\
  (0 < q_Rgrowth q -> o_losses o i = 0 -> q_current q i = 0).
Proof.
  intros n q d i o.
  assert (P : 0 < li_resistance (clip01 ((mulv n (q_I q) (q_power q) i + q_E q 0%nat) / (q_Emax q * q_Egrowth q)))) by (apply resistance_pos, clip01_range).
  assert (A : o_R o i = let r := li_resistance (clip01 ((mulv n (q_I q) (q_power q) i + q_E q 0%nat) / (q_Emax q * q_Egrowth q))) * q_Rgrowth q in if Rltb r 0 then 0 else r) by reflexivity.
  assert (B : 0 <= o_R o i) by (rewrite A; cbv zeta; ltb; lra).
  assert (C : 0 < q_Rgrowth q -> 0 < o_R o i) by (intro G; rewrite A; cbv zeta; pose proof (Rmult_lt_0_compat _ _ P G); ltb; lra).
  assert (L : o_losses o i = (o_current o i) ^ 2 * o_R o i) by reflexivity.
  split; [exact B|]. split; [exact C|]. split; [exact L|]. split.
  - rewrite L. apply Rmult_le_pos; [apply pow2_ge_0|exact B].
  - intros G Z. rewrite L in Z. specialize (C G). assert (o_current o i = 0).
    { destruct (Rmult_integral _ _ Z) as [Y|Y]; [|lra]. destruct (Rmult_integral _ _ Y) as [X|X]; lra. }
    change (o_current o i) with ((if d then q_current q else fun k => - q_current q k) i) in H. destruct d; lra.
Qed.
(** the power at the terminals: what the cells deliver, less the losses; when charging, plus them *)
Theorem C41_load : forall n q i,
  (let o := energy_calc n q true in o_current o i = q_current q i /\ o_load o i = o_Voc o i * q_current q i - o_losses o i /\
     (0 <= q_current q i -> o_Vul o i <= o_Voc o i)) /\
  (let o := energy_calc n q false in o_current o i = - q_current q i /\ o_load o i = o_Voc o i * - q_current q i + o_losses o i /\
     (q_current q i <= 0 -> o_Voc o i <= o_Vul o i)).
Proof.
  intros n q i. pose proof (C41_losses n q true i) as (A & _ & LA & _). pose proof (C41_losses n q false i) as (B & _ & LB & _). split; intro o.
  - change (energy_calc n q true) with o in A, LA. split; [reflexivity|].
    assert (V : o_Vul o i = o_Voc o i - q_current q i * o_R o i) by reflexivity.
    assert (L : o_load o i = o_Vul o i * q_current q i) by reflexivity.
    assert (C : o_current o i = q_current q i) by reflexivity. split; [rewrite L, LA, V, C; ring|]. intro H. rewrite V. nra.
  - change (energy_calc n q false) with o in B, LB. split; [reflexivity|].
    assert (V : o_Vul o i = o_Voc o i + - q_current q i * o_R o i) by reflexivity.
    assert (L : o_load o i = o_Vul o i * - q_current q i) by reflexivity.
    assert (C : o_current o i = - q_current q i) by reflexivity. split; [rewrite L, LB, V, C; ring|]. intro H. rewrite V. nra.
Qed.
Theorem C41_throughput : forall n q d, let o := energy_calc n q d in o_Q o 0%nat = q_Q q 0%nat /\
  (forall i, q_time q i <= q_time q (S i) -> o_Q o i <= o_Q o (S i)) /\
  (forall i c, (forall k, (k <= i)%nat -> q_current q k = c) -> o_Q o i = q_Q q 0%nat + ampere_hours (Rabs c) (q_time q 0%nat) (q_time q i)).
Proof.
  intros n q d o. set (f := fun k => Rabs ((if d then q_current q else fun i => - q_current q i) k)).
  assert (A : forall i, o_Q o i = q_Q q 0%nat + cumtrapz f (q_time q) i / hour) by reflexivity. repeat split.
  - rewrite A. cbn. unfold hour. field.
  - intros i T. rewrite !A. pose proof (cumtrapz_step f (q_time q) i ltac:(intro; apply Rabs_pos) T). unfold hour. lra.
  - intros i c H. rewrite A. unfold ampere_hours, hour. rewrite (cumtrapz_const f (q_time q) (Rabs c)); [reflexivity|].
    intros k Hk. unfold f. destruct d; [|rewrite Rabs_Ropp]; rewrite (H k Hk); reflexivity.
Qed.
(** all the heat stays in the battery *)
Theorem C41_heat : forall n q d i, let o := energy_calc n q d in q_mass q * q_Cp q <> 0 ->
  q_mass q * q_Cp q * (o_T o i - q_T q 0%nat) = energy_in n (q_I q) (o_losses o) i.
Proof.
  intros n q d i o H. assert (A : o_T o i = q_T q 0%nat + mulv n (q_I q) (fun k => o_losses o k / (q_mass q * q_Cp q)) i) by reflexivity.
  rewrite A. unfold energy_in. rewrite (mulv_ext n (q_I q) _ (fun k => / (q_mass q * q_Cp q) * o_losses o k)) by (intros; field; split; intro Z; rewrite Z in H; lra).
  rewrite mulv_scal. field. split; intro Z; rewrite Z in H; lra.
Qed.

(** *** the nickel-manganese-cobalt cells *)
Definition cell_current (q : nmc_in) (d : bool) : col := fun i => if d then m_current q i / m_parallel q else - m_current q i / m_parallel q.
Theorem C41_nmc_charge : forall n q d i, let o := nmc_energy_calc n q d in 0 < m_Emax q ->
  0 <= n_SOC o i <= 1 /\ n_DOD o i = 1 - n_SOC o i /\
  (0 <= n_E o i <= m_Emax q -> n_SOC o i * m_Emax q = n_E o i) /\ (m_Emax q <= n_E o i -> n_SOC o i = 1) /\ (n_E o i <= 0 -> n_SOC o i = 0).
Proof.
  intros n q d i o HF. destruct (share (n_E o i) (m_Emax q) HF) as (A & B & C & D).
  assert (E : n_SOC o i = clip01 (n_E o i / m_Emax q)) by (rewrite <- clip01_same; reflexivity).
  rewrite E. repeat split; try apply A; auto. rewrite <- E. reflexivity.
Qed.
Theorem C41_nmc_balance : forall n q d, let o := nmc_energy_calc n q d in let I := c_int (m_cool q) in
  (forall i, (i < n)%nat -> m_E q 0%nat + energy_in n I (nmc_net_power q o) i <= m_Emax q) ->
  forall i, (i < n)%nat -> n_E o i = m_E q 0%nat + energy_in n I (nmc_net_power q o) i.
Proof. intros n q d o I H i Hi. apply (stored_free n I (m_D q) (nmc_net_power q o) (m_E q) (m_Emax q)); [exact H|exact Hi]. Qed.
Theorem C41_nmc_full : forall n dt q d, let o := nmc_energy_calc n q d in let I := c_int (m_cool q) in
  segment_calculus n dt I (m_D q) -> m_E q 0%nat <= m_Emax q -> (forall i, (i < n)%nat -> 0 < nmc_net_power q o i) ->
  forall i, (i < n)%nat -> n_E o i = Rmin (m_E q 0%nat + energy_in n I (nmc_net_power q o) i) (m_Emax q).
Proof.
  intros n dt q d o I HS HE HP i Hi. destruct (calculus_undoes n dt I (m_D q) HS) as (U & Z).
  apply (stored_full n I (m_D q) (nmc_net_power q o) (m_E q) (m_Emax q)); auto.
Qed.
(** the losses of a cell delivering current are never negative *)
Theorem C41_nmc_losses : forall n q d i, let o := nmc_energy_calc n q d in
  0 < m_electrode q -> 0 <= c_surface (m_cool q) -> 0 <= cell_current q d i -> 0 <= n_losses o i.
Proof.
  intros n q d i o HE HS HI.
  set (s := clip01' ((mulv n (c_int (m_cool q)) (m_power q) i + m_E q 0%nat) / m_Emax q)).
  set (T := clip (27265 / 100) (32265 / 100) (m_Tcell q i)). set (j := cell_current q d i / m_electrode q).
  assert (L : n_losses o i = INR (c_total (m_cool q)) * ((j ^ 2 / 139 + - T * nmc_entropy s * j / (1 * 96485)) * c_surface (m_cool q))) by reflexivity.
  assert (HT : 0 <= T) by (pose proof (clip_range (27265 / 100) (32265 / 100) (m_Tcell q i) ltac:(lra)); unfold T; lra).
  assert (Hs : nmc_entropy s <= 0) by (apply entropy_neg; unfold s; rewrite clip01_same; apply clip01_range).
  assert (Hj : 0 <= j) by (unfold j; apply Rmult_le_pos; [exact HI|left; apply Rinv_0_lt_compat, HE]).
  assert (K : 0 <= - (T * nmc_entropy s)) by nra. assert (0 <= - (T * nmc_entropy s) * j) by (apply Rmult_le_pos; assumption).
  rewrite L. apply Rmult_le_pos; [apply pos_INR|]. apply Rmult_le_pos; [|exact HS].
  pose proof (pow2_ge_0 j). lra.
Qed.
Definition some_cooling (I : mat) : cooling :=
  Cooling 10 1 1 1 (fun _ => 300) (fun _ => 300) (fun _ => 300) 1 1 1 1 1 1 3 2 1 1 1 1 1 1 (fun _ => 1) I.
Definition cell_at (current power E0 : R) (I D : mat) : nmc_in :=
  NmcIn (fun _ => current) (fun _ => power) 1 (fun _ => 300) 1 (fun _ => E0) (fun _ => 0) 1 1 D (fun i => INR i) (fun _ _ _ => 4) (some_cooling I).
(** but those of a cell being charged may be: it cools, and the power is reduced all the same *)
Theorem C41_nmc_losses_refuted : exists n q i, let o := nmc_energy_calc n q true in
  0 < m_electrode q /\ 0 < c_surface (m_cool q) /\ n_losses o i < 0 /\ nmc_net_power q o i < m_power q i.
Proof.
  exists 3%nat, (cell_at (-1) 0 0 (fun _ _ => 0) (fun _ _ => 0)), 0%nat. cbv zeta.
  assert (L : n_losses (nmc_energy_calc 3 (cell_at (-1) 0 0 (fun _ _ => 0) (fun _ _ => 0)) true) 0%nat < 0).
  { cbn [nmc_energy_calc n_losses cell_at m_current m_power m_electrode m_Tcell m_Emax m_E m_Q m_series m_parallel m_D m_time m_map m_cool some_cooling c_total c_surface c_int].
    replace (mulv 3 (fun _ _ => 0) (fun _ => 0) 0) with 0 by (unfold mulv; cbn; ring).
    replace ((0 + 0) / 1) with 0 by field. rewrite clip01_same, clip01_id, clip_id by lra. unfold nmc_entropy. cbn [pow INR]. lra. }
  split; [cbn; lra|]. split; [cbn; lra|]. split; [exact L|]. unfold nmc_net_power. rewrite Rabs_left by exact L.
  set (l := n_losses _ _) in *. cbn [cell_at m_power]. lra.
Qed.
(** open-circuit voltage, resistance, power *)
Theorem C41_nmc_voltage : forall n q d i, let o := nmc_energy_calc n q d in 0 < m_series q ->
  0 < n_R o i /\ 0 <= n_cell_current o i <= 8 /\ n_Voc o i = n_Vul o i + n_cell_current o i * n_R o i /\ n_Vul o i <= n_Voc o i /\
  n_load o i = n_Vul o i * m_current q i.
Proof.
  intros n q d i o HS.
  assert (R0 : 0 < n_R o i) by (apply Rmult_lt_0_compat; [apply nmc_resistance_pos|exact HS]).
  assert (C : 0 <= n_cell_current o i <= 8) by (apply clip_range; lra).
  set (s := clip01' ((mulv n (c_int (m_cool q)) (m_power q) i + m_E q 0%nat) / m_Emax q)).
  set (v := m_map q (n_cell_current o i) (clip (27265 / 100) (32265 / 100) (clip (27265 / 100) (32265 / 100) (m_Tcell q i))) (1 - clip01' s)).
  assert (V : n_Voc o i = (v + n_cell_current o i * nmc_resistance s) * m_series q) by reflexivity.
  assert (RR : n_R o i = nmc_resistance s * m_series q) by reflexivity.
  assert (U : n_Vul o i = v * m_series q).
  { assert (X : n_Vul o i = (if Rltb (n_SOC o i) 0 then 0 else v) * m_series q) by reflexivity. rewrite X.
    assert (Y : 0 <= n_SOC o i) by (assert (E : n_SOC o i = clip01' (n_E o i / m_Emax q)) by reflexivity; rewrite E, clip01_same; apply clip01_range).
    ltb; [lra|reflexivity]. }
  assert (W : n_Voc o i = n_Vul o i + n_cell_current o i * n_R o i) by (rewrite V, U, RR; ring).
  split; [exact R0|]. split; [exact C|]. split; [exact W|]. split; [rewrite W; nra|reflexivity].
Qed.
Theorem C41_nmc_throughput : forall n q d, let o := nmc_energy_calc n q d in n_Q o 0%nat = m_Q q 0%nat /\
  (forall i, m_time q i <= m_time q (S i) -> n_Q o i <= n_Q o (S i)) /\
  (forall i c, 0 <= c <= 8 -> (forall k, (k <= i)%nat -> cell_current q d k = c) -> n_Q o i = m_Q q 0%nat + ampere_hours c (m_time q 0%nat) (m_time q i)).
Proof.
  intros n q d o. set (f := fun k => clip 0 8 (cell_current q d k)).
  assert (A : forall i, n_Q o i = m_Q q 0%nat + cumtrapz f (m_time q) i / hour) by reflexivity. repeat split.
  - rewrite A. cbn. unfold hour. field.
  - intros i T. rewrite !A. pose proof (cumtrapz_step f (m_time q) i ltac:(intro; apply clip_range; lra) T). unfold hour. lra.
  - intros i c Hc H. rewrite A. unfold ampere_hours, hour. rewrite (cumtrapz_const f (m_time q) c); [reflexivity|].
    intros k Hk. unfold f. rewrite (H k Hk). apply clip_id. exact Hc.
Qed.
(** above eight amperes the cells are counted as carrying eight; charging backwards, none *)
Theorem C41_nmc_throughput_refuted : exists n q, let o := nmc_energy_calc n q true in
  (forall k, cell_current q true k = 10) /\ m_time q 0%nat < m_time q 1%nat /\
  n_Q o 1%nat < m_Q q 0%nat + ampere_hours 10 (m_time q 0%nat) (m_time q 1%nat).
Proof.
  exists 3%nat, (cell_at 10 0 0 (fun _ _ => 0) (fun _ _ => 0)). cbv zeta. split; [intro k; unfold cell_current; cbn [cell_at m_current m_parallel]; field|].
  split; [cbn; lra|].
  assert (A : n_Q (nmc_energy_calc 3 (cell_at 10 0 0 (fun _ _ => 0) (fun _ _ => 0)) true) 1%nat = 0 + cumtrapz (fun _ => clip 0 8 (10 / 1)) (fun i => INR i) 1 / hour) by reflexivity.
  rewrite A, (cumtrapz_const _ _ 8).
  - unfold ampere_hours, hour. cbn [cell_at m_Q m_time INR]. lra.
  - intros k _. unfold clip. cbv zeta. ltb; lra.
Qed.

Lemma const_energy : forall n dt I D c, (2 <= n)%nat -> segment_calculus n dt I D -> energy_in n I (fun _ => c) (n - 1) = c * dt.
Proof.
  intros n dt I D c Hn (inv & x & D0 & I0 & Hi & HC & Hdt & HI & HD). unfold energy_in.
  destruct (C38_nodes inv n x D0 I0 Hi Hn HC) as (X0 & X1 & _).
  assert (P : forall t, S_Cheb.poly (fun k => if Nat.eqb k 0 then c else 0) (n - 1) t = c).
  { intro t. unfold S_Cheb.poly. rewrite (Sum_one (n - 1) _ 0%nat); [cbn; ring|lia|]. intros j _ Hj. destruct j; [lia|]. cbn [Nat.eqb]. ring. }
  assert (G : mulv n I0 (fun j => S_Cheb.poly (fun k => if Nat.eqb k 0 then c else 0) (n - 1) (x j)) (n - 1) = c * x (n - 1)%nat - c * 0).
  { apply (C38_integrates inv n x D0 I0 _ Hi Hn HC (n - 1)%nat (fun t => c * t)); [lia|]. intro t. rewrite P.
    pose proof (derivable_pt_lim_scal (fun t => t) c t 1 (derivable_pt_lim_id t)) as K. rewrite Rmult_1_r in K. exact K. }
  rewrite X1 in G. replace (c * dt) with (dt * (c * 1 - c * 0)) by ring. rewrite <- G.
  rewrite <- mulv_scal. unfold mulv. apply Sum_ext. intros j Hj. rewrite HI, P. ring.
Qed.
(** a case: charged for an hour at 4 W from empty, 16 points, and full after half of it *)
Example C41_case : exists q, let o := energy_calc 16 q true in
  segment_calculus 16 3600 (q_I q) (q_D q) /\ q_E q 0%nat <= q_Emax q * q_Egrowth q /\ 0 < q_Emax q * q_Egrowth q /\
  (forall i, (i < 16)%nat -> 0 < net_power q o i) /\ o_E o 15%nat = 7200 /\ o_SOC o 15%nat = 1.
Proof.
  destruct (C38_total some_inverse 16 C38_inverts) as ([[x D] J] & H); [lia|].
  pose (q := LiIn (fun _ => 0) (fun _ => 4) 4 1 1 (fun _ => 300) 7200 (fun _ => 0) (fun _ => 0) 1 1 (fun i j => J i j * 3600) (fun i j => D i j / 3600) (fun i => INR i)).
  exists q. intro o.
  assert (HS : segment_calculus 16 3600 (q_I q) (q_D q)).
  { exists some_inverse, x, D, J. split; [apply C38_inverts|]. split; [exact H|]. split; [lra|]. split; reflexivity. }
  assert (N : forall i, net_power q o i = 4).
  { intro i. unfold net_power. assert (L : o_losses o i = 0 ^ 2 * o_R o i) by reflexivity. rewrite L. cbn [q q_power]. ring. }
  assert (B : q_E q 0%nat = 0 /\ q_Emax q * q_Egrowth q = 7200) by (cbn; lra). destruct B as (B0 & B1).
  assert (E15 : o_E o 15%nat = 7200).
  { rewrite (C41_full 16 3600 q true HS); [|rewrite B0, B1; lra|intros i _; fold o; rewrite N; lra|lia].
    rewrite B0, B1. replace (energy_in 16 (q_I q) (net_power q (energy_calc 16 q true)) 15) with (4 * 3600).
    - unfold Rmin. destruct (Rle_dec _ _); lra.
    - rewrite <- (const_energy 16 3600 (q_I q) (q_D q) 4) by (lia || exact HS). apply mulv_ext. intros j _. symmetry. apply N. }
  split; [exact HS|]. split; [rewrite B0, B1; lra|]. split; [rewrite B1; lra|]. split; [intros i _; rewrite N; lra|]. split; [exact E15|].
  apply (C41_charge 16 q true 15%nat); rewrite B1; [lra|fold o; rewrite E15; lra].
Qed.

(** ** C42: ageing *)
Theorem C42_irreversible : forall n_series h us vs,
  fade (after n_series h (us ++ vs)) <= fade (after n_series h us) /\ growth (after n_series h us) <= growth (after n_series h (us ++ vs)) /\
  (day (after n_series h us) <= day (after n_series h (us ++ vs)))%nat.
Proof. intros. rewrite after_app. apply after_mono. Qed.
(** the day is the number of uses that were counted *)
Theorem C42_day : forall n_series h us, day (after n_series h us) = (day h + cycles us)%nat.
Proof. intros. apply after_day. Qed.
(** the factors are the worst of all the values the fitted formulae have given *)
Definition worst_fade (n_series : R) (h : health) (us : list use) (f : R) : Prop :=
  let value u before := aged_fade n_series u (day h + cycles before)%nat in
  (f <= fade h /\ forall before u rest, us = before ++ u :: rest -> f <= value u before) /\
  (f = fade h \/ exists before u rest, us = before ++ u :: rest /\ f = value u before).
Definition worst_growth (n_series : R) (h : health) (us : list use) (g : R) : Prop :=
  let value u before := aged_growth n_series u (day h + cycles before)%nat in
  (growth h <= g /\ forall before u rest, us = before ++ u :: rest -> value u before <= g) /\
  (g = growth h \/ exists before u rest, us = before ++ u :: rest /\ g = value u before).
Lemma split_snoc : forall (A : Type) (us : list A) v before u rest, us ++ [v] = before ++ u :: rest ->
  (rest = [] /\ u = v /\ before = us) \/ exists r, rest = r ++ [v] /\ us = before ++ u :: r.
Proof.
  intros A us v before u rest H. destruct (exists_last (l := u :: rest)) as (r & w & E); [discriminate|].
  rewrite E, app_assoc in H. apply app_inj_tail in H. destruct H as (H & <-).
  destruct r as [|a r].
  - cbn in E. injection E as -> ->. left. rewrite app_nil_r in H. auto.
  - cbn in E. injection E as -> ->. right. exists r. auto.
Qed.
Theorem C42_worst : forall n_series h us, worst_fade n_series h us (fade (after n_series h us)) /\ worst_growth n_series h us (growth (after n_series h us)).
Proof.
  intros s h us. induction us as [|v us (IF & IG)] using rev_ind.
  - split; (split; [split; [cbn; lra|intros [|] ? ? E; discriminate]|left; reflexivity]).
  - rewrite after_snoc. cbn [update_battery_state_of_health fade growth]. rewrite after_day.
    destruct IF as ((F0 & F1) & F2), IG as ((G0 & G1) & G2).
    set (nf := aged_fade s v (day h + cycles us)). set (ng := aged_growth s v (day h + cycles us)).
    split; split.
    + split; [eapply Rle_trans; [apply Rmin_r|exact F0]|]. intros before u rest E.
      destruct (split_snoc _ _ _ _ _ _ E) as [(-> & -> & ->)|(r & -> & ->)]; [apply Rmin_l|].
      eapply Rle_trans; [apply Rmin_r|]. exact (F1 before u r eq_refl).
    + unfold Rmin. destruct (Rle_dec _ _); [right; exists us, v, []; split; reflexivity|].
      destruct F2 as [F2|(before & u & rest & E & F2)]; [left; exact F2|right]. exists before, u, (rest ++ [v]). split; [rewrite E, <- app_assoc; reflexivity|exact F2].
    + split; [eapply Rle_trans; [exact G0|apply Rmax_r]|]. intros before u rest E.
      destruct (split_snoc _ _ _ _ _ _ E) as [(-> & -> & ->)|(r & -> & ->)]; [apply Rmax_l|].
      eapply Rle_trans; [|apply Rmax_r]. exact (G1 before u r eq_refl).
    + unfold Rmax. destruct (Rle_dec _ _); [|right; exists us, v, []; split; reflexivity].
      destruct G2 as [G2|(before & u & rest & E & G2)]; [left; exact G2|right]. exists before, u, (rest ++ [v]). split; [rewrite E, <- app_assoc; reflexivity|exact G2].
Qed.
(** a gentler use than before changes neither factor *)
Theorem C42_gentle : forall n_series h u, fade h <= aged_fade n_series u (day h) -> aged_growth n_series u (day h) <= growth h ->
  let h' := update_battery_state_of_health n_series h u in fade h' = fade h /\ growth h' = growth h.
Proof.
  intros s h u F G h'. cbn [h' update_battery_state_of_health fade growth]. unfold Rmin, Rmax.
  split; destruct (Rle_dec _ _); lra.
Qed.
(** any use at a mean cell voltage above 3.15 V costs capacity: at least 0.076 % per root ampere hour *)
Theorem C42_costs : forall n_series h u, 0 <= u_Q u -> 315 / 100 <= mean (map (fun v => v / n_series) (u_V u)) ->
  fade (update_battery_state_of_health n_series h u) <= 1 - 76 / 100000 * sqrt (u_Q u).
Proof.
  intros s h u HQ HV. eapply Rle_trans; [apply Rmin_l|]. unfold aged_fade. cbv zeta.
  set (m := mean (map (fun v => v / s) (u_V u))) in *. set (e := exp _). set (pw := power _ _).
  set (r := sqrt (mean _)). set (dd := Rabs _). set (q := sqrt (u_Q u)).
  assert (0 < e) by apply exp_pos. assert (0 <= pw) by apply power_nonneg. assert (0 <= q) by apply sqrt_pos. assert (0 <= dd) by apply Rabs_pos.
  assert (0 <= (r - 3667 / 1000) ^ 2) by apply pow2_ge_0.
  assert (A : 0 <= (7542 / 1000 * m - 2375 / 100) * 1000000 * e * pw).
  { apply Rmult_le_pos; [|assumption]. apply Rmult_le_pos; [|lra]. apply Rmult_le_pos; lra. }
  assert (B : 0 <= (7348 / 1000000 * (r - 3667 / 1000) ^ 2 + 4081 / 1000000 * dd) * q) by (apply Rmult_le_pos; lra).
  lra.
Qed.
(** nothing keeps the capacity positive *)
Theorem C42_positive_refuted : exists h u, fade h = 1 /\ growth h = 1 /\ 0 <= u_Q u /\ Forall (fun s => 0 <= s <= 1) (u_SOC u) /\
  fade (update_battery_state_of_health 1 h u) < 0.
Proof.
  pose (u := Use [1; 0] [4] (2000 ^ 2) [300] true). exists (Health 1 1 0), u. split; [reflexivity|]. split; [reflexivity|].
  split; [cbn; lra|]. split; [repeat constructor; lra|].
  assert (A : fade (update_battery_state_of_health 1 (Health 1 1 0) u) <= 1 - 76 / 100000 * sqrt (2000 ^ 2)).
  { apply C42_costs; [cbn; lra|]. unfold mean, u. cbn. lra. }
  rewrite sqrt_pow2 in A by lra. lra.
Qed.
Example C42_case : let us := [Use [1; 1 / 2] [38] 1 [300; 310] true; Use [1; 1 / 2] [38] 4 [300; 310] false] in
  cycles us = 1%nat /\ day (after 10 (Health 1 1 0) us) = 1%nat /\ fade (after 10 (Health 1 1 0) us) < 1.
Proof.
  intro us. split; [reflexivity|]. split; [reflexivity|]. unfold us, after. cbn [fold_left].
  eapply Rle_lt_trans; [apply C42_costs; [cbn; lra|unfold mean; cbn; lra]|]. cbn [u_Q]. replace 4 with (2 ^ 2) by ring. rewrite sqrt_pow2 by lra. lra.
Qed.

(** ** C43: sizing *)
Theorem C43_meets : forall b energy power soft, 0 < s_specific_energy b -> 0 < s_specific_power b ->
  let b' := initialize_from_energy_and_power b energy power soft in
  energy <= s_max_energy b' /\ power <= s_max_power b' /\ (soft = false -> energy = s_max_energy b' \/ power = s_max_power b') /\
  s_max_energy b' = s_specific_energy b * s_mass b' /\ s_max_power b' = s_specific_power b * s_mass b' /\
  s_specific_energy b' = s_specific_energy b /\ s_specific_power b' = s_specific_power b.
Proof.
  intros b energy power soft He Hp b'. set (e := s_specific_energy b) in *. set (p := s_specific_power b) in *.
  assert (M : Rmax (energy / e) (power / p) <= s_mass b').
  { cbn [b' initialize_from_energy_and_power s_mass]. fold e p. destruct soft; [|lra]. pose proof (proj1 (C39_soft_bounds (energy / e) (power / p))). lra. }
  assert (A : e * (energy / e) = energy) by (field; lra). assert (B : p * (power / p) = power) by (field; lra).
  pose proof (Rmax_l (energy / e) (power / p)). pose proof (Rmax_r (energy / e) (power / p)).
  assert (E1 : s_max_energy b' = e * s_mass b') by reflexivity. assert (E2 : s_max_power b' = p * s_mass b') by reflexivity.
  rewrite E1, E2. repeat split; try reflexivity; [nra|nra|]. intros ->. cbn [b' initialize_from_energy_and_power s_mass]. fold e p.
  unfold Rmax. destruct (Rle_dec _ _); [right|left]; lra.
Qed.
Theorem C43_least : forall b energy power m, 0 < s_specific_energy b -> 0 < s_specific_power b ->
  let least := s_mass (initialize_from_energy_and_power b energy power false) in
  (enough b m energy power <-> least <= m) /\
  least < s_mass (initialize_from_energy_and_power b energy power true) <= least + ln 2.
Proof.
  intros b energy power m He Hp least. split.
  - unfold enough. set (e := s_specific_energy b) in *. set (p := s_specific_power b) in *.
    assert (A : e * (energy / e) = energy) by (field; lra). assert (B : p * (power / p) = power) by (field; lra).
    assert (L : least = Rmax (energy / e) (power / p)) by reflexivity. rewrite L.
    pose proof (Rmax_l (energy / e) (power / p)). pose proof (Rmax_r (energy / e) (power / p)). split.
    + intros (C & D). apply Rmax_lub; [apply Rmult_le_reg_l with e|apply Rmult_le_reg_l with p]; lra.
    + intro C. split; nra.
  - apply C39_soft_bounds.
Qed.
Theorem C43_scales : forall b energy power k, 0 < s_specific_energy b -> 0 < s_specific_power b -> 0 <= k ->
  s_mass (initialize_from_energy_and_power b (k * energy) (k * power) false) = k * s_mass (initialize_from_energy_and_power b energy power false).
Proof.
  intros b energy power k He Hp Hk. cbn [initialize_from_energy_and_power s_mass].
  rewrite <- RmaxRmult by exact Hk. f_equal; field; lra.
Qed.
(** the soft maximum does not scale: requirements of nothing take ln 2 kilograms *)
Theorem C43_soft_refuted : exists b, 0 < s_specific_energy b /\ 0 < s_specific_power b /\ 0 < s_mass (initialize_from_energy_and_power b 0 0 true).
Proof.
  exists (Sized 0 1 1 0 0). split; [cbn; lra|]. split; [cbn; lra|]. cbn [initialize_from_energy_and_power s_mass s_specific_energy s_specific_power].
  replace (0 / 1) with 0 by field. rewrite soft_max_log, exp_0. rewrite <- ln_1. apply ln_increasing; lra.
Qed.
Example C43_case : let b := initialize_from_energy_and_power (Sized 0 900 300 0 0) 1800 900 false in s_mass b = 3 /\ s_max_energy b = 2700 /\ s_max_power b = 900.
Proof.
  cbn. replace (Rmax (1800 / 900) (900 / 300)) with 3; [lra|]. unfold Rmax. destruct (Rle_dec _ _); lra.
Qed.
(** *** the trade of specific energy against specific power *)
Theorem C43_ragone : forall c1 c2 e b energy power, 0 < c1 -> 0 < e -> let b' := find_ragone_properties c1 c2 e b energy power in
  s_specific_energy b' = e /\ s_specific_power b' = c1 * exp (c2 * e * ln 10) /\ energy <= s_max_energy b' /\ power <= s_max_power b' /\
  (energy = s_max_energy b' \/ power = s_max_power b').
Proof.
  intros c1 c2 e b energy power H1 He b'. set (b0 := find_specific_power c1 c2 b e).
  assert (Hp : 0 < s_specific_power b0) by (apply Rmult_lt_0_compat; [exact H1|apply exp_pos]).
  destruct (C43_meets b0 energy power false He Hp) as (A & B & C & _). split; [reflexivity|]. split; [reflexivity|].
  split; [exact A|]. split; [exact B|]. exact (C eq_refl).
Qed.
(** where energy and power ask for the same mass, no other point of the curve is lighter *)
Theorem C43_ragone_best : forall c1 c2 b energy power e e', 0 < c1 -> c2 < 0 -> 0 < energy -> 0 < power -> 0 < e -> 0 < e' ->
  energy / e = power / (c1 * Rpower 10 (c2 * e)) ->
  s_mass (find_ragone_properties c1 c2 e b energy power) <= s_mass (find_ragone_properties c1 c2 e' b energy power).
Proof.
  intros c1 c2 b energy power e e' H1 H2 HE HP He He' X.
  cbn [find_ragone_properties initialize_from_energy_and_power s_mass find_specific_power s_specific_energy s_specific_power]. rewrite <- X.
  unfold Rmax at 1. destruct (Rle_dec _ _) as [_|N]; [|lra].
  destruct (Rle_lt_dec e' e) as [L|L].
  - eapply Rle_trans; [|apply Rmax_l]. apply Rmult_le_compat_l; [lra|]. apply Rinv_le_contravar; lra.
  - eapply Rle_trans; [|apply Rmax_r]. rewrite X. apply Rmult_le_compat_l; [lra|]. apply Rinv_le_contravar.
    + apply Rmult_lt_0_compat; [exact H1|apply exp_pos].
    + apply Rmult_le_compat_l; [lra|]. left. apply exp_increasing. assert (0 < ln 10) by (rewrite <- ln_1; apply ln_increasing; lra). apply Rmult_lt_compat_r; [assumption|nra].
Qed.
(** with a minimiser that finds the minimum, the sized battery is the lightest in the bounds *)
Theorem C43_ragone_optimum : forall fminbound c1 c2 lb ub b energy power, 0 < c1 -> 0 < lb <= ub ->
  (forall f, lb <= fminbound f lb ub <= ub /\ forall x, lb <= x <= ub -> f (fminbound f lb ub) <= f x) ->
  let b' := find_ragone_optimum fminbound c1 c2 lb ub b energy power in
  energy <= s_max_energy b' /\ power <= s_max_power b' /\ lb <= s_specific_energy b' <= ub /\
  forall e, lb <= e <= ub -> s_mass b' <= s_mass (find_ragone_properties c1 c2 e b energy power).
Proof.
  intros fm c1 c2 lb ub b energy power H1 HL HF b'.
  destruct (HF (fun e => s_mass (find_ragone_properties c1 c2 e b energy power))) as (A & B).
  destruct (C43_ragone c1 c2 (fm (fun e => s_mass (find_ragone_properties c1 c2 e b energy power)) lb ub) b energy power H1 ltac:(lra)) as (_ & _ & C & D & _).
  split; [exact C|]. split; [exact D|]. split; [exact A|exact B].
Qed.
(** *** numbers of cells *)
Theorem C43_cells : forall mass volts se sp factor cm cv qv qa, 0 < factor -> 0 < cm -> 0 < cv -> 0 <= mass -> 0 <= volts ->
  match initialize_from_mass mass volts se sp factor (Some (cm, cv)) qv qa with
  | None => volts < cv
  | Some k =>
      cv <= volts /\
      INR (k_total k) * cm <= mass / factor < INR (S (k_total k)) * cm /\
      INR (k_series k) * cv <= volts < INR (S (k_series k)) * cv /\
      (k_series k * k_parallel k <= k_total k < k_series k * S (k_parallel k))%nat /\
      k_max_energy k = mass / factor * se /\ k_max_power k = mass / factor * sp /\
      k_charging_voltage k = qv * INR (k_series k) /\ k_charging_current k = qa * INR (k_parallel k)
  end.
Proof.
  intros mass volts se sp factor cm cv qv qa Hf Hcm Hcv Hm Hv. unfold initialize_from_mass.
  assert (M0 : 0 <= mass / factor) by (apply Rmult_le_pos; [exact Hm|left; apply Rinv_0_lt_compat, Hf]).
  assert (M1 : 0 <= mass / factor / cm) by (apply Rmult_le_pos; [exact M0|left; apply Rinv_0_lt_compat, Hcm]).
  assert (V1 : 0 <= volts / cv) by (apply Rmult_le_pos; [exact Hv|left; apply Rinv_0_lt_compat, Hcv]).
  destruct (trunc_bounds _ M1) as (A & B). destruct (trunc_bounds _ V1) as (C & D).
  assert (EM : mass / factor / cm * cm = mass / factor) by (field; lra). assert (EV : volts / cv * cv = volts) by (field; lra).
  set (nc := trunc (mass / factor / cm)) in *. set (ns := trunc (volts / cv)) in *.
  destruct (Nat.eqb_spec ns 0) as [Z|Z].
  - rewrite Z in D. cbn [INR] in D. nra.
  - assert (S1 : 1 <= INR ns) by (change 1 with (INR 1); apply le_INR; lia).
    assert (P1 : 0 <= INR nc / INR ns) by (apply Rmult_le_pos; [apply pos_INR|left; apply Rinv_0_lt_compat; lra]).
    destruct (trunc_bounds _ P1) as (F & G). set (np := trunc (INR nc / INR ns)) in *.
    assert (EP : INR nc / INR ns * INR ns = INR nc) by (field; lra).
    cbn [k_total k_series k_parallel k_max_energy k_max_power k_charging_voltage k_charging_current]. rewrite !S_INR.
    split; [nra|]. split; [nra|]. split; [nra|]. split; [|repeat split; reflexivity].
    split; [apply INR_le; rewrite mult_INR|apply INR_lt; rewrite mult_INR, S_INR]; nra.
Qed.
(** the total need not be series times parallel: the cells left over are in no string *)
Theorem C43_cells_refuted : exists mass volts k, initialize_from_mass mass volts 1 1 1 (Some (1, 1)) 1 1 = Some k /\
  k_total k = 7%nat /\ k_series k = 2%nat /\ k_parallel k = 3%nat.
Proof.
  exists (INR 7), (INR 2). unfold initialize_from_mass.
  assert (A : trunc (INR 7 / 1 / 1) = 7%nat) by (replace (INR 7 / 1 / 1) with (INR 7) by field; apply trunc_INR).
  assert (B : trunc (INR 2 / 1) = 2%nat) by (replace (INR 2 / 1) with (INR 2) by field; apply trunc_INR).
  rewrite A, B. cbn [Nat.eqb].
  assert (C : trunc (INR 7 / INR 2) = 3%nat) by (apply trunc_between; cbn; lra). rewrite C. eexists. split; [reflexivity|]. auto.
Qed.
(** a pack described by its cells, and its energy, mass and voltage *)
Theorem C43_circuit : forall Ah V cm cv qv qa s p factor, 0 < cm -> 0 < Ah -> let k := initialize_from_circuit Ah V cm cv qv qa s p factor in
  p_cells k = s * p /\ p_mass_total k = factor * (p_cells k * cm) /\ p_energy k = p_cells k * (Ah * V * 3600) /\ p_initial k = p_energy k /\
  p_voltage k = s * cv /\ p_charge_voltage k = s * qv /\ p_charge_current k = p * qa /\
  p_spec_energy k * (p_cells k * cm) = p_energy k /\ p_power k = factor * (p_cells k * V * 3600).
Proof.
  intros Ah V cm cv qv qa s p factor Hc HA k.
  cbn [k initialize_from_circuit p_cells p_mass_total p_energy p_initial p_voltage p_charge_voltage p_charge_current p_spec_energy p_power].
  repeat split; try ring; field; lra.
Qed.
(** sizing by cells and then by the mass that gave finds the same cells, energy and charging
    voltage and current; but the power is divided by the packaging factor *)
Theorem C43_again : forall Ah V cm cv qv qa s p factor, 0 < Ah -> 0 < cm -> 0 < cv -> 0 < factor -> (0 < s)%nat ->
  let k := initialize_from_circuit Ah V cm cv qv qa (INR s) (INR p) factor in
  exists k', initialize_from_mass (p_mass_total k) (p_voltage k) (p_spec_energy k) (p_spec_power k) factor (Some (cm, cv)) qv qa = Some k' /\
    k_series k' = s /\ k_parallel k' = p /\ k_total k' = (s * p)%nat /\ k_max_energy k' = p_energy k /\
    k_charging_voltage k' = p_charge_voltage k /\ k_charging_current k' = p_charge_current k /\ factor * k_max_power k' = p_power k.
Proof.
  intros Ah V cm cv qv qa s p factor HA Hcm Hcv Hf Hs k. unfold initialize_from_mass.
  assert (S1 : 1 <= INR s) by (change 1 with (INR 1); apply le_INR; lia).
  cbn [k initialize_from_circuit p_mass_total p_voltage p_spec_energy p_spec_power p_energy p_charge_voltage p_charge_current p_power].
  assert (E1 : trunc (cm * INR s * INR p * factor / factor / cm) = (s * p)%nat).
  { replace (cm * INR s * INR p * factor / factor / cm) with (INR (s * p)) by (rewrite mult_INR; field; lra). apply trunc_INR. }
  assert (E2 : trunc (cv * INR s / cv) = s) by (replace (cv * INR s / cv) with (INR s) by (field; lra); apply trunc_INR).
  rewrite E1, E2. destruct (Nat.eqb_spec s 0) as [Z|_]; [lia|].
  assert (E3 : trunc (INR (s * p) / INR s) = p) by (replace (INR (s * p) / INR s) with (INR p) by (rewrite mult_INR; field; lra); apply trunc_INR).
  rewrite E3. eexists. split; [reflexivity|].
  cbn [k_series k_parallel k_total k_max_energy k_charging_voltage k_charging_current k_max_power].
  repeat split; field; lra.
Qed.

(** ** C52: cooling *)
Theorem C52_ambient : forall n c Q i, c_ambient c i <= net_generated_heat n c Q i.
Proof. intros n c Q i. unfold net_generated_heat. ltb; lra. Qed.
(** while the pack stays above ambient, what is generated and not removed warms it *)
Theorem C52_balance : forall n c Q i, let N := c_Nn c * c_Np c in let made := if Nat.eqb (c_total c) 1 then 1 else N in
  c_cell_mass c * N * c_Cp c <> 0 -> c_ambient c i < net_generated_heat n c Q i ->
  c_cell_mass c * N * c_Cp c * (net_generated_heat n c Q i - c_Tpack c 0%nat) = energy_in n (c_int c) (fun j => made * Q j - removed c Q j) i.
Proof.
  intros n c Q i N made HM. set (K := c_cell_mass c * N * c_Cp c) in *.
  set (T := c_Tpack c 0%nat + mulv n (c_int c) (fun j => net_heat c Q j / K) i).
  assert (E : net_generated_heat n c Q i = if Rltb T (c_ambient c i) then c_ambient c i else T) by reflexivity.
  rewrite E. ltb; [lra|]. intros _. unfold T. rewrite (mulv_ext n _ _ (fun j => / K * net_heat c Q j)) by (intros; field; exact HM).
  rewrite mulv_scal. unfold energy_in.
  rewrite (mulv_ext n _ (fun j => made * Q j - removed c Q j) (net_heat c Q)).
  - field. exact HM.
  - intros j _. unfold removed, made. destruct (Nat.eqb (c_total c) 1); unfold N; ring.
Qed.
(** a single cell gives heat to the air in proportion to the difference in temperature *)
Theorem C52_single : forall c Q i, c_total c = 1%nat -> removed c Q i = c_h c * c_surface c * (c_Tcell c i - c_ambient c i).
Proof. intros c Q i H. unfold removed, net_heat. rewrite H. cbn [Nat.eqb]. ring. Qed.
(** a pack gives heat to the coolant as long as it is the warmer, takes it when it is the
    colder, and never more than the film would pass at the full difference in temperature *)
Theorem C52_pack : forall c Q i, sound_cooling c -> (c_total c <> 1)%nat ->
  exists v share, gap_speed c v /\ 0 < share < 1 /\
    let wall := (c_ambient c i + c_Tpack c i) / 2 in
    removed c Q i = share * (c_eff c * film c (v * c_diameter c / c_nu c) wall * (PI * c_diameter c * c_height c * (c_Nn c * c_Np c)) * (wall - c_ambient c i)) /\
    0 < film c (v * c_diameter c / c_nu c) wall.
Proof.
  intros c Q i HS HT. destruct (gap_ok c HS) as (GV & GP). set (wall := (c_ambient c i + c_Tpack c i) / 2).
  set (v := coolant_speed c) in *. set (h := film c (v * c_diameter c / c_nu c) wall).
  assert (Hh : 0 < h).
  { unfold h, film. destruct HS. apply Rdiv_lt_0_compat; [|assumption].
    repeat apply Rmult_lt_0_compat; try assumption; try apply exp_pos; lra. }
  set (k := PI * c_diameter c * (c_Nn c * c_Np c) * h / (c_rho c * c_flow c * c_Nn c * c_ST c * c_Cp_fluid c)).
  assert (Hk : 0 < k).
  { unfold k. destruct HS. pose proof PI_RGT_0. assert (0 < c_ST c) by lra. apply Rdiv_lt_0_compat; repeat (assumption || apply Rmult_lt_0_compat). }
  assert (SH : 0 < (1 - exp (- k)) / k < 1) by (exact (proj2 (log_mean 1 k ltac:(lra) Hk))).
  exists v, ((1 - exp (- k)) / k). split; [exact GV|]. split; [exact SH|]. split; [|exact Hh].
  unfold removed, net_heat. destruct (Nat.eqb_spec (c_total c) 1) as [|_]; [contradiction|].
  fold v. rewrite nusselt_fixed. fold wall.
  assert (FE : 51 / 100 * Rpower (v * c_diameter c / c_nu c) (5 / 10) * Rpower (c_Pr c) (36 / 100) * Rpower (c_Pr c / c_Pr_w c wall) (25 / 100) * c_K c / c_diameter c = h).
  { unfold h, film. replace (5 / 10) with (1 / 2) by field. reflexivity. }
  rewrite FE.
  replace (- PI * c_diameter c * (c_Nn c * c_Np c) * h / (c_rho c * c_flow c * c_Nn c * c_ST c * c_Cp_fluid c)) with (- k) by (unfold k, Rdiv; ring).
  destruct (Req_EM_T (wall - c_ambient c i) 0) as [Z|Z]; [rewrite Z; ring|].
  rewrite (proj1 (log_mean (wall - c_ambient c i) k Z Hk)). fold h. ring.
Qed.
(** the faster-flow correlation is never used, whatever the Reynolds number *)
Theorem C52_fast_refuted : forall c Re, nusselt_constants c Re = (51 / 100, 5 / 10).
Proof. exact nusselt_fixed. Qed.
Example C52_case : let c := some_cooling (fun _ _ => 0) in sound_cooling c /\ removed c (fun _ => 5) 0%nat = 0 /\ net_generated_heat 3 c (fun _ => 5) 0%nat = 300.
Proof.
  intro c. split; [|split].
  - constructor; cbn; lra.
  - rewrite C52_single by reflexivity. cbn. ring.
  - unfold net_generated_heat. replace (mulv 3 (c_int c) _ 0) with 0 by (unfold mulv; cbn; ring). cbn [c some_cooling c_Tpack c_ambient]. ltb; lra.
Qed.

Example C52_pack_case : exists c, sound_cooling c /\ (c_total c <> 1)%nat /\ c_ambient c 0%nat < c_Tpack c 0%nat.
Proof.
  exists (Cooling 10 1 1 1 (fun _ => 300) (fun _ => 320) (fun _ => 320) 1 1 1 6 3 2 3 2 1 1 1 1 1 1 (fun _ => 1) (fun _ _ => 0)).
  split; [constructor; cbn; lra|]. cbn. split; [lia|lra].
Qed.
Print Assumptions C41_charge.
Print Assumptions C41_balance.
Print Assumptions C41_full.
Print Assumptions C41_over_refuted.
Print Assumptions C41_empty_refuted.
Print Assumptions C41_voltage.
Print Assumptions C41_full_voltage.
Print Assumptions C41_losses.
Print Assumptions C41_load.
Print Assumptions C41_throughput.
Print Assumptions C41_heat.
Print Assumptions C41_nmc_charge.
Print Assumptions C41_nmc_balance.
Print Assumptions C41_nmc_full.
Print Assumptions C41_nmc_losses.
Print Assumptions C41_nmc_losses_refuted.
Print Assumptions C41_nmc_voltage.
Print Assumptions C41_nmc_throughput.
Print Assumptions C41_nmc_throughput_refuted.
Print Assumptions C42_irreversible.
Print Assumptions C42_day.
Print Assumptions C42_worst.
Print Assumptions C42_gentle.
Print Assumptions C42_costs.
Print Assumptions C42_positive_refuted.
Print Assumptions C43_meets.
Print Assumptions C43_least.
Print Assumptions C43_scales.
Print Assumptions C43_soft_refuted.
Print Assumptions C43_ragone.
Print Assumptions C43_ragone_best.
Print Assumptions C43_ragone_optimum.
Print Assumptions C43_cells.
Print Assumptions C43_cells_refuted.
Print Assumptions C43_circuit.
Print Assumptions C43_again.
Print Assumptions C52_ambient.
Print Assumptions C52_balance.
Print Assumptions C52_single.
Print Assumptions C52_pack.
Print Assumptions C52_fast_refuted.
