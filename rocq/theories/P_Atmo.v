(** * Atmosphere: proofs *)
From Coq Require Import Reals List Bool Lra Lia Sorted.
From Verif Require Import M_Opt P_Opt M_Atmo S_Atmo.
Import ListNotations.
Local Open Scope R_scope.
Local Open Scope list_scope.

(** ** the clamp *)
Definition clamp (lo hi z : R) : R := Rmin hi (Rmax lo z).
Lemma clamp_rows_pointwise : forall lo hi zs, lo < hi -> clamp_rows lo hi zs = map (clamp lo hi) zs.
Proof.
  intros lo hi zs H. unfold clamp_rows.
  assert (E1 : (if existsb (fun z => Rltb z lo) zs then map (fun z => if Rltb z lo then lo else z) zs else zs)
               = map (Rmax lo) zs).
  { destruct (existsb (fun z => Rltb z lo) zs) eqn:E.
    - apply map_ext. intro z. destruct (Rltb z lo) eqn:F.
      + apply Rltb_true in F. rewrite Rmax_left; lra.
      + apply Rltb_false in F. rewrite Rmax_right; lra.
    - transitivity (map (fun z => z) zs); [symmetry; apply map_id|].
      apply map_ext_in. intros z Hz.
      assert (F : Rltb z lo = false).
      { destruct (Rltb z lo) eqn:G; [|reflexivity].
        rewrite <- E. symmetry. apply existsb_exists. exists z. auto. }
      apply Rltb_false in F. rewrite Rmax_right; lra. }
  rewrite E1. clear E1.
  destruct (existsb (fun z => Rltb hi z) (map (Rmax lo) zs)) eqn:E.
  - rewrite map_map. apply map_ext. intro z. unfold clamp. destruct (Rltb hi (Rmax lo z)) eqn:F.
    + apply Rltb_true in F. rewrite Rmin_left; lra.
    + apply Rltb_false in F. rewrite Rmin_right; lra.
  - apply map_ext_in. intros z Hz. unfold clamp.
    assert (F : Rltb hi (Rmax lo z) = false).
    { destruct (Rltb hi (Rmax lo z)) eqn:G; [|reflexivity].
      rewrite <- E. symmetry. apply existsb_exists. exists (Rmax lo z). split; [apply in_map; assumption|assumption]. }
    apply Rltb_false in F. rewrite Rmin_right; lra.
Qed.
Lemma clamp_range : forall lo hi z, lo < hi -> lo <= clamp lo hi z <= hi.
Proof. intros. unfold clamp. split; [apply Rmin_glb; [lra|apply Rmax_l]|apply Rmin_l]. Qed.
Lemma clamp_in : forall lo hi z, lo <= z <= hi -> clamp lo hi z = z.
Proof. intros. unfold clamp. rewrite Rmax_right by lra. apply Rmin_right; lra. Qed.
Lemma clamp_low : forall lo hi z, lo < hi -> z <= lo -> clamp lo hi z = lo.
Proof. intros. unfold clamp. rewrite Rmax_left by lra. apply Rmin_right; lra. Qed.
Lemma clamp_high : forall lo hi z, lo < hi -> hi <= z -> clamp lo hi z = hi.
Proof. intros. unfold clamp. rewrite Rmax_right by lra. apply Rmin_left; lra. Qed.
Lemma clamp_le : forall lo hi x y, x <= y -> clamp lo hi x <= clamp lo hi y.
Proof. intros. unfold clamp. apply Rle_min_compat_l, Rle_max_compat_l; assumption. Qed.

(** ** table facts *)
Lemma sensible_range : forall a, sensible a -> lowest a < highest a.
Proof.
  intros a S. destruct (sn_two a S) as (x & y & rest & E). pose proof (sn_up a S) as U.
  unfold lowest, highest. rewrite E in *. inversion U; subst.
  rewrite Forall_forall in H2. apply H2.
  change (last (x :: y :: rest) (Brk 0 0 0)) with (last (y :: rest) (Brk 0 0 0)).
  clear. revert y. induction rest as [|z rest IH]; intro y; [left; reflexivity|].
  right. apply (IH z).
Qed.
Lemma value_at_geo : forall a d vg h, sensible a ->
  value_at a d vg h = at_geopotential a d vg (clamp (lowest a) (highest a) (geopotential (a_rad a) h)).
Proof.
  intros a d vg h S. unfold value_at, compute_values.
  rewrite clamp_rows_pointwise by (apply sensible_range, S). reflexivity.
Qed.
Lemma constant_value_geo : forall a T h, sensible a ->
  constant_value a T h = constant_at a T (clamp (lowest a) (highest a) (geopotential (a_rad a) h)).
Proof.
  intros a d h S. unfold constant_value, constant_values.
  rewrite clamp_rows_pointwise by (apply sensible_range, S). reflexivity.
Qed.

Section Layers.
  (** both atmospheres run the same loop *)
  Variable mk : brk -> brk -> layer_data.
  Definition enter_gen (z : R) (s : layer_data) (lo hi : brk) : layer_data :=
    if negb (Rltb z (bz lo)) && negb (Rltb (bz hi) z) then mk lo hi else s.
  Fixpoint layers_gen (z : R) (s : layer_data) (bs : list brk) : layer_data :=
    match bs with
    | lo :: rest => match rest with hi :: _ => layers_gen z (enter_gen z s lo hi) rest | [] => s end
    | [] => s
    end.
  Let up := fun x y => bz x < bz y.
  Lemma layers_below : forall bs z s b, StronglySorted up (b :: bs) -> z < bz b -> layers_gen z s (b :: bs) = s.
  Proof.
    induction bs as [|c bs IH]; intros z s b U H; [reflexivity|].
    change (layers_gen z (enter_gen z s b c) (c :: bs) = s).
    inversion U; subst. inversion H3; subst. unfold up in H4.
    rewrite IH; [|assumption|lra].
    unfold enter_gen. rewrite (proj2 (Rltb_true z (bz b))) by assumption. reflexivity.
  Qed.
  Lemma layers_found : forall before lo hi behind z s,
    StronglySorted up (before ++ lo :: hi :: behind) ->
    bz lo <= z -> z < bz hi \/ (z = bz hi /\ behind = []) ->
    layers_gen z s (before ++ lo :: hi :: behind) = mk lo hi.
  Proof.
    induction before as [|b before IH]; intros lo hi behind z s U L H.
    - cbn [app].
      change (layers_gen z (enter_gen z s lo hi) (hi :: behind) = mk lo hi).
      assert (E : enter_gen z s lo hi = mk lo hi).
      { unfold enter_gen. rewrite (proj2 (Rltb_false z (bz lo))) by lra.
        rewrite (proj2 (Rltb_false (bz hi) z)) by (destruct H; lra). reflexivity. }
      rewrite E. destruct H as [H|[H ->]]; [|reflexivity].
      apply layers_below; [|assumption]. cbn in U. inversion U; assumption.
    - cbn [app] in *. inversion U; subst.
      assert (Q : exists c more, before ++ lo :: hi :: behind = c :: more) by (destruct before; eexists; eexists; reflexivity).
      destruct Q as (c & more & Q).
      assert (G : forall t, layers_gen z t (before ++ lo :: hi :: behind) = mk lo hi) by (intro; apply IH; assumption).
      rewrite Q in *. change (layers_gen z (enter_gen z s b c) (c :: more) = mk lo hi). apply G.
  Qed.
End Layers.
Definition mk76 (lo hi : brk) := Layer (bz lo) (bT lo) (bp lo) (- (bT hi - bT lo) / (bz hi - bz lo)).
Definition mkC (T : R) (lo hi : brk) := Layer (bz lo) T (bp lo) (- (T - T) / (bz hi - bz lo)).
Lemma layers_is_gen : forall bs z s, layers z s bs = layers_gen mk76 z s bs.
Proof.
  induction bs as [|b bs IH]; intros z s; [reflexivity|]. destruct bs as [|c bs]; [reflexivity|].
  change (layers z (enter z s b c) (c :: bs) = layers_gen mk76 z (enter_gen mk76 z s b c) (c :: bs)). apply IH.
Qed.
Lemma layers_constant_is_gen : forall bs T z s, layers_constant z T s bs = layers_gen (mkC T) z s bs.
Proof.
  induction bs as [|b bs IH]; intros T z s; [reflexivity|]. destruct bs as [|c bs]; [reflexivity|].
  change (layers_constant z T (enter_constant z T s b c) (c :: bs) = layers_gen (mkC T) z (enter_gen (mkC T) z s b c) (c :: bs)). apply IH.
Qed.

(** the loop takes the values of the layer the altitude is in; at a break the upper one *)
Definition picks (a : atmosphere) (lo hi : brk) (z : R) : Prop :=
  bz lo <= z /\ (z < bz hi \/ (z = bz hi /\ z = highest a)).
Lemma highest_last : forall before lo hi behind,
  StronglySorted (fun x y => bz x < bz y) (before ++ lo :: hi :: behind) ->
  bz hi = bz (last (before ++ lo :: hi :: behind) (Brk 0 0 0)) -> behind = [].
Proof.
  intros before lo hi behind U E.
  replace (before ++ lo :: hi :: behind) with ((before ++ [lo]) ++ hi :: behind) in * by (rewrite <- app_assoc; reflexivity).
  destruct behind as [|b behind]; [reflexivity|exfalso].
  assert (I : In (last ((before ++ [lo]) ++ hi :: b :: behind) (Brk 0 0 0)) (b :: behind)).
  { clear. induction (before ++ [lo]) as [|c l IH].
    - cbn [app]. change (In (last (b :: behind) (Brk 0 0 0)) (b :: behind)).
      generalize b as c. induction behind as [|d l IH]; intro c; [left; reflexivity|right; apply (IH d)].
    - cbn [app]. destruct (l ++ hi :: b :: behind) eqn:E; [destruct l; discriminate|]. exact IH. }
  assert (V : StronglySorted (fun x y => bz x < bz y) (hi :: b :: behind)).
  { clear -U. induction (before ++ [lo]) as [|c l IH]; [exact U|]. inversion U; subst. apply IH. assumption. }
  inversion V; subst. rewrite Forall_forall in H2. specialize (H2 _ I). lra.
Qed.
Lemma layers_pick : forall a lo hi z s mk, sensible a -> layer a lo hi -> picks a lo hi z ->
  layers_gen mk z s (a_breaks a) = mk lo hi.
Proof.
  intros a lo hi z s mk S (before & behind & E) (H1 & H2).
  pose proof (sn_up a S) as U. rewrite E in *. apply layers_found; [assumption|assumption|].
  destruct H2 as [H2|[H2 H3]]; [left; assumption|right; split; [assumption|]].
  apply (highest_last before lo hi behind U).
  unfold highest in H3. rewrite E in H3. lra.
Qed.
Lemma layer_ordered : forall a lo hi, sensible a -> layer a lo hi -> bz lo < bz hi.
Proof.
  intros a lo hi S (before & behind & E). pose proof (sn_up a S) as U. rewrite E in U. clear E S.
  induction before as [|c l IH]; [inversion U; inversion H2; assumption|]. inversion U; subst. apply IH. assumption.
Qed.
Lemma layer_pos : forall a lo hi, sensible a -> layer a lo hi -> 0 < bT lo /\ 0 < bT hi /\ 0 < bp lo /\ 0 < bp hi.
Proof.
  intros a lo hi S (before & behind & E). pose proof (sn_T a S) as U. pose proof (sn_p a S) as V. rewrite E in *.
  rewrite Forall_forall in U, V.
  repeat split; (apply U || apply V); apply in_or_app; right; cbn; auto.
Qed.
Lemma layer_within : forall a lo hi, sensible a -> layer a lo hi -> lowest a <= bz lo /\ bz hi <= highest a.
Proof.
  intros a lo hi S (before & behind & E). pose proof (sn_up a S) as U. unfold lowest, highest. rewrite E in *. clear E.
  split.
  - destruct before as [|c l]; [cbn; lra|]. cbn [app]. cbn [app] in U. inversion U; subst.
    rewrite Forall_forall in H2. left. apply H2. apply in_or_app. right. left. reflexivity.
  - replace (before ++ lo :: hi :: behind) with ((before ++ [lo]) ++ hi :: behind) in * by (rewrite <- app_assoc; reflexivity).
    assert (L : last ((before ++ [lo]) ++ hi :: behind) (Brk 0 0 0) = last (hi :: behind) (Brk 0 0 0)).
    { clear. induction (before ++ [lo]) as [|c l IH]; [reflexivity|]. cbn [app].
      destruct (l ++ hi :: behind) eqn:E; [destruct l; discriminate|]. exact IH. }
    rewrite L.
    assert (V : StronglySorted (fun x y => bz x < bz y) (hi :: behind)).
    { clear -U. induction (before ++ [lo]) as [|c l IH]; [exact U|]. inversion U; subst. apply IH. assumption. }
    destruct behind as [|b behind]; [cbn; lra|].
    inversion V; subst. rewrite Forall_forall in H2. left. apply H2.
    change (In (last (b :: behind) (Brk 0 0 0)) (b :: behind)).
    clear. revert b. induction behind as [|d l IH]; intro c; [left; reflexivity|right; apply (IH d)].
Qed.
(** every altitude of the table is in a layer *)
Lemma covered : forall a z, sensible a -> lowest a <= z <= highest a -> exists lo hi, layer a lo hi /\ picks a lo hi z.
Proof.
  intros a z S H. destruct (sn_two a S) as (x & y & rest & E). pose proof (sn_up a S) as U.
  unfold layer, picks. unfold lowest, highest in *. rewrite E in *. clear E S.
  revert x y U H. induction rest as [|w rest IH]; intros x y U H.
  - exists x, y. split; [exists [], []; reflexivity|]. cbn in H |- *. lra.
  - destruct (Rlt_le_dec z (bz y)) as [L|L].
    + exists x, y. split; [exists [], (w :: rest); reflexivity|]. split; [exact (proj1 H)|left; assumption].
    + inversion U; subst. destruct (IH y w H2) as (lo & hi & (b1 & b2 & E) & Q1 & Q2).
      { split; [assumption|]. exact (proj2 H). }
      exists lo, hi. split; [exists (x :: b1), b2; rewrite E; reflexivity|]. split; [assumption|exact Q2].
Qed.
(** neighbours *)
Lemma layer_next : forall a lo hi, sensible a -> layer a lo hi -> bz hi < highest a -> exists hi', layer a hi hi'.
Proof.
  intros a lo hi S (before & behind & E) H.
  destruct behind as [|b behind].
  - exfalso. unfold highest in H. rewrite E in H.
    assert (last (before ++ [lo; hi]) (Brk 0 0 0) = hi).
    { clear. induction before as [|c l IH]; [reflexivity|]. cbn [app].
      destruct (l ++ [lo; hi]) eqn:E; [destruct l; discriminate|]. exact IH. }
    rewrite H0 in H. lra.
  - exists b, (before ++ [lo]), behind. rewrite E, <- app_assoc. reflexivity.
Qed.

(** ** values in a layer *)
Lemma at_geo_in : forall a d vg lo hi z, sensible a -> layer a lo hi -> picks a lo hi z ->
  pressure (at_geopotential a d vg z) = pressure_in (a_g a) (a_R a) (mk76 lo hi) z
  /\ temperature (at_geopotential a d vg z) = between lo hi z + d.
Proof.
  intros a d vg lo hi z S L P. unfold at_geopotential. rewrite layers_is_gen, (layers_pick a lo hi z _ mk76 S L P).
  cbn [pressure temperature]. split; [reflexivity|]. unfold mk76, between. cbn [l_T0 l_z0 l_alpha].
  pose proof (layer_ordered a lo hi S L). field. lra.
Qed.
Lemma between_lo : forall a lo hi, sensible a -> layer a lo hi -> between lo hi (bz lo) = bT lo.
Proof. intros a lo hi S L. unfold between. pose proof (layer_ordered a lo hi S L). field. lra. Qed.
Lemma between_hi : forall a lo hi, sensible a -> layer a lo hi -> between lo hi (bz hi) = bT hi.
Proof. intros a lo hi S L. unfold between. pose proof (layer_ordered a lo hi S L). field. lra. Qed.
Lemma between_bounds : forall a lo hi z, sensible a -> layer a lo hi -> bz lo <= z <= bz hi ->
  Rmin (bT lo) (bT hi) <= between lo hi z <= Rmax (bT lo) (bT hi).
Proof.
  intros a lo hi z S L H. unfold between. pose proof (layer_ordered a lo hi S L) as O.
  set (t := (z - bz lo) / (bz hi - bz lo)).
  assert (0 <= t <= 1).
  { unfold t. split.
    - apply Rmult_le_pos; [lra|]. left. apply Rinv_0_lt_compat. lra.
    - apply Rmult_le_reg_r with (bz hi - bz lo); [lra|]. unfold Rdiv. rewrite Rmult_assoc, Rinv_l; lra. }
  pose proof (Rmin_l (bT lo) (bT hi)). pose proof (Rmin_r (bT lo) (bT hi)).
  pose proof (Rmax_l (bT lo) (bT hi)). pose proof (Rmax_r (bT lo) (bT hi)).
  split; nra.
Qed.
Lemma between_pos : forall a lo hi z, sensible a -> layer a lo hi -> bz lo <= z <= bz hi -> 0 < between lo hi z.
Proof.
  intros a lo hi z S L H. destruct (between_bounds a lo hi z S L H) as [B _].
  destruct (layer_pos a lo hi S L) as (P & Q & _). unfold Rmin in B. destruct (Rle_dec (bT lo) (bT hi)); lra.
Qed.
(** temperature on closed layers *)
Lemma temperature_layer : forall a d vg lo hi z, sensible a -> layer a lo hi -> bz lo <= z <= bz hi ->
  temperature (at_geopotential a d vg z) = between lo hi z + d.
Proof.
  intros a d vg lo hi z S L [H1 H2].
  destruct (Rlt_le_dec z (bz hi)) as [Q|Q].
  - apply at_geo_in; [assumption|assumption|]. split; [assumption|left; assumption].
  - assert (z = bz hi) by lra. subst z.
    destruct (layer_within a lo hi S L) as [_ W].
    destruct (Rlt_le_dec (bz hi) (highest a)) as [V|V].
    + destruct (layer_next a lo hi S L V) as (hi' & L').
      pose proof (layer_ordered a hi hi' S L').
      rewrite (proj2 (at_geo_in a d vg hi hi' (bz hi) S L' (conj (Rle_refl _) (or_introl H)))).
      rewrite (between_lo a hi hi' S L'), (between_hi a lo hi S L). reflexivity.
    + apply at_geo_in; [assumption|assumption|]. split; [assumption|right; lra].
Qed.

(** ** pressure *)
Lemma Rpower_1_l : forall y, Rpower 1 y = 1.
Proof. intro y. unfold Rpower. rewrite ln_1, Rmult_0_r. apply exp_0. Qed.
Lemma pressure_base : forall g Rg lo hi, 0 < bT lo -> pressure_in g Rg (mk76 lo hi) (bz lo) = bp lo.
Proof.
  intros g Rg lo hi T. unfold pressure_in, mk76. cbn [l_z0 l_T0 l_p0 l_alpha].
  destruct (Req_EM_T _ 0) as [E|E].
  - replace (-1 * (bz lo - bz lo) * g / (Rg * bT lo)) with 0 by (unfold Rdiv; ring). rewrite exp_0. ring.
  - replace (1 - _ * (bz lo - bz lo) / bT lo) with 1 by (unfold Rdiv; ring). rewrite Rpower_1_l. ring.
Qed.
Lemma pressure_pos : forall g Rg s z, 0 < l_p0 s -> 0 < pressure_in g Rg s z.
Proof.
  intros. unfold pressure_in. destruct (Req_EM_T _ 0); apply Rmult_lt_0_compat; try assumption; [apply exp_pos|apply exp_pos].
Qed.
Lemma mk_alpha : forall a lo hi, sensible a -> layer a lo hi ->
  forall z, bT lo - l_alpha (mk76 lo hi) * (z - bz lo) = between lo hi z.
Proof.
  intros a lo hi S L z. unfold mk76, between. cbn [l_alpha]. pose proof (layer_ordered a lo hi S L). field. lra.
Qed.
Lemma derivable_local : forall f g x l (r : posreal), (forall y, Rabs (y - x) < r -> f y = g y) ->
  derivable_pt_lim g x l -> derivable_pt_lim f x l.
Proof.
  intros f g x l r E D eps He. destruct (D eps He) as (d & Hd).
  assert (P : 0 < Rmin d r) by (apply Rmin_pos; [apply cond_pos|apply cond_pos]).
  exists (mkposreal _ P). intros h H0 Hh. cbn in Hh.
  rewrite !E.
  - apply Hd; [assumption|]. pose proof (Rmin_l d r). lra.
  - rewrite Rminus_diag_eq by reflexivity. rewrite Rabs_R0. apply cond_pos.
  - replace (x + h - x) with h by ring. pose proof (Rmin_r d r). lra.
Qed.
Lemma exp_of : forall f x l, derivable_pt_lim f x l -> derivable_pt_lim (fun y => exp (f y)) x (exp (f x) * l).
Proof. intros. apply (derivable_pt_lim_comp f exp); [assumption|apply derivable_pt_lim_exp]. Qed.
Lemma ln_of : forall f x l, 0 < f x -> derivable_pt_lim f x l -> derivable_pt_lim (fun y => ln (f y)) x (/ f x * l).
Proof. intros. apply (derivable_pt_lim_comp f ln); [assumption|apply derivable_pt_lim_ln; assumption]. Qed.
Lemma scale_of : forall c f x l, derivable_pt_lim f x l -> derivable_pt_lim (fun y => c * f y) x (c * l).
Proof. intros. apply (derivable_pt_lim_scal f c x l). assumption. Qed.
Lemma affine_of : forall a b x, derivable_pt_lim (fun y => a + b * y) x b.
Proof.
  intros a b x. assert (D : derivable_pt_lim (fun y => a + b * y) x (0 + b * 1)).
  { apply (derivable_pt_lim_plus (fun _ => a) (fun y => b * y)); [apply derivable_pt_lim_const|].
    apply scale_of. apply derivable_pt_lim_id. }
  replace (0 + b * 1) with b in D by ring. exact D.
Qed.
Lemma ext_of : forall f g x l, (forall y, f y = g y) -> derivable_pt_lim g x l -> derivable_pt_lim f x l.
Proof. intros. apply derivable_local with g (mkposreal 1 Rlt_0_1); [auto|assumption]. Qed.

Lemma slope_eq : forall f x l l', derivable_pt_lim f x l -> l = l' -> derivable_pt_lim f x l'.
Proof. intros; subst; assumption. Qed.

Lemma pressure_slope : forall a lo hi z, sensible a -> layer a lo hi -> bz lo <= z <= bz hi ->
  derivable_pt_lim (pressure_in (a_g a) (a_R a) (mk76 lo hi)) z
    (- (a_g a * pressure_in (a_g a) (a_R a) (mk76 lo hi) z / (a_R a * between lo hi z))).
Proof.
  intros a lo hi z S L H. pose proof (sn_R a S) as HR. pose proof (sn_g a S) as Hg.
  destruct (layer_pos a lo hi S L) as (T1 & T2 & _). pose proof (between_pos a lo hi z S L H) as TB.
  pose proof (mk_alpha a lo hi S L) as MA.
  set (al := l_alpha (mk76 lo hi)) in *.
  destruct (Req_EM_T al 0) as [E|E].
  - assert (B : between lo hi z = bT lo) by (rewrite <- MA, E; ring). rewrite B.
    assert (F : forall y, pressure_in (a_g a) (a_R a) (mk76 lo hi) y
                = bp lo * exp (bz lo * a_g a / (a_R a * bT lo) + - (a_g a / (a_R a * bT lo)) * y)).
    { intro y. unfold pressure_in. fold al. destruct (Req_EM_T al 0); [|contradiction]. cbn [mk76 l_z0 l_p0 l_T0].
      f_equal. f_equal. field. lra. }
    rewrite F.
    apply ext_of with (fun y => bp lo * exp (bz lo * a_g a / (a_R a * bT lo) + - (a_g a / (a_R a * bT lo)) * y)); [exact F|].
    eapply slope_eq; [apply scale_of; apply (exp_of (fun y => bz lo * a_g a / (a_R a * bT lo) + - (a_g a / (a_R a * bT lo)) * y)); apply affine_of|].
    cbv beta. field. lra.
  - set (k := a_g a / (al * a_R a)).
    assert (F : forall y, pressure_in (a_g a) (a_R a) (mk76 lo hi) y
                = bp lo * exp (k * ln ((1 + al * bz lo / bT lo) + - (al / bT lo) * y))).
    { intro y. unfold pressure_in. fold al. destruct (Req_EM_T al 0); [contradiction|]. cbn [mk76 l_z0 l_p0 l_T0].
      unfold Rpower. fold al. f_equal. f_equal. unfold k. f_equal; [field; split; lra|]. f_equal. field. lra. }
    assert (U : (1 + al * bz lo / bT lo) + - (al / bT lo) * z = between lo hi z / bT lo).
    { rewrite <- MA. field. lra. }
    assert (UP : 0 < between lo hi z / bT lo) by (apply Rdiv_lt_0_compat; assumption).
    rewrite F.
    apply ext_of with (fun y => bp lo * exp (k * ln ((1 + al * bz lo / bT lo) + - (al / bT lo) * y))); [exact F|].
    eapply slope_eq.
    + apply scale_of. apply (exp_of (fun y => k * ln ((1 + al * bz lo / bT lo) + - (al / bT lo) * y))).
      apply scale_of. apply (ln_of (fun y => (1 + al * bz lo / bT lo) + - (al / bT lo) * y)); [rewrite U; assumption|].
      apply affine_of.
    + cbv beta. rewrite U. unfold k. field. repeat split; lra.
Qed.
Lemma pressure_down : forall a lo hi x y, sensible a -> layer a lo hi -> bz lo <= x -> x < y -> y <= bz hi ->
  pressure_in (a_g a) (a_R a) (mk76 lo hi) y < pressure_in (a_g a) (a_R a) (mk76 lo hi) x.
Proof.
  intros a lo hi x y S L H1 H2 H3.
  set (f := pressure_in (a_g a) (a_R a) (mk76 lo hi)).
  set (f' := fun z => - (a_g a * f z / (a_R a * between lo hi z))).
  destruct (MVT_cor2 f f' x y H2) as (c & E & C1 & C2).
  { intros c C. apply pressure_slope; [assumption|assumption|lra]. }
  assert (f' c < 0).
  { unfold f'. pose proof (sn_R a S). pose proof (sn_g a S).
    assert (0 < f c) by (apply pressure_pos; cbn; apply (layer_pos a lo hi S L)).
    assert (0 < between lo hi c) by (apply (between_pos a lo hi c S L); lra).
    assert (0 < a_g a * f c / (a_R a * between lo hi c)); [|lra].
    apply Rdiv_lt_0_compat; apply Rmult_lt_0_compat; assumption. }
  assert (f' c * (y - x) < 0) by nra. lra.
Qed.

(** ** geopotential altitude *)
Lemma geopotential_alt : forall rad h, 0 < rad -> - rad < h -> geopotential rad h = rad * h / (rad + h).
Proof. intros. unfold geopotential. field. split; lra. Qed.
Lemma geopotential_up : forall rad x y, 0 < rad -> - rad < x -> x < y -> geopotential rad x < geopotential rad y.
Proof.
  intros rad x y P H1 H2. rewrite !geopotential_alt by lra.
  assert (E : rad * y / (rad + y) - rad * x / (rad + x) = rad * rad * (y - x) / ((rad + x) * (rad + y))) by (field; lra).
  assert (0 < rad * rad * (y - x) / ((rad + x) * (rad + y))).
  { apply Rdiv_lt_0_compat; [|apply Rmult_lt_0_compat; lra]. apply Rmult_lt_0_compat; [apply Rmult_lt_0_compat; lra|lra]. }
  lra.
Qed.
Lemma geopotential_inverse : forall a z, 0 < a_rad a -> z < a_rad a ->
  geopotential (a_rad a) (altitude_of a z) = z /\ - a_rad a < altitude_of a z.
Proof.
  intros a z P H. unfold altitude_of.
  assert (E : z / (1 - z / a_rad a) = a_rad a * z / (a_rad a - z)) by (field; lra). rewrite E.
  assert (B : - a_rad a < a_rad a * z / (a_rad a - z)).
  { assert (Q : a_rad a * z / (a_rad a - z) + a_rad a = a_rad a * a_rad a / (a_rad a - z)) by (field; lra).
    assert (0 < a_rad a * a_rad a / (a_rad a - z)) by (apply Rdiv_lt_0_compat; [apply Rmult_lt_0_compat|]; lra). lra. }
  split; [|exact B]. rewrite geopotential_alt by assumption. field. split; [lra|].
  assert (E2 : a_rad a * (a_rad a - z) + a_rad a * z = a_rad a * a_rad a) by ring.
  rewrite E2. assert (0 < a_rad a * a_rad a) by (apply Rmult_lt_0_compat; assumption). lra.
Qed.
Lemma geopotential_slope : forall rad h, 0 < rad -> - rad < h ->
  derivable_pt_lim (geopotential rad) h ((rad / (rad + h)) ^ 2).
Proof.
  intros rad h P H.
  assert (R0 : 0 < rad + h) by lra.
  apply derivable_local with (fun y => rad + - (rad * rad) * / (rad + 1 * y)) (mkposreal _ R0).
  - intros y Hy. cbn in Hy. apply Rabs_def2 in Hy. rewrite geopotential_alt by lra. field. lra.
  - eapply slope_eq.
    + apply (derivable_pt_lim_plus (fun _ => rad) (fun y => - (rad * rad) * / (rad + 1 * y))); [apply derivable_pt_lim_const|].
      apply scale_of.
      apply ext_of with (div_fct (fct_cte 1) (fun y => rad + 1 * y)).
      * intro y. unfold div_fct, fct_cte. unfold Rdiv. ring.
      * apply derivable_pt_lim_div; [apply derivable_pt_lim_const|apply affine_of|lra].
    + unfold fct_cte, Rsqr. field. lra.
Qed.

(** ** continuity of the temperature *)
Definition interpolates (bs : list brk) (f : R -> R) : Prop :=
  forall before lo hi behind z, bs = before ++ lo :: hi :: behind -> bz lo <= z <= bz hi -> f z = between lo hi z.
Lemma interpolates_lipschitz : forall bs x y f, StronglySorted (fun x y => bz x < bz y) (x :: y :: bs) ->
  interpolates (x :: y :: bs) f ->
  exists K, 0 <= K /\ forall u v, bz x <= u -> u <= v -> v <= bz (last (x :: y :: bs) (Brk 0 0 0)) -> Rabs (f v - f u) <= K * (v - u).
Proof.
  induction bs as [|w bs IH]; intros x y f U I.
  - assert (O : bz x < bz y) by (inversion U; inversion H2; assumption).
    exists (Rabs ((bT y - bT x) / (bz y - bz x))). split; [apply Rabs_pos|].
    intros u v H1 H2 H3. cbn in H3.
    rewrite (I [] x y [] u eq_refl), (I [] x y [] v eq_refl) by lra.
    replace (between x y v - between x y u) with ((bT y - bT x) / (bz y - bz x) * (v - u)) by (unfold between; field; lra).
    rewrite Rabs_mult, (Rabs_right (v - u)) by lra. lra.
  - assert (O : bz x < bz y) by (inversion U; inversion H2; assumption).
    destruct (IH y w f) as (K & K0 & HK).
    { inversion U; assumption. }
    { intros before lo hi behind z E Hz. apply (I (x :: before) lo hi behind); [rewrite E; reflexivity|assumption]. }
    set (k := Rabs ((bT y - bT x) / (bz y - bz x))).
    assert (k0 : 0 <= k) by apply Rabs_pos.
    assert (A : forall u v, bz x <= u -> u <= v -> v <= bz y -> Rabs (f v - f u) <= k * (v - u)).
    { intros u v H1 H2 H3. rewrite (I [] x y (w :: bs) u eq_refl), (I [] x y (w :: bs) v eq_refl) by lra.
      replace (between x y v - between x y u) with ((bT y - bT x) / (bz y - bz x) * (v - u)) by (unfold between; field; lra).
      rewrite Rabs_mult, (Rabs_right (v - u)) by lra. fold k. lra. }
    exists (k + K). split; [lra|]. intros u v H1 H2 H3.
    change (last (x :: y :: w :: bs) (Brk 0 0 0)) with (last (y :: w :: bs) (Brk 0 0 0)) in H3.
    destruct (Rle_lt_dec v (bz y)) as [V|V].
    + specialize (A u v H1 H2 V). nra.
    + destruct (Rle_lt_dec (bz y) u) as [W|W].
      * specialize (HK u v W H2 H3). nra.
      * assert (Q1 := A u (bz y) H1 (Rlt_le _ _ W) (Rle_refl _)).
        assert (Q2 := HK (bz y) v (Rle_refl _) (Rlt_le _ _ V) H3).
        replace (f v - f u) with ((f v - f (bz y)) + (f (bz y) - f u)) by ring.
        pose proof (Rabs_triang (f v - f (bz y)) (f (bz y) - f u)). nra.
Qed.
Lemma temperature_lipschitz : forall a d vg, sensible a -> exists K, 0 <= K /\
  forall u v, lowest a <= u -> u <= v -> v <= highest a ->
  Rabs (temperature (at_geopotential a d vg v) - temperature (at_geopotential a d vg u)) <= K * (v - u).
Proof.
  intros a d vg S. destruct (sn_two a S) as (x & y & rest & E). pose proof (sn_up a S) as U.
  destruct (interpolates_lipschitz rest x y (fun z => temperature (at_geopotential a d vg z) - d)) as (K & K0 & HK).
  - rewrite <- E. assumption.
  - intros before lo hi behind z E2 Hz. rewrite (temperature_layer a d vg lo hi z S); [ring| |assumption].
    exists before, behind. rewrite E, E2. reflexivity.
  - exists K. split; [assumption|]. intros u v H1 H2 H3. unfold lowest, highest in *. rewrite E in *.
    specialize (HK u v H1 H2 H3). cbv beta in HK.
    replace (temperature (at_geopotential a d vg v) - temperature (at_geopotential a d vg u))
      with (temperature (at_geopotential a d vg v) - d - (temperature (at_geopotential a d vg u) - d)) by ring. exact HK.
Qed.
Lemma clamp_lipschitz : forall lo hi x y, lo < hi -> x <= y -> clamp lo hi y - clamp lo hi x <= y - x.
Proof.
  intros lo hi x y H L. unfold clamp, Rmin, Rmax.
  destruct (Rle_dec lo x), (Rle_dec lo y);
  repeat match goal with |- context [Rle_dec ?a ?b] => destruct (Rle_dec a b) end; lra.
Qed.
Lemma temperature_steady : forall a d vg, sensible a -> exists K, 0 <= K /\
  forall u v, let c := fun z => temperature (at_geopotential a d vg (clamp (lowest a) (highest a) z)) in
  Rabs (c v - c u) <= K * Rabs (v - u).
Proof.
  intros a d vg S. destruct (temperature_lipschitz a d vg S) as (K & K0 & HK). exists K. split; [assumption|].
  pose proof (sensible_range a S) as Rg.
  assert (A : forall u v, u <= v -> Rabs (temperature (at_geopotential a d vg (clamp (lowest a) (highest a) v)) - temperature (at_geopotential a d vg (clamp (lowest a) (highest a) u))) <= K * (v - u)).
  { intros u v H.
    pose proof (clamp_range (lowest a) (highest a) u Rg). pose proof (clamp_range (lowest a) (highest a) v Rg).
    pose proof (clamp_le (lowest a) (highest a) u v H). pose proof (clamp_lipschitz (lowest a) (highest a) u v Rg H).
    eapply Rle_trans; [apply HK; lra|]. apply Rmult_le_compat_l; lra. }
  intros u v c. unfold c. destruct (Rle_lt_dec u v) as [H|H].
  - rewrite (Rabs_right (v - u)) by lra. apply A. assumption.
  - rewrite Rabs_minus_sym, (Rabs_minus_sym v u), (Rabs_right (u - v)) by lra. apply A. lra.
Qed.
Lemma temperature_continuous : forall a d vg h, sensible a -> - a_rad a < h ->
  continuity_pt (fun h => temperature (value_at a d vg h)) h.
Proof.
  intros a d vg h S H. destruct (temperature_steady a d vg S) as (K & K0 & HK).
  assert (C : continuity_pt (geopotential (a_rad a)) h).
  { apply derivable_continuous_pt. exists ((a_rad a / (a_rad a + h)) ^ 2). apply geopotential_slope; [apply (sn_rad a S)|assumption]. }
  intros eps He. assert (P : 0 < eps / (K + 1)) by (apply Rdiv_lt_0_compat; lra).
  destruct (C _ P) as (del & D0 & D). exists del. split; [assumption|]. intros x Hx. specialize (D x Hx).
  cbn in D |- *. unfold R_dist in *. rewrite !value_at_geo by assumption.
  eapply Rle_lt_trans; [apply HK|].
  eapply Rle_lt_trans; [apply Rmult_le_compat_r with (r2 := K + 1); [apply Rabs_pos|lra]|].
  apply Rmult_lt_reg_r with (/ (K + 1)); [apply Rinv_0_lt_compat; lra|].
  replace ((K + 1) * Rabs (geopotential (a_rad a) x - geopotential (a_rad a) h) * / (K + 1)) with (Rabs (geopotential (a_rad a) x - geopotential (a_rad a) h)) by (field; lra). exact D.
Qed.

(** ** lower bounds of exp *)
Lemma exp_partial : forall x n, 0 <= x -> sum_f_R0 (fun i => / INR (fact i) * x ^ i) n <= exp x.
Proof.
  intros x n H. unfold exp. destruct (exist_exp x) as [l E]. cbn. apply sum_incr.
  - exact E.
  - intro k. apply Rmult_le_pos; [left; apply Rinv_0_lt_compat, INR_fact_lt_0|apply pow_le; assumption].
Qed.
Lemma exp_seven : forall x, 0 <= x ->
  1 + x + x ^ 2 / 2 + x ^ 3 / 6 + x ^ 4 / 24 + x ^ 5 / 120 + x ^ 6 / 720 + x ^ 7 / 5040 <= exp x.
Proof.
  intros x H. pose proof (exp_partial x 7 H) as Q. cbn [sum_f_R0] in Q.
  assert (F7 : INR (fact 7) = 5040) by (rewrite INR_IZR_INZ; replace (Z.of_nat (fact 7)) with 5040%Z by (vm_compute; reflexivity); reflexivity).
  assert (F6 : INR (fact 6) = 720) by (rewrite INR_IZR_INZ; replace (Z.of_nat (fact 6)) with 720%Z by (vm_compute; reflexivity); reflexivity).
  assert (F5 : INR (fact 5) = 120) by (rewrite INR_IZR_INZ; replace (Z.of_nat (fact 5)) with 120%Z by (vm_compute; reflexivity); reflexivity).
  assert (F4 : INR (fact 4) = 24) by (rewrite INR_IZR_INZ; replace (Z.of_nat (fact 4)) with 24%Z by (vm_compute; reflexivity); reflexivity).
  assert (F3 : INR (fact 3) = 6) by (rewrite INR_IZR_INZ; replace (Z.of_nat (fact 3)) with 6%Z by (vm_compute; reflexivity); reflexivity).
  assert (F2 : INR (fact 2) = 2) by (rewrite INR_IZR_INZ; replace (Z.of_nat (fact 2)) with 2%Z by (vm_compute; reflexivity); reflexivity).
  assert (F1 : INR (fact 1) = 1) by reflexivity. assert (F0 : INR (fact 0) = 1) by reflexivity.
  rewrite F7, F6, F5, F4, F3, F2, F1, F0 in Q.
  eapply Rle_trans; [|exact Q]. right. field.
Qed.

(** ** air *)
Lemma viscosity_alt : forall T, 0 < T -> absolute_viscosity T = 1458 / 1000000000 * (T / (T + 1104 / 10) * sqrt T).
Proof.
  intros T H. unfold absolute_viscosity. replace (15 / 10) with (1 + / 2) by lra.
  rewrite Rpower_plus, Rpower_1, Rpower_sqrt by assumption. field. lra.
Qed.
Lemma viscosity_pos : forall T, 0 < T -> 0 < absolute_viscosity T.
Proof.
  intros T H. rewrite viscosity_alt by assumption. pose proof (sqrt_lt_R0 T H).
  apply Rmult_lt_0_compat; [lra|]. apply Rmult_lt_0_compat; [|assumption]. apply Rdiv_lt_0_compat; lra.
Qed.
Lemma viscosity_up : forall x y, 0 < x -> x < y -> absolute_viscosity x < absolute_viscosity y.
Proof.
  intros x y H L. rewrite !viscosity_alt by lra. apply Rmult_lt_compat_l; [lra|].
  apply Rmult_gt_0_lt_compat.
  - apply sqrt_lt_R0; assumption.
  - apply Rdiv_lt_0_compat; lra.
  - apply Rmult_lt_reg_r with (x + 1104 / 10); [lra|]. apply Rmult_lt_reg_r with (y + 1104 / 10); [lra|].
    replace (x / (x + 1104 / 10) * (x + 1104 / 10) * (y + 1104 / 10)) with (x * (y + 1104 / 10)) by (field; lra).
    replace (y / (y + 1104 / 10) * (x + 1104 / 10) * (y + 1104 / 10)) with (y * (x + 1104 / 10)) by (field; lra). nra.
  - apply sqrt_lt_1; lra.
Qed.
Lemma conductivity_up : forall x y, x < y -> thermal_conductivity x < thermal_conductivity y.
Proof.
  intros x y L. unfold thermal_conductivity.
  assert (E : 399 / 1000000 + 989 / 10000000 * y - 457 / 10000000000 * y ^ 2 + 14 / 1000000000000 * y ^ 3
     - (399 / 1000000 + 989 / 10000000 * x - 457 / 10000000000 * x ^ 2 + 14 / 1000000000000 * x ^ 3)
     = (y - x) * (989 / 10000000 - 457 / 10000000000 * (x + y) + 14 / 1000000000000 * (x * x + x * y + y * y))) by field.
  assert (0 < 989 / 10000000 - 457 / 10000000000 * (x + y) + 14 / 1000000000000 * (x * x + x * y + y * y)).
  { pose proof (Rle_0_sqr (x - y)). pose proof (Rle_0_sqr (x + y - 2176)). unfold Rsqr in *. nra. }
  assert (0 < (y - x) * (989 / 10000000 - 457 / 10000000000 * (x + y) + 14 / 1000000000000 * (x * x + x * y + y * y))) by (apply Rmult_lt_0_compat; lra).
  lra.
Qed.
Lemma conductivity_pos : forall T, 0 <= T -> 0 < thermal_conductivity T.
Proof.
  intros T H. assert (Z : thermal_conductivity 0 = 399 / 1000000) by (unfold thermal_conductivity; field).
  destruct (Rle_lt_or_eq_dec 0 T H) as [L|<-]; [|lra]. pose proof (conductivity_up 0 T L). lra.
Qed.
Lemma gamma_above : forall T, 0 <= T -> 13 / 10 < gamma T.
Proof.
  intros T H. unfold gamma.
  assert (Q : 0 <= (T - 1235) * (T - 1235) * (T + 500)) by (apply Rmult_le_pos; [apply Rle_0_sqr|lra]).
  (* (T-b)^2 (T+c) with the same cubic term *)
  pose proof (Rle_0_sqr (T - 1235)). unfold Rsqr in *. nra.
Qed.

(** how the returned values hang together *)
Lemma fields : forall a d vg h, sensible a -> let v := value_at a d vg h in
  rho v = pressure v / (a_R a * temperature v) /\
  sound_speed v = sqrt ((if vg then gamma (temperature v) else 14 / 10) * a_R a * temperature v) /\
  dynamic_viscosity v = absolute_viscosity (temperature v) /\
  kinematic_viscosity v = absolute_viscosity (temperature v) / rho v /\
  conductivity v = thermal_conductivity (temperature v) /\
  prandtl v = absolute_viscosity (temperature v) * air_cp / thermal_conductivity (temperature v).
Proof. intros a d vg h S v. unfold v. rewrite value_at_geo by assumption. repeat split. Qed.
