(** * Flight envelope: proofs *)
From Coq Require Import Reals List Bool Arith String Lia Lra Psatz.
From Verif Require Import PyBase M_Opt P_Opt M_Vn S_Vn.
Import ListNotations.
Local Open Scope R_scope.
Local Open Scope list_scope.

Ltac ltb := repeat match goal with
  | |- context [Rltb ?a ?b] => let E := fresh "E" in destruct (Rltb a b) eqn:E;
      [apply Rltb_true in E | apply Rltb_false in E] end.
Ltac ltbin H := repeat match type of H with
  | context [Rltb ?a ?b] => let E := fresh "E" in destruct (Rltb a b) eqn:E;
      [apply Rltb_true in E | apply Rltb_false in E] end.

Lemma kts_pos : 0 < kts. Proof. unfold kts. lra. Qed.

(** ** lists *)
Lemma insert_at_app {A} (a b : list A) x : insert_at (List.length a) x (a ++ b) = a ++ x :: b.
Proof. unfold insert_at. rewrite firstn_app, Nat.sub_diag, firstn_all, skipn_app, Nat.sub_diag, skipn_all. simpl. now rewrite app_nil_r. Qed.
Lemma insert_at_len {A} k (a b : list A) x : k = List.length a -> insert_at k x (a ++ b) = a ++ x :: b.
Proof. intros ->. apply insert_at_app. Qed.
Lemma nthR_app k (a b : list R) x : k = List.length a -> nthR k (a ++ x :: b) = x.
Proof. intros ->. unfold nthR. rewrite app_nth2, Nat.sub_diag; [reflexivity | lia]. Qed.
Lemma set_at_len k (a b : list R) x y : k = List.length a -> set_at k x (a ++ y :: b) = a ++ x :: b.
Proof. intros ->. unfold set_at. rewrite firstn_app, Nat.sub_diag, firstn_all, skipn_app, Nat.sub_diag, skipn_all. simpl. now rewrite app_nil_r. Qed.

Lemma stall_points_is c cl v0 delta lower s n : forall i pv pn qv qn,
  (1 <= lower)%nat -> List.length pv = (lower + i + 1)%nat -> List.length pn = (lower + i + 1)%nat ->
  Rltb 0 (nth 1 pn 0) = s ->
  stall_points c cl v0 delta lower i n (Half (pv ++ qv) (pn ++ qn)) =
  Half (pv ++ map (fun j => v0 + INR (j + 1) * delta) (seq i n) ++ qv)
       (pn ++ map (fun j => stall_factor c cl s (v0 + INR (j + 1) * delta)) (seq i n) ++ qn).
Proof.
  induction n as [|n IH]; intros i pv pn qv qn Hl Lv Ln Hs; simpl seq; simpl map; [reflexivity|].
  cbn [stall_points h_v h_n]. rewrite !insert_at_len by lia.
  rewrite (nthR_app _ pv qv) by lia.
  replace (Rltb 0 (nthR 1 (pn ++ qn))) with s by (rewrite <- Hs; unfold nthR; rewrite app_nth1 by lia; reflexivity).
  change (pv ++ (v0 + INR (i + 1) * delta) :: qv) with (pv ++ [v0 + INR (i + 1) * delta] ++ qv).
  change (pn ++ stall_factor c cl s (v0 + INR (i + 1) * delta) :: qn) with (pn ++ [stall_factor c cl s (v0 + INR (i + 1) * delta)] ++ qn).
  rewrite !app_assoc. rewrite (IH (S i)); [now rewrite <- !app_assoc | lia | | |].
  - rewrite app_length. simpl. lia.
  - rewrite app_length. simpl. lia.
  - rewrite app_nth1 by lia. exact Hs.
Qed.

(** ** speeds *)
Section craft.
Variable c : craft.
Hypothesis F : flyable c.
Lemma F_pos : 0 < c_weight c /\ 0 < c_rho c /\ 0 < c_sigma c /\ 0 < c_area c /\ 0 < c_clmax c /\ c_clmin c < 0 /\ 0 < c_mac c /\ 0 < c_cla c /\ 0 < c_g c.
Proof. exact F. Qed.
Lemma wl_pos : 0 < wing_loading c.
Proof. destruct F as (W & Rh & Sg & A & Cx & Cn & M & L & G). unfold wing_loading. apply Rdiv_lt_0_compat; assumption. Qed.
Lemma abs_clmin : Rabs (c_clmin c) = - c_clmin c.
Proof. destruct F as (W & Rh & Sg & A & Cx & Cn & M & L & G). apply Rabs_left. exact Cn. Qed.
Lemma den_pos cl : 0 < cl -> 0 < c_rho c * c_area c * cl.
Proof. destruct F as (W & Rh & Sg & A & Cx & Cn & M & L & G). intro. apply Rmult_lt_0_compat; [apply Rmult_lt_0_compat|]; assumption. Qed.
Lemma arg_pos cl : 0 < cl -> 0 < 2 * c_weight c / (c_rho c * c_area c * cl).
Proof. destruct F as (W & Rh & Sg & A & Cx & Cn & M & L & G). intro. apply Rdiv_lt_0_compat; [lra | now apply den_pos]. Qed.
Lemma keas_pos v : 0 < v -> 0 < keas c v.
Proof. destruct F as (W & Rh & Sg & A & Cx & Cn & M & L & G). intro. unfold keas. apply Rmult_lt_0_compat; [apply Rmult_lt_0_compat; [assumption | apply kts_pos] | assumption]. Qed.
Lemma vs_pos_pos : 0 < vs_pos c.
Proof. destruct F as (W & Rh & Sg & A & Cx & Cn & M & L & G). apply keas_pos, sqrt_lt_R0, arg_pos, Cx. Qed.
Lemma vs_neg_pos : 0 < vs_neg c.
Proof. destruct F as (W & Rh & Sg & A & Cx & Cn & M & L & G). apply keas_pos, sqrt_lt_R0, arg_pos. rewrite abs_clmin. lra. Qed.
Lemma va_pos_eq np : 0 <= np -> va_pos c np = vs_pos c * sqrt np.
Proof. intro. unfold va_pos, vs_pos, keas. ring. Qed.
Lemma va_neg_eq nn : va_neg c nn = vs_neg c * sqrt (Rabs nn).
Proof.
  destruct F as (W & Rh & Sg & A & Cx & Cn & M & L & G). unfold va_neg, vs_neg, keas.
  assert (P : 0 < 2 * c_weight c / (c_rho c * c_area c * Rabs (c_clmin c))) by (apply arg_pos; rewrite abs_clmin; lra).
  replace (2 * c_weight c * Rabs nn / (c_rho c * c_area c * Rabs (c_clmin c))) with (2 * c_weight c / (c_rho c * c_area c * Rabs (c_clmin c)) * Rabs nn) by (unfold Rdiv; ring).
  rewrite sqrt_mult by (try lra; apply Rabs_pos). ring.
Qed.
Lemma keas_sq v : (keas c v) ^ 2 = v ^ 2 * kts ^ 2 * c_sigma c ^ 2. Proof. unfold keas. ring. Qed.
Lemma sqrt_pow2 x : 0 <= x -> sqrt x ^ 2 = x. Proof. intro. simpl. rewrite Rmult_1_r. now apply sqrt_sqrt. Qed.
Lemma lift_vs : lift c (c_clmax c) (vs_pos c) = c_weight c.
Proof.
  destruct F as (W & Rh & Sg & A & Cx & Cn & M & L & G). pose proof kts_pos. unfold lift.
  replace ((vs_pos c / c_sigma c / kts) ^ 2) with (vs_pos c ^ 2 / (c_sigma c ^ 2 * kts ^ 2)) by (field; lra).
  unfold vs_pos. rewrite keas_sq, sqrt_pow2 by (pose proof (arg_pos _ Cx); lra). field. repeat split; lra.
Qed.
Lemma lift_vs_neg : lift c (c_clmin c) (vs_neg c) = - c_weight c.
Proof.
  destruct F as (W & Rh & Sg & A & Cx & Cn & M & L & G). pose proof kts_pos. unfold lift.
  replace ((vs_neg c / c_sigma c / kts) ^ 2) with (vs_neg c ^ 2 / (c_sigma c ^ 2 * kts ^ 2)) by (field; lra).
  assert (P : 0 < 2 * c_weight c / (c_rho c * c_area c * Rabs (c_clmin c))) by (apply arg_pos; rewrite abs_clmin; lra).
  unfold vs_neg. rewrite keas_sq, sqrt_pow2 by lra. rewrite abs_clmin. field. repeat split; lra.
Qed.
Lemma stall_pos v : stall_factor c (c_clmax c) true v = (v / vs_pos c) ^ 2.
Proof.
  destruct F as (W & Rh & Sg & A & Cx & Cn & M & L & G). pose proof kts_pos. pose proof vs_pos_pos as P. unfold stall_factor.
  replace ((v / vs_pos c) ^ 2) with (v ^ 2 / vs_pos c ^ 2) by (field; lra).
  unfold vs_pos. rewrite keas_sq, sqrt_pow2 by (pose proof (arg_pos _ Cx); lra). field. repeat split; lra.
Qed.
Lemma stall_neg v : stall_factor c (c_clmin c) false v = - (v / vs_neg c) ^ 2.
Proof.
  destruct F as (W & Rh & Sg & A & Cx & Cn & M & L & G). pose proof kts_pos. pose proof vs_neg_pos as P. unfold stall_factor.
  replace ((v / vs_neg c) ^ 2) with (v ^ 2 / vs_neg c ^ 2) by (field; lra).
  assert (Q : 0 < 2 * c_weight c / (c_rho c * c_area c * Rabs (c_clmin c))) by (apply arg_pos; rewrite abs_clmin; lra).
  unfold vs_neg. rewrite keas_sq, sqrt_pow2 by lra. rewrite abs_clmin. field. repeat split; lra.
Qed.
Lemma kg_pos : 0 < gust_alleviation c.
Proof.
  destruct F as (W & Rh & Sg & A & Cx & Cn & M & L & G). unfold gust_alleviation.
  assert (P : 0 < 2 * wing_loading c / (c_rho c * c_mac c * c_cla c * c_g c)).
  { pose proof wl_pos. apply Rdiv_lt_0_compat; [lra|]. apply Rmult_lt_0_compat; [apply Rmult_lt_0_compat; [apply Rmult_lt_0_compat|]|]; assumption. }
  apply Rdiv_lt_0_compat; lra.
Qed.
Lemma gust_factor_is u v : gust_factor c (gust_alleviation c) u v = gust_load c u v.
Proof. reflexivity. Qed.
(** the slope of a gust line *)
Definition slope : R := gust_alleviation c * c_cla c / (498 * wing_loading c).
Lemma slope_pos : 0 < slope.
Proof. destruct F as (W & Rh & Sg & A & Cx & Cn & M & L & G). pose proof wl_pos. pose proof kg_pos. unfold slope. apply Rdiv_lt_0_compat; [apply Rmult_lt_0_compat|]; lra. Qed.
Lemma gust_slope u v : gust_load c u v = 1 + slope * v * u.
Proof. pose proof wl_pos. rewrite <- gust_factor_is. unfold gust_factor, slope. field. lra. Qed.

(** ** the halves before the gusts *)
Definition delta_pos (np : R) : R := (va_pos c np - vs_pos c) / 21.
Definition delta_neg (nn : R) : R := (va_neg c nn - vs_neg c) / 21.
Definition head_v (vs va d : R) : list R := [vs; vs] ++ map (fun j => vs + INR (j + 1) * d) (seq 0 20) ++ [va].
Definition head_n (first last vs d : R) (f : R -> R) : list R := [0; first] ++ map (fun j => f (vs + INR (j + 1) * d)) (seq 0 20) ++ [last].
Lemma len_head_v a b d : List.length (head_v a b d) = 23%nat.
Proof. unfold head_v. rewrite !app_length, map_length, seq_length. reflexivity. Qed.
Lemma len_head_n a b e d f : List.length (head_n a b e d f) = 23%nat.
Proof. unfold head_n. rewrite !app_length, map_length, seq_length. reflexivity. Qed.
Definition pv np := head_v (vs_pos c) (va_pos c np) (delta_pos np).
Definition pn np := head_n 1 np (vs_pos c) (delta_pos np) (fun v => (v / vs_pos c) ^ 2).
Definition nv nn := head_v (vs_neg c) (va_neg c nn) (delta_neg nn).
Definition nn_ nn := head_n (-1) nn (vs_neg c) (delta_neg nn) (fun v => - (v / vs_neg c) ^ 2).
Lemma before_pos np vd :
  stall_line c (c_clmax c) 2 1 20 (corners_pos c np vd) = Half (pv np ++ [vd; vd]) (pn np ++ [np; 0]).
Proof.
  unfold stall_line, corners_pos. cbn [h_v h_n nthR nth].
  change [vs_pos c; vs_pos c; va_pos c np; vd; vd] with ([vs_pos c; vs_pos c] ++ [va_pos c np; vd; vd]).
  change [0; 1; np; np; 0] with ([0; 1] ++ [np; np; 0]).
  rewrite (stall_points_is _ _ _ _ 1 true 20 0); [|lia|reflexivity|reflexivity|cbn; apply Rltb_true; lra].
  unfold pv, pn, head_v, head_n, delta_pos. rewrite <- !app_assoc.
  replace (INR (20 + 1)) with 21 by (simpl; lra). f_equal. f_equal. f_equal. apply map_ext. intro. apply stall_pos.
Qed.
Lemma before_neg cat nn vc vd :
  stall_line c (c_clmin c) 2 1 20 (corners_neg c cat nn vc vd) =
  Half (nv nn ++ [vc; vd]) (nn_ nn ++ [nn; if (String.eqb cat "acrobatic" || String.eqb cat "utility")%bool then -1 else 0]).
Proof.
  unfold stall_line, corners_neg. cbn [h_v h_n nthR nth].
  change [vs_neg c; vs_neg c; va_neg c nn; vc; vd] with ([vs_neg c; vs_neg c] ++ [va_neg c nn; vc; vd]).
  set (e := if (String.eqb cat "acrobatic" || String.eqb cat "utility")%bool then -1 else 0).
  change [0; -1; nn; nn; e] with ([0; -1] ++ [nn; nn; e]).
  rewrite (stall_points_is _ _ _ _ 1 false 20 0); [|lia|reflexivity|reflexivity|cbn; apply Rltb_false; lra].
  unfold nv, nn_, head_v, head_n, delta_neg. rewrite <- !app_assoc.
  replace (INR (20 + 1)) with 21 by (simpl; lra). f_equal. f_equal. f_equal. apply map_ext. intro. apply stall_neg.
Qed.

(** ** the gusts *)
Lemma nth1_pn np q : nthR 1 (pn np ++ q) = 1. Proof. reflexivity. Qed.
Lemma nth1_nn nn q : nthR 1 (nn_ nn ++ q) = -1. Proof. reflexivity. Qed.
Lemma nth22_v a b d q : nthR 22 (head_v a b d ++ q) = b.
Proof. unfold head_v. rewrite !app_assoc, <- app_assoc. apply nthR_app. rewrite app_length, map_length, seq_length. reflexivity. Qed.
Lemma nth22_n a b e d f q : nthR 22 (head_n a b e d f ++ q) = b.
Proof. unfold head_n. rewrite !app_assoc, <- app_assoc. apply nthR_app. rewrite app_length, map_length, seq_length. reflexivity. Qed.

Definition crossing (cl u : R) : R :=
  larger_root (709486 / 1000 * (c_rho c / c_sigma c ^ 2) * cl) (- gust_alleviation c * u * c_cla c) (- 498 * wing_loading c).
Definition more_v (v0 v1 : R) : list R := map (fun j => v0 + INR (j + 1) * ((v1 - v0) / 6)) (seq 0 5).

Lemma extend (hv hn : list R) va v1 n1 qv qn s cl f :
  List.length hv = 23%nat -> List.length hn = 23%nat -> nthR 22 (hv ++ qv) = va -> nth 22 hv 0 = va ->
  Rltb 0 (nth 1 hn 0) = s -> (forall v, stall_factor c cl s v = f v) ->
  stall_line c cl 23 22 5 (Half (insert_at 23 v1 (hv ++ qv)) (insert_at 23 n1 (hn ++ qn))) =
  Half (hv ++ more_v va v1 ++ v1 :: qv) (hn ++ map f (more_v va v1) ++ n1 :: qn).
Proof.
  intros Lv Ln Ha Ha' Hs Hf. rewrite !insert_at_len by lia. unfold stall_line. cbn [h_v h_n].
  rewrite (nthR_app 23 hv qv) by lia.
  replace (nthR 22 (hv ++ v1 :: qv)) with va by (unfold nthR; rewrite app_nth1 by lia; now symmetry).
  rewrite (stall_points_is _ _ _ _ 22 s 5 0 hv hn) by (try lia; assumption).
  replace (INR (5 + 1)) with 6 by (simpl; lra). unfold more_v. rewrite map_map. f_equal. f_equal. f_equal. apply map_ext. intro. apply Hf.
Qed.

Lemma corner_pos np ur uc vc vd :
  gust_corner c (gust_alleviation c) (c_clmax c) np ur uc vc 20 (Half (pv np ++ [vd; vd]) (pn np ++ [np; 0])) =
  if Rltb (Rabs np) (Rabs (gust_load c ur (va_pos c np))) then
    let vi := crossing (c_clmax c) ur in
    Half (pv np ++ more_v (va_pos c np) vi ++ [vi; vc; vd; vd])
         (pn np ++ map (fun v => (v / vs_pos c) ^ 2) (more_v (va_pos c np) vi) ++ [gust_load c ur vi; gust_load c uc vc; np; 0])
  else if Rltb (Rabs np) (Rabs (gust_load c uc vc)) then
    Half (pv np ++ [498 * (np - 1) * wing_loading c / (gust_alleviation c * uc * c_cla c); vc; vd; vd]) (pn np ++ [np; gust_load c uc vc; np; 0])
  else Half (pv np ++ [vd; vd]) (pn np ++ [np; 0]).
Proof.
  unfold gust_corner. cbn [Nat.add h_v h_n].
  unfold pv at 1. rewrite nth22_v. rewrite !gust_factor_is. fold (crossing (c_clmax c) ur).
  destruct (Rltb (Rabs np) (Rabs (gust_load c ur (va_pos c np)))).
  - rewrite (extend (pv np) (pn np) (va_pos c np) _ _ _ _ true (c_clmax c) (fun v => (v / vs_pos c) ^ 2)).
    + cbn [h_v h_n]. rewrite nth1_pn. replace (Rltb 0 1) with true by (symmetry; apply Rltb_true; lra).
      set (vi := crossing (c_clmax c) ur). cbv zeta. f_equal.
    + apply len_head_v.
    + apply len_head_n.
    + apply nth22_v.
    + pose proof (nth22_v (vs_pos c) (va_pos c np) (delta_pos np) []) as E. rewrite app_nil_r in E. exact E.
    + cbn. apply Rltb_true; lra.
    + exact stall_pos.
  - destruct (Rltb (Rabs np) (Rabs (gust_load c uc vc))); [|reflexivity].
    cbn [h_v h_n]. replace (nthR 22 (pn np ++ [np; 0])) with np by (symmetry; apply nth22_n). rewrite !insert_at_len by (unfold pv, pn; rewrite ?len_head_v, ?len_head_n; reflexivity).
    rewrite nth1_pn. replace (Rltb 0 1) with true by (symmetry; apply Rltb_true; lra).
    set (vi := 498 * (np - 1) * wing_loading c / (gust_alleviation c * uc * c_cla c)).
    f_equal.
Qed.

Lemma corner_neg nn ur uc vc vd e :
  gust_corner c (gust_alleviation c) (c_clmin c) nn ur uc vc 20 (Half (nv nn ++ [vc; vd]) (nn_ nn ++ [nn; e])) =
  if Rltb (Rabs nn) (Rabs (gust_load c ur (va_neg c nn))) then
    let vi := crossing (c_clmin c) ur in
    Half (nv nn ++ more_v (va_neg c nn) vi ++ [vi; vc; vd])
         (nn_ nn ++ map (fun v => - (v / vs_neg c) ^ 2) (more_v (va_neg c nn) vi) ++ [gust_load c ur vi; nn; e])
  else if Rltb (Rabs nn) (Rabs (gust_load c uc vc)) then
    Half (nv nn ++ [498 * (nn - 1) * wing_loading c / (gust_alleviation c * uc * c_cla c); vc; vd]) (nn_ nn ++ [nn; gust_load c uc vc; e])
  else Half (nv nn ++ [vc; vd]) (nn_ nn ++ [nn; e]).
Proof.
  unfold gust_corner. cbn [Nat.add h_v h_n].
  unfold nv at 1. rewrite nth22_v. rewrite !gust_factor_is. fold (crossing (c_clmin c) ur).
  destruct (Rltb (Rabs nn) (Rabs (gust_load c ur (va_neg c nn)))).
  - rewrite (extend (nv nn) (nn_ nn) (va_neg c nn) _ _ _ _ false (c_clmin c) (fun v => - (v / vs_neg c) ^ 2)).
    + cbn [h_v h_n]. rewrite nth1_nn. replace (Rltb 0 (-1)) with false by (symmetry; apply Rltb_false; lra). reflexivity.
    + apply len_head_v.
    + apply len_head_n.
    + apply nth22_v.
    + pose proof (nth22_v (vs_neg c) (va_neg c nn) (delta_neg nn) []) as E. rewrite app_nil_r in E. exact E.
    + cbn. apply Rltb_false; lra.
    + exact stall_neg.
  - destruct (Rltb (Rabs nn) (Rabs (gust_load c uc vc))); [|reflexivity].
    cbn [h_v h_n]. replace (nthR 22 (nn_ nn ++ [nn; e])) with nn by (symmetry; apply nth22_n). rewrite !insert_at_len by (unfold nv, nn_; rewrite ?len_head_v, ?len_head_n; reflexivity).
    rewrite nth1_nn. replace (Rltb 0 (-1)) with false by (symmetry; apply Rltb_false; lra).
    set (vi := 498 * (nn - 1) * wing_loading c / (gust_alleviation c * uc * c_cla c)).
    f_equal.
Qed.
End craft.
