(** * Masses and centres of gravity: proofs *)
From Coq Require Import Reals List Bool String Lra Lia Permutation Sorted.
From Verif Require Import M_Opt P_Opt M_Rot M_Mission M_Wing M_Mass S_Mass.
Import ListNotations.
Local Open Scope R_scope.
Local Open Scope list_scope.

Lemma summed_app {A} (f : A -> R) l m : summed f (l ++ m) = summed f l + summed f m.
Proof. induction l; cbn; lra. Qed.
Lemma summed_perm {A} (f : A -> R) l m : Permutation l m -> summed f l = summed f m.
Proof. induction 1; cbn; lra. Qed.
Lemma summed_ext {A} (f g : A -> R) l : Forall (fun x => f x = g x) l -> summed f l = summed g l.
Proof. induction 1; cbn; lra. Qed.
Lemma summed_plus {A} (f g : A -> R) l : summed (fun x => f x + g x) l = summed f l + summed g l.
Proof. induction l; cbn; lra. Qed.
Lemma summed_scale {A} k (f : A -> R) l : summed (fun x => k * f x) l = k * summed f l.
Proof. induction l; cbn; lra. Qed.
Lemma summed_nonneg {A} (f : A -> R) l : Forall (fun x => 0 <= f x) l -> 0 <= summed f l.
Proof. induction 1; cbn; lra. Qed.
Lemma summed_le {A} (f g : A -> R) l : Forall (fun x => f x <= g x) l -> summed f l <= summed g l.
Proof. induction 1; cbn; lra. Qed.
Lemma summed_map {A B} (h : B -> A) (f : A -> R) l : summed f (map h l) = summed (fun x => f (h x)) l.
Proof. induction l; cbn; congruence. Qed.
Lemma summed_flat {A B} (h : B -> list A) (f : A -> R) l : summed f (flat_map h l) = summed (fun x => summed f (h x)) l.
Proof. induction l; cbn; [reflexivity|]. rewrite summed_app. congruence. Qed.
Lemma fold_summed {A} (f : A -> R) l : forall a, fold_left (fun t y => t + f y) l a = a + summed f l.
Proof. induction l as [|x l IH]; intro a; cbn; [lra|]. rewrite IH. lra. Qed.

Lemma coord_plus f a b : coordinate f -> f (vplus a b) = f a + f b.
Proof. destruct 1; reflexivity. Qed.
Lemma coord_times f k a : coordinate f -> f (vtimes k a) = k * f a.
Proof. destruct 1; reflexivity. Qed.
Lemma coord_0 f : coordinate f -> f v0 = 0.
Proof. destruct 1; reflexivity. Qed.
Lemma coord_ext a b : (forall f, coordinate f -> f a = f b) -> a = b.
Proof.
  intro H. destruct a as [a1 a2 a3], b as [b1 b2 b3].
  pose proof (H vx c_x) as X. pose proof (H vy c_y) as Y. pose proof (H vz c_z) as Z. cbn in *. congruence.
Qed.
Lemma fold_vplus {A} (g : A -> v3) f l : coordinate f -> forall a,
  f (fold_left (fun t y => vplus t (g y)) l a) = f a + summed (fun y => f (g y)) l.
Proof.
  intro C. induction l as [|x l IH]; intro a; cbn; [lra|]. rewrite IH, coord_plus by exact C. lra.
Qed.
Lemma vsum_coord f l : coordinate f -> f (vsum l) = summed f l.
Proof.
  intro C. unfold vsum. pose proof (fold_vplus (fun x => x) f l C v0) as H. rewrite coord_0, Rplus_0_l in H by exact C.
  exact H.
Qed.
Lemma part_moment_coord f p : coordinate f -> f (part_moment p) = p_mass p * at_coordinate f p.
Proof.
  intro C. unfold part_moment, at_coordinate. rewrite coord_times, coord_plus, coord_times, vsum_coord by exact C.
  unfold Rdiv. lra.
Qed.

Section ItemInd.
  Variable P : item -> Prop.
  Hypothesis Hc : forall p inner, P (Comp p inner).
  Hypothesis Hb : forall l, Forall P l -> P (Box l).
  Hypothesis Ho : P Other.
  Fixpoint item_ind' (x : item) : P x :=
    match x with
    | Comp p i => Hc p i
    | Box l => Hb l ((fix go l : Forall P l := match l with [] => Forall_nil _ | y :: r => Forall_cons y (item_ind' y) (go r) end) l)
    | Other => Ho
    end.
End ItemInd.
Lemma item_mass_leaves x : item_mass x = mass_of (leaves x).
Proof.
  induction x using item_ind'; cbn [item_mass leaves]; [unfold mass_of; cbn; lra| |reflexivity].
  rewrite fold_summed. unfold mass_of. rewrite summed_flat, Rplus_0_l. apply summed_ext. exact H.
Qed.
Lemma item_moment_leaves f x : coordinate f ->
  f (item_moment x) = summed (fun p => p_mass p * at_coordinate f p) (leaves x).
Proof.
  intro C. induction x using item_ind'; cbn [item_moment leaves].
  - rewrite part_moment_coord by exact C. cbn. lra.
  - rewrite fold_vplus by exact C. rewrite coord_0, Rplus_0_l, summed_flat by exact C. apply summed_ext. exact H.
  - now apply coord_0.
Qed.
Lemma sum_mass_counted a : sum_mass a = mass_of (counted a).
Proof.
  unfold sum_mass, counted, mass_of. rewrite summed_flat.
  assert (H : forall t, fold_left (fun total y => match y with Box _ => total + item_mass y | _ => total end) a t
    = t + summed (fun x => summed p_mass (match x with Box _ => leaves x | _ => [] end)) a).
  { induction a as [|y a IH]; intro t; cbn [fold_left summed]; [lra|]. rewrite IH.
    destruct y; cbn [summed]; try lra. rewrite item_mass_leaves. unfold mass_of. lra. }
  rewrite H. lra.
Qed.
Lemma total_moment_counted f a : coordinate f ->
  f (total_moment a) = summed (fun p => p_mass p * at_coordinate f p) (counted a).
Proof.
  intro C. unfold total_moment, counted. rewrite summed_flat.
  assert (H : forall t, f (fold_left (fun total y => match y with Box _ => vplus total (item_moment y) | _ => total end) a t)
    = f t + summed (fun x => summed (fun p => p_mass p * at_coordinate f p) (match x with Box _ => leaves x | _ => [] end)) a).
  { induction a as [|y a IH]; intro t; cbn [fold_left summed]; [lra|]. rewrite IH.
    destruct y; cbn [summed]; try lra. rewrite coord_plus, item_moment_leaves by exact C. lra. }
  rewrite H, coord_0 by exact C. lra.
Qed.
Lemma cg_coord f a : coordinate f -> sum_mass a <> 0 ->
  f (center_of_gravity a) * mass_of (counted a) = summed (fun p => p_mass p * at_coordinate f p) (counted a).
Proof.
  intros C H. unfold center_of_gravity. destruct (Req_EM_T (sum_mass a) 0) as [E|E]; [contradiction|].
  rewrite coord_times, total_moment_counted by exact C. rewrite <- sum_mass_counted. field. exact H.
Qed.
Lemma balance_split f l x :
  summed (fun p => p_mass p * (at_coordinate f p - f x)) l
  = summed (fun p => p_mass p * at_coordinate f p) l - f x * mass_of l.
Proof. unfold mass_of. induction l; cbn; lra. Qed.
Lemma cg_balances a x : sum_mass a <> 0 -> (balances (counted a) x <-> x = center_of_gravity a).
Proof.
  intro H. split; intro B.
  - apply coord_ext. intros f C. specialize (B f C). rewrite balance_split in B.
    pose proof (cg_coord f a C H) as E. rewrite sum_mass_counted in H.
    apply Rmult_eq_reg_r with (mass_of (counted a)); [lra|exact H].
  - subst x. intros f C. rewrite balance_split, (cg_coord f a C H). lra.
Qed.
Lemma mass_nonneg l : Forall (fun p => 0 <= p_mass p) l -> 0 <= mass_of l.
Proof. apply summed_nonneg. Qed.

Lemma cg_hull a n b : sum_mass a <> 0 -> Forall (fun p => 0 <= p_mass p) (counted a) ->
  Forall (fun p => dot_at n p <= b) (counted a) -> vdot n (center_of_gravity a) <= b.
Proof.
  intros H P Q. pose proof (cg_coord vx a c_x H) as X. pose proof (cg_coord vy a c_y H) as Y.
  pose proof (cg_coord vz a c_z H) as Z. rewrite sum_mass_counted in H.
  set (g := center_of_gravity a) in *. set (l := counted a) in *. clearbody g l.
  pose proof (mass_nonneg l P) as M.
  assert (S : vdot n g * mass_of l = summed (fun p => p_mass p * dot_at n p) l).
  { unfold vdot. replace ((vx n * vx g + vy n * vy g + vz n * vz g) * mass_of l)
      with (vx n * (vx g * mass_of l) + vy n * (vy g * mass_of l) + vz n * (vz g * mass_of l)) by ring.
    rewrite X, Y, Z. rewrite <- !summed_scale, <- !summed_plus. apply summed_ext.
    apply Forall_forall. intros p _. unfold dot_at. ring. }
  assert (L : summed (fun p => p_mass p * dot_at n p) l <= summed (fun p => b * p_mass p) l).
  { apply summed_le. rewrite Forall_forall in *. intros p I. specialize (P p I). specialize (Q p I).
    rewrite (Rmult_comm b). now apply Rmult_le_compat_l. }
  rewrite summed_scale in L. fold (mass_of l) in L. rewrite <- S in L.
  apply Rmult_le_reg_r with (mass_of l); lra.
Qed.
Lemma cg_moment a b : mass_of (counted a) = mass_of (counted b) ->
  (forall f, coordinate f -> summed (fun p => p_mass p * at_coordinate f p) (counted a)
                           = summed (fun p => p_mass p * at_coordinate f p) (counted b)) ->
  sum_mass a = sum_mass b /\ center_of_gravity a = center_of_gravity b.
Proof.
  intros M S. assert (E : sum_mass a = sum_mass b) by now rewrite !sum_mass_counted.
  split; [exact E|]. unfold center_of_gravity. rewrite E. f_equal. apply coord_ext. intros f C.
  rewrite !total_moment_counted by exact C. now apply S.
Qed.
Lemma cg_perm a b : Permutation (counted a) (counted b) ->
  sum_mass a = sum_mass b /\ center_of_gravity a = center_of_gravity b.
Proof.
  intro H. apply cg_moment; [now apply summed_perm|]. intros f _. now apply summed_perm.
Qed.
Lemma cg_lump a b l p rest : Permutation (counted a) (l ++ rest) -> Permutation (counted b) (p :: rest) ->
  p_mass p = mass_of l -> (forall x, is_at p x -> balances l x) ->
  sum_mass a = sum_mass b /\ center_of_gravity a = center_of_gravity b.
Proof.
  intros Ha Hb Hm Hx.
  set (x := V3 (at_coordinate vx p) (at_coordinate vy p) (at_coordinate vz p)).
  assert (X : is_at p x) by (intros f C; destruct C; reflexivity). specialize (Hx x X).
  apply cg_moment.
  - unfold mass_of. rewrite (summed_perm _ _ _ Ha), (summed_perm _ _ _ Hb), summed_app. cbn. unfold mass_of in Hm. lra.
  - intros f C. rewrite (summed_perm _ _ _ Ha), (summed_perm _ _ _ Hb), summed_app. cbn [summed].
    specialize (Hx f C). rewrite balance_split in Hx. rewrite (X f C), Hm. lra.
Qed.
Lemma cg_moved a b d : Forall2 (moved d) (counted a) (counted b) -> sum_mass a <> 0 ->
  sum_mass b = sum_mass a /\ center_of_gravity b = vplus (center_of_gravity a) d.
Proof.
  intros H Hm.
  assert (M : mass_of (counted b) = mass_of (counted a)).
  { unfold mass_of. induction H as [|p q l m [E _] _ IH]; cbn; [reflexivity|]. rewrite E, IH. reflexivity. }
  assert (E : sum_mass b = sum_mass a) by now rewrite !sum_mass_counted.
  split; [exact E|]. apply coord_ext. intros f C. rewrite coord_plus by exact C.
  assert (Hb : sum_mass b <> 0) by congruence.
  pose proof (cg_coord f a C Hm) as A. pose proof (cg_coord f b C Hb) as B.
  assert (S : summed (fun p => p_mass p * at_coordinate f p) (counted b)
    = summed (fun p => p_mass p * at_coordinate f p) (counted a) + f d * mass_of (counted a)).
  { clear - H C. unfold mass_of. induction H as [|p q l m [E K] _ IH]; cbn; [lra|].
    rewrite IH, E, (K f C). lra. }
  rewrite sum_mass_counted in Hm. apply Rmult_eq_reg_r with (mass_of (counted a)); [|exact Hm].
  rewrite <- M at 1. rewrite B, S, Rmult_plus_distr_r, A. reflexivity.
Qed.
Lemma nonneg_sum_zero l : Forall (fun p => 0 <= p_mass p) l -> mass_of l = 0 -> Forall (fun p => p_mass p = 0) l.
Proof.
  induction 1 as [|p l H P IH]; intro E; [constructor|]. unfold mass_of in *. cbn in E.
  pose proof (summed_nonneg p_mass l P). constructor; [lra|apply IH; lra].
Qed.
Lemma cg_zero a : Forall (fun p => 0 <= p_mass p) (counted a) -> sum_mass a = 0 -> center_of_gravity a = v0.
Proof.
  intros P E. pose proof E as E'. rewrite sum_mass_counted in E'. apply (nonneg_sum_zero _ P) in E'.
  unfold center_of_gravity. destruct (Req_EM_T (sum_mass a) 0) as [_|N]; [|contradiction].
  apply coord_ext. intros f C. rewrite coord_times, total_moment_counted, coord_0 by exact C.
  rewrite (summed_ext _ (fun _ => 0 * 0)), summed_scale; [lra|].
  rewrite Forall_forall in *. intros p I. rewrite (E' p I). lra.
Qed.

Lemma cg_cancelled a f : sum_mass a = 0 -> coordinate f -> f (center_of_gravity a) = summed (fun p => p_mass p * at_coordinate f p) (counted a).
Proof.
  intros E C. unfold center_of_gravity. destruct (Req_EM_T (sum_mass a) 0) as [_|N]; [|contradiction].
  rewrite coord_times, total_moment_counted by exact C. lra.
Qed.

(** ** Networks *)
Lemma network_part_place n : nw_part (place_network n) = network_part n.
Proof.
  destruct n as [[m o [x y z]] e l]. unfold place_network, network_part, put_cg_x, with_x. cbn. f_equal. f_equal. lra.
Qed.
Lemma one_origin_at p f : one_origin p -> coordinate f ->
  f (vplus (vsum (p_origin p)) (p_cg p)) = at_coordinate f p.
Proof.
  intros [o E] C. rewrite coord_plus, vsum_coord by exact C. unfold at_coordinate. rewrite E. cbn. lra.
Qed.
Lemma one_origin_len p : one_origin p -> INR (List.length (p_origin p)) = 1.
Proof. intros [o ->]. reflexivity. Qed.
Definition moment_in (f : v3 -> R) (l : list part) : R := summed (fun p => p_mass p * at_coordinate f p) l.
Lemma add_energy_fold f l : coordinate f -> Forall one_origin l -> forall mo m,
  f (fst (fold_left add_energy l (mo, m))) = f mo + moment_in f l /\
  snd (fold_left add_energy l (mo, m)) = m + mass_of l.
Proof.
  intros C. induction 1 as [|p l H P IH]; intros mo m; cbn [fold_left]; [cbn; split; lra|].
  unfold add_energy at 2 4. destruct (IH (vplus mo (vtimes (p_mass p) (vplus (vsum (p_origin p)) (p_cg p))))
    (m + p_mass p * INR (List.length (p_origin p)))) as [A B].
  rewrite A, B. rewrite coord_plus, coord_times, (one_origin_at p f H C), (one_origin_len p H) by exact C.
  unfold moment_in, mass_of. cbn. split; lra.
Qed.
Lemma add_network_fold f l : coordinate f -> Forall (fun n => Forall one_origin (network_parts n)) l -> forall mo m,
  f (fst (fold_left add_network l (mo, m))) = f mo + moment_in f (flat_map network_parts l) + earlier_mass_moment f m l /\
  snd (fold_left add_network l (mo, m)) = m + mass_of (flat_map network_parts l).
Proof.
  intros C. induction 1 as [|n l H P IH]; intros mo m; cbn [fold_left]; [cbn; split; lra|].
  inversion H as [|? ? Ho He]; subst.
  destruct (add_network (mo, m) n) as [mo1 m1] eqn:E.
  unfold add_network in E. cbv zeta in E. rewrite network_part_place in E. cbn [place_network nw_energy] in E.
  match type of E with fold_left _ _ (?a, ?b) = _ => pose proof (add_energy_fold f (nw_energy n) C He a b) as [A B] end.
  rewrite E in A, B. cbn [fst snd] in A, B. destruct (IH mo1 m1) as [A' B']. rewrite A', B', A, B.
  rewrite coord_plus, coord_times, (one_origin_at _ f Ho C) by exact C.
  unfold moment_in, mass_of in *. cbn [flat_map earlier_mass_moment]. rewrite !summed_app.
  assert (K : forall g, summed g (network_parts n) = g (network_part n) + summed g (nw_energy n)) by reflexivity.
  rewrite !K. unfold mass_of. rewrite !K. rewrite <- !Rplus_assoc. split; ring.
Qed.
Lemma propulsion_error l f : coordinate f -> Forall (fun n => Forall one_origin (network_parts n)) l ->
  mass_of (flat_map network_parts l) <> 0 ->
  f (propulsion_cg l) * mass_of (flat_map network_parts l)
  = moment_in f (flat_map network_parts l) + earlier_mass_moment f 0 l.
Proof.
  intros C H M. unfold propulsion_cg. destruct (fold_left add_network l (v0, 0)) as [mo m] eqn:E.
  pose proof (add_network_fold f l C H v0 0) as [A B]. rewrite E in A, B. cbn [fst snd] in A, B.
  rewrite coord_0 in A by exact C. destruct (Req_EM_T m 0); [lra|]. rewrite coord_times by exact C.
  replace (mass_of (flat_map network_parts l)) with m by lra. rewrite A. field. exact n.
Qed.
Lemma propulsion_single n x : Forall one_origin (network_parts n) -> mass_of (network_parts n) <> 0 ->
  (balances (network_parts n) x <-> x = propulsion_cg [n]).
Proof.
  intros H M. assert (E : flat_map network_parts [n] = network_parts n) by (cbn [flat_map]; apply app_nil_r).
  assert (K : forall f, coordinate f -> f (propulsion_cg [n]) * mass_of (network_parts n) = moment_in f (network_parts n)).
  { intros f C. pose proof (propulsion_error [n] f C (Forall_cons _ H (Forall_nil _))) as Q. rewrite E in Q.
    rewrite (Q M). cbn. lra. }
  split; intro B.
  - apply coord_ext. intros f C. specialize (B f C). rewrite balance_split in B. specialize (K f C).
    unfold moment_in in K. apply Rmult_eq_reg_r with (mass_of (network_parts n)); [lra|exact M].
  - subst x. intros f C. rewrite balance_split, (K f C). unfold moment_in. lra.
Qed.
(** a bare network with several origins: their sum is used, not their mean *)
Lemma propulsion_bare n f : coordinate f -> nw_energy n = [] -> p_mass (nw_part n) <> 0 ->
  f (propulsion_cg [n]) = summed f (p_origin (nw_part n)) + f (p_cg (network_part n)).
Proof.
  intros C He Hm. unfold propulsion_cg. cbn [fold_left]. unfold add_network. cbv zeta. rewrite network_part_place.
  cbn [place_network nw_energy]. rewrite He. cbn [fold_left]. cbn [network_part p_mass] .
  destruct (Req_EM_T _ 0); [lra|]. rewrite coord_times, coord_plus, coord_times, coord_plus, vsum_coord, coord_0 by exact C.
  cbn [network_part p_mass p_origin]. field. lra.
Qed.

(** ** Length scale *)
Lemma scales_fuselages l : forall L N, fold_left (fun s f => if Rltb (fst s) (fs_total f) then (fs_total f, fs_nose f) else s) l (L, N)
   = (L, N) /\ Forall (fun f => fs_total f <= L) l \/
  exists f, In f l /\ L < fs_total f /\ Forall (fun g => fs_total g <= fs_total f) l /\
    fold_left (fun s f => if Rltb (fst s) (fs_total f) then (fs_total f, fs_nose f) else s) l (L, N) = (fs_total f, fs_nose f).
Proof.
  induction l as [|g l IH]; intros L N; cbn [fold_left fst]; [left; auto|].
  destruct (Rltb L (fs_total g)) eqn:E; [apply Rltb_true in E|apply Rltb_false in E].
  - right. destruct (IH (fs_total g) (fs_nose g)) as [[-> H]|(f & I & H1 & H2 & ->)].
    + exists g. repeat split; auto; [now left|constructor; [lra|exact H]].
    + exists f. repeat split; auto; [now right|lra|constructor; [lra|exact H2]].
  - destruct (IH L N) as [[-> H]|(f & I & H1 & H2 & ->)].
    + left. split; [reflexivity|]. constructor; [lra|exact H].
    + right. exists f. repeat split; auto; [now right|constructor; [lra|exact H2]].
Qed.
Lemma scales_longest v L N : v_fuselages v <> [] -> scales v = (L, N) -> longest (v_fuselages v) L N.
Proof.
  intros H E. unfold scales in E. destruct (v_fuselages v) as [|g l] eqn:Ef; [congruence|].
  destruct (scales_fuselages (g :: l) 1 0) as [[E' F]|(f & I & H1 & H2 & E')]; rewrite E' in E; injection E as <- <-.
  - split; [lra|]. split; [exact F|]. left. auto.
  - split; [lra|]. split; [exact H2|]. right. apply Exists_exists. exists f. auto.
Qed.

(** ** Placing *)
Lemma put_origin_inv x p q : put_origin_x x p = Some q ->
  exists o r, p_origin p = o :: r /\ q = Part (p_mass p) (with_x x o :: r) (p_cg p).
Proof. unfold put_origin_x. destruct (p_origin p) as [|o r]; [discriminate|]. intro H. injection H as <-. eauto. Qed.
Lemma put_both_inv x c p q : put_both x c p = Some q ->
  exists o r, p_origin p = o :: r /\ q = Part (p_mass p) (with_x x o :: r) (with_x c (p_cg p)).
Proof. unfold put_both. intro H. destruct (put_origin_inv _ _ _ H) as (o & r & E & ->). cbn in *. eauto. Qed.
Lemma put_both_again x c p q : put_both x c p = Some q -> put_both x c q = Some q.
Proof. intro H. destruct (put_both_inv _ _ _ _ H) as (o & r & E & ->). reflexivity. Qed.
Lemma put_both_x x c p q : put_both x c p = Some q -> one_origin p -> at_coordinate vx q = x + c /\ only_x p q.
Proof.
  intros H [o E]. destruct (put_both_inv _ _ _ _ H) as (o' & r & E' & ->). rewrite E in E'. injection E' as <- <-.
  unfold at_coordinate, only_x, at_coordinate. rewrite E. cbn. repeat split; lra.
Qed.
Lemma put_origin_one x p q : put_origin_x x p = Some q -> one_origin p -> one_origin q.
Proof. intros H [o E]. destruct (put_origin_inv _ _ _ H) as (o' & r & E' & ->). rewrite E in E'. injection E' as <- <-. now exists (with_x x o). Qed.
Lemma put_both_one x c p q : put_both x c p = Some q -> one_origin p -> one_origin q.
Proof. intros H [o E]. apply (put_origin_one _ _ _ H). exists o. exact E. Qed.

Lemma tan_quarter q t a : tan (quarter_to_leading q t a) = tan q + 4 * (1 / 4) * (1 - t) / (a * (1 + t)).
Proof.
  unfold quarter_to_leading. set (k := 4 * (1 / 4) * (1 - t) / (a * (1 + t))).
  replace (4 * 0 * (1 - t) / (a * (1 + t))) with 0 by (unfold Rdiv; ring).
  rewrite Rminus_0_r. rewrite tan_atan. now rewrite tan_atan.
Qed.
Lemma place_wing_again w : place_wing (place_wing w) = place_wing w.
Proof. destruct w as [t [| | |] [m o [x y z]] mac ac b r tp ta ar [le|] q]; reflexivity. Qed.
Lemma place_network_again n : place_network (place_network n) = place_network n.
Proof. destruct n as [[m o [x y z]] e l]. reflexivity. Qed.
Lemma place_fuselage_again f : place_fuselage (place_fuselage f) = place_fuselage f.
Proof. destruct f as [[m o [x y z]] e l]. reflexivity. Qed.
Lemma map_again {A} (f : A -> A) l : (forall x, f (f x) = f x) -> map f (map f l) = map f l.
Proof. intro H. rewrite map_map. apply map_ext. exact H. Qed.
Lemma propulsion_again l : propulsion_cg (map place_network l) = propulsion_cg l.
Proof.
  unfold propulsion_cg. assert (E : forall acc, fold_left add_network (map place_network l) acc = fold_left add_network l acc).
  { induction l as [|n l IH]; intro acc; cbn [map fold_left]; [reflexivity|]. rewrite IH. f_equal. }
  now rewrite E.
Qed.
Lemma scales_again v w : v_wings w = map place_wing (v_wings v) -> v_fuselages w = map place_fuselage (v_fuselages v) ->
  scales w = scales v.
Proof.
  intros Ew Ef. unfold scales. rewrite Ew, Ef.
  assert (A : forall l s, fold_left (fun s w => match cw_class w with
                                | Main_wing => if Rltb (fst s) (cw_root w) then (cw_root w, 25 / 100 * cw_root w) else s
                                | _ => s end) (map place_wing l) s
     = fold_left (fun s w => match cw_class w with
                                | Main_wing => if Rltb (fst s) (cw_root w) then (cw_root w, 25 / 100 * cw_root w) else s
                                | _ => s end) l s).
  { induction l as [|x l IH]; intro s; cbn [map fold_left]; [reflexivity|]. rewrite IH. reflexivity. }
  assert (B : forall l s, fold_left (fun s f => if Rltb (fst s) (fs_total f) then (fs_total f, fs_nose f) else s) (map place_fuselage l) s
     = fold_left (fun s f => if Rltb (fst s) (fs_total f) then (fs_total f, fs_nose f) else s) l s).
  { induction l as [|x l IH]; intro s; cbn [map fold_left]; [reflexivity|]. rewrite IH. reflexivity. }
  destruct (v_fuselages v) as [|f l]; [apply A|]. exact (B (f :: l) (1, 0)).
Qed.

(** what the function does, written out *)
Record placing (v v' : vehicle) (nose_load L N : R) : Prop := {
  pl_scales : scales v = (L, N);
  pl_wings : v_wings v' = map place_wing (v_wings v);
  pl_networks : v_networks v' = map place_network (v_networks v);
  pl_fuselages : v_fuselages v' = map place_fuselage (v_fuselages v);
  pl_takeoff : v_takeoff v' = v_takeoff v;
  pl_others : v_others v' = v_others v;
  pl_avionics : put_both (4 / 10 * N) 0 (avionics (v_systems v)) = Some (avionics (v_systems v'));
  pl_furnishings : put_both (51 / 100 * L) 0 (furnishings (v_systems v)) = Some (furnishings (v_systems v'));
  pl_apu : put_both (9 / 10 * L) 0 (apu (v_systems v)) = Some (apu (v_systems v'));
  pl_passengers : put_both (51 / 100 * L) 0 (passengers (v_systems v)) = Some (passengers (v_systems v'));
  pl_baggage : put_both (51 / 100 * L) 0 (baggage (v_systems v)) = Some (baggage (v_systems v'));
  pl_cargo : put_both (51 / 100 * L) 0 (cargo (v_systems v)) = Some (cargo (v_systems v'));
  pl_air : put_both N 0 (air_conditioner (v_systems v)) = Some (air_conditioner (v_systems v'));
  pl_optionals : put_both (51 / 100 * L) 0 (optionals (v_systems v)) = Some (optionals (v_systems v'));
  pl_nose : put_both (25 / 100 * N) 0 (nose_gear (v_systems v)) = Some (nose_gear (v_systems v'));
  pl_electrical : put_both (75 / 100 * (5 / 10 * L) + vx (propulsion_cg (v_networks v)) * (25 / 100)) 0
      (electrical_systems (v_systems v)) = Some (electrical_systems (v_systems v'));
  pl_main : exists main o r lastw ws,
      find_main (map place_wing (v_wings v)) = Some main /\ p_origin (cw_part main) = o :: r /\
      v_wings v = ws ++ [lastw] /\
      put_origin_x (vx o) (put_cg (p_cg (cw_part main)) (fuel (v_systems v))) = Some (fuel (v_systems v')) /\
      put_both (vx o) (vx (p_cg (cw_part main)) + 1 / 10 * cw_mac main) (control_systems (v_systems v))
        = Some (control_systems (v_systems v')) /\
      put_both (75 / 100 * (vx o + vx (p_cg (cw_part (place_wing lastw)))) + 25 / 100 * L * (95 / 100)) 0
        (hydraulics (v_systems v)) = Some (hydraulics (v_systems v'));
  pl_gear : exists v1,
      same_but_gear v' v1 /\ main_gear (v_systems v1) = main_gear (v_systems v) /\
      v_cg v' = center_of_gravity (attributes v1) /\
      put_origin_x (vx (v_cg v') * (sum_mass (attributes v1) - p_mass (main_gear (v_systems v)))
                    / (v_takeoff v - p_mass (main_gear (v_systems v))) / (1 - nose_load))
        (put_cg v0 (main_gear (v_systems v))) = Some (main_gear (v_systems v'))
}.
Lemma rev_map_last (l : list cg_wing) w r : rev (map place_wing l) = w :: r ->
  exists ws lastw, l = ws ++ [lastw] /\ w = place_wing lastw.
Proof.
  intro H. destruct l as [|x l0] using rev_ind; [discriminate|]. rewrite map_app, rev_app_distr in H. cbn in H.
  injection H as <- _. eauto.
Qed.
Lemma place_inv v nl v' : place v nl = Some v' -> exists L N, placing v v' nl L N.
Proof.
  intro H. unfold place in H. destruct (scales v) as [L N] eqn:Es. exists L, N.
  destruct (find_main (map place_wing (v_wings v))) as [main|] eqn:Em; [|discriminate].
  destruct (p_origin (cw_part main)) as [|o r] eqn:Eo; [discriminate|].
  destruct (rev (map place_wing (v_wings v))) as [|lw rw] eqn:Er; [discriminate|].
  destruct (rev_map_last _ _ _ Er) as (ws & lastw & Ew & ->).
  cbv zeta in H.
  repeat match type of H with
         | match ?e with Some _ => _ | None => None end = _ =>
             let q := fresh "q" in let E := fresh "E" in destruct e as [q|] eqn:E; [|discriminate H]
         end.
  injection H as <-.
  constructor; cbn [v_wings v_networks v_fuselages v_systems v_takeoff v_others v_cg
    avionics furnishings apu passengers baggage cargo air_conditioner optionals fuel control_systems
    electrical_systems hydraulics main_gear nose_gear]; try assumption; try reflexivity.
  - exists main, o, r, lastw, ws. repeat (split; [assumption|]). assumption.
  - match type of E12 with put_origin_x (_ * (sum_mass (attributes ?v1) - _) / _ / _) _ = _ => exists v1 end.
    split; [|split; [reflexivity|split; [reflexivity|exact E12]]].
    unfold same_but_gear. cbn. repeat split. eexists; reflexivity.
Qed.

Lemma place_again v nl v' : place v nl = Some v' -> exists v'', place v' nl = Some v'' /\ same_but_gear v' v''.
Proof.
  intro H. destruct (place_inv _ _ _ H) as (L & N & P). destruct P.
  destruct pl_main0 as (main & o & r & lastw & ws & M1 & M2 & M3 & M4 & M5 & M6).
  destruct pl_gear0 as (v1 & _ & _ & _ & G). destruct (put_origin_inv _ _ _ G) as (og & rg & Eg & Eg').
  unfold place. rewrite (scales_again v v' pl_wings0 pl_fuselages0), pl_scales0.
  rewrite pl_wings0, (map_again place_wing _ place_wing_again), M1, M2.
  assert (R : rev (map place_wing (v_wings v)) = place_wing lastw :: rev (map place_wing ws))
    by (rewrite M3, map_app, rev_app_distr; reflexivity).
  rewrite R. rewrite pl_networks0, propulsion_again.
  rewrite (put_both_again _ _ _ _ pl_avionics0), (put_both_again _ _ _ _ pl_furnishings0),
    (put_both_again _ _ _ _ pl_apu0), (put_both_again _ _ _ _ pl_passengers0), (put_both_again _ _ _ _ pl_baggage0),
    (put_both_again _ _ _ _ pl_cargo0), (put_both_again _ _ _ _ pl_air0), (put_both_again _ _ _ _ pl_optionals0).
  assert (F : put_origin_x (vx o) (put_cg (p_cg (cw_part main)) (fuel (v_systems v'))) = Some (fuel (v_systems v'))).
  { destruct (put_origin_inv _ _ _ M4) as (fo & fr & Ef & ->). reflexivity. }
  rewrite F, (put_both_again _ _ _ _ M5), (put_both_again _ _ _ _ pl_electrical0), (put_both_again _ _ _ _ M6),
    (put_both_again _ _ _ _ pl_nose0).
  cbv zeta. match goal with |- context [put_origin_x ?x ?p] => destruct (put_origin_x x p) as [g|] eqn:E end.
  2:{ rewrite Eg' in E. discriminate E. }
  eexists. split; [reflexivity|]. unfold same_but_gear. cbn.
  rewrite pl_wings0, pl_networks0, pl_fuselages0, map_again by apply place_network_again.
  rewrite map_again by apply place_fuselage_again.
  repeat split. exists g. reflexivity.
Qed.

Definition rest_parts (v : vehicle) : list part :=
  let s := v_systems v in
  map fs_part (v_fuselages v) ++ map cw_part (v_wings v) ++ map nw_part (v_networks v) ++
  [avionics s; furnishings s; apu s; air_conditioner s; optionals s; fuel s; control_systems s;
   electrical_systems s; hydraulics s; passengers s; baggage s; cargo s; nose_gear s] ++ counted (v_others v).
Lemma leaves_map {A} (f : A -> part) (g : A -> list item) l :
  flat_map leaves (map (fun x => Comp (f x) (g x)) l) = map f l.
Proof. induction l; cbn; congruence. Qed.
Lemma attributes_parts v : Permutation (counted (attributes v)) (main_gear (v_systems v) :: rest_parts v).
Proof.
  unfold attributes, counted, system_items. rewrite !flat_map_app. cbn [flat_map leaves map app].
  rewrite (leaves_map fs_part (fun _ => [])), (leaves_map cw_part (fun _ => [])),
    (leaves_map nw_part (fun n => map (fun e => Comp e []) (nw_energy n))).
  rewrite !app_nil_r. unfold rest_parts. fold (counted (v_others v)). rewrite <- !app_assoc. cbn [app].
  set (others := counted (v_others v)).
  set (s := v_systems v).
  apply Permutation_sym.
  pose (pre := map fs_part (v_fuselages v) ++ map cw_part (v_wings v) ++ map nw_part (v_networks v)
    ++ [avionics s; furnishings s; apu s; air_conditioner s; optionals s; fuel s; control_systems s;
   electrical_systems s; hydraulics s; passengers s; baggage s; cargo s]).
  transitivity (main_gear s :: pre ++ nose_gear s :: others).
  - unfold pre. rewrite <- !app_assoc. reflexivity.
  - etransitivity; [apply Permutation_middle|]. unfold pre. rewrite <- !app_assoc. reflexivity.
Qed.

Lemma same_rest v w : same_but_gear v w -> rest_parts w = rest_parts v.
Proof.
  intros (A & B & C & D & E & g & F). unfold rest_parts. rewrite A, B, C, E, F. reflexivity.
Qed.
Lemma put_both_mass x c p q : put_both x c p = Some q -> p_mass q = p_mass p.
Proof. intro H. destruct (put_both_inv _ _ _ _ H) as (o & r & _ & ->). reflexivity. Qed.
Lemma put_origin_mass x p q : put_origin_x x p = Some q -> p_mass q = p_mass p.
Proof. intro H. destruct (put_origin_inv _ _ _ H) as (o & r & _ & ->). reflexivity. Qed.
Lemma sum_mass_parts v : sum_mass (attributes v) = p_mass (main_gear (v_systems v)) + mass_of (rest_parts v).
Proof. rewrite sum_mass_counted. unfold mass_of. rewrite (summed_perm _ _ _ (attributes_parts v)). reflexivity. Qed.
Lemma rest_mass v nl v' : place v nl = Some v' -> mass_of (rest_parts v') = mass_of (rest_parts v).
Proof.
  intro H. destruct (place_inv _ _ _ H) as (L & N & P). destruct P.
  destruct pl_main0 as (main & o & r & lastw & ws & M1 & M2 & M3 & M4 & M5 & M6).
  unfold rest_parts, mass_of. rewrite pl_wings0, pl_networks0, pl_fuselages0, pl_others0, !map_map.
  rewrite !summed_app, !summed_map. cbn [summed].
  rewrite (put_both_mass _ _ _ _ pl_avionics0), (put_both_mass _ _ _ _ pl_furnishings0),
    (put_both_mass _ _ _ _ pl_apu0), (put_both_mass _ _ _ _ pl_passengers0), (put_both_mass _ _ _ _ pl_baggage0),
    (put_both_mass _ _ _ _ pl_cargo0), (put_both_mass _ _ _ _ pl_air0), (put_both_mass _ _ _ _ pl_optionals0),
    (put_origin_mass _ _ _ M4), (put_both_mass _ _ _ _ M5), (put_both_mass _ _ _ _ pl_electrical0), (put_both_mass _ _ _ _ M6),
    (put_both_mass _ _ _ _ pl_nose0). reflexivity.
Qed.
Lemma gear_mass v nl v' : place v nl = Some v' -> p_mass (main_gear (v_systems v')) = p_mass (main_gear (v_systems v)).
Proof.
  intro H. destruct (place_inv _ _ _ H) as (L & N & P). destruct P.
  destruct pl_gear0 as (v1 & _ & _ & _ & G). exact (put_origin_mass _ _ _ G).
Qed.
Lemma place_mass v nl v' : place v nl = Some v' -> sum_mass (attributes v') = sum_mass (attributes v).
Proof. intro H. rewrite !sum_mass_parts, (gear_mass _ _ _ H), (rest_mass _ _ _ H). reflexivity. Qed.

Lemma gear_facts v nl v' : place v nl = Some v' -> one_origin (main_gear (v_systems v)) -> sum_mass (attributes v) <> 0 ->
  one_origin (main_gear (v_systems v')) /\ only_x (put_cg v0 (main_gear (v_systems v))) (main_gear (v_systems v')) /\
  (forall f, coordinate f -> f (v_cg v') * sum_mass (attributes v)
    = moment_in f (rest_parts v') + p_mass (main_gear (v_systems v)) * at_coordinate f (main_gear (v_systems v))) /\
  at_coordinate vx (main_gear (v_systems v'))
    = vx (v_cg v') * (sum_mass (attributes v) - p_mass (main_gear (v_systems v)))
      / (v_takeoff v - p_mass (main_gear (v_systems v))) / (1 - nl).
Proof.
  intros H O S. pose proof (place_mass _ _ _ H) as PM. pose proof (gear_mass _ _ _ H) as GM.
  destruct (place_inv _ _ _ H) as (L & N & P). destruct P.
  destruct pl_gear0 as (v1 & S1 & S2 & S3 & G).
  assert (M1 : sum_mass (attributes v1) = sum_mass (attributes v)).
  { rewrite sum_mass_parts, S2, (same_rest _ _ S1), <- PM, sum_mass_parts, GM. reflexivity. }
  rewrite M1 in G. destruct O as [o Eo].
  destruct (put_origin_inv _ _ _ G) as (o' & r & E & E'). cbn in E. rewrite Eo in E. injection E as <- <-.
  split; [rewrite E'; eexists; reflexivity|]. split.
  { rewrite E'. unfold only_x, at_coordinate. cbn. rewrite Eo. cbn. repeat split; lra. }
  split.
  - intros f C. rewrite S3. rewrite <- M1 at 1. rewrite sum_mass_counted, cg_coord by (try exact C; congruence).
    rewrite (summed_perm _ _ _ (attributes_parts v1)). cbn [summed]. rewrite S2, (same_rest _ _ S1). unfold moment_in. lra.
  - rewrite E' at 1. unfold at_coordinate. cbn. lra.
Qed.
Lemma gear_drift v nl v1 v2 : place v nl = Some v1 -> place v1 nl = Some v2 ->
  one_origin (main_gear (v_systems v)) -> sum_mass (attributes v) <> 0 ->
  v_takeoff v = sum_mass (attributes v) -> v_takeoff v <> p_mass (main_gear (v_systems v)) -> nl <> 1 ->
  let x u := at_coordinate vx (main_gear (v_systems u)) in
  x v2 - x v1 = p_mass (main_gear (v_systems v)) / (v_takeoff v * (1 - nl)) * (x v1 - x v).
Proof.
  intros H1 H2 O S T Tg Hn x.
  destruct (gear_facts _ _ _ H1 O S) as (O1 & _ & A1 & B1).
  assert (S1 : sum_mass (attributes v1) <> 0) by (rewrite (place_mass _ _ _ H1); exact S).
  destruct (gear_facts _ _ _ H2 O1 S1) as (O2 & _ & A2 & B2).
  rewrite (place_mass _ _ _ H1), (gear_mass _ _ _ H1) in A2, B2.
  assert (T1 : v_takeoff v1 = v_takeoff v).
  { destruct (place_inv _ _ _ H1) as (L & N & P). apply P. }
  rewrite T1 in B2. specialize (A1 vx c_x). specialize (A2 vx c_x).
  assert (E : rest_parts v2 = rest_parts v1).
  { destruct (place_again _ _ _ H1) as (v2' & P2 & S2). rewrite H2 in P2. injection P2 as <-. now apply same_rest. }
  rewrite E in A2. rewrite <- T in *. fold (x v) (x v1) (x v2) in *.
  set (g := p_mass (main_gear (v_systems v))) in *. set (M := v_takeoff v) in *.
  assert (D : (vx (v_cg v2) - vx (v_cg v1)) * M = g * (x v1 - x v)) by lra.
  assert (B1' : x v1 = vx (v_cg v1) / (1 - nl)) by (rewrite B1; field; split; lra).
  assert (B2' : x v2 = vx (v_cg v2) / (1 - nl)) by (rewrite B2; field; split; lra).
  rewrite B2'. rewrite B1' at 1.
  replace (vx (v_cg v2) / (1 - nl) - vx (v_cg v1) / (1 - nl)) with ((vx (v_cg v2) - vx (v_cg v1)) * M / M / (1 - nl)) by (field; split; lra).
  rewrite D. field. split; lra.
Qed.

(** ** Fuel *)
Definition below (t u : tank) : Prop := t_cg t <= t_cg u.
Lemma insert_perm t l : Permutation (t :: l) (insert_tank t l).
Proof.
  induction l as [|u l IH]; cbn; [reflexivity|]. destruct (Rltb (t_cg u) (t_cg t)); [|reflexivity].
  rewrite perm_swap. now constructor.
Qed.
Lemma sort_perm l : Permutation l (sort_tanks l).
Proof. induction l as [|t l IH]; cbn; [reflexivity|]. rewrite IH at 1. apply insert_perm. Qed.
Lemma insert_sorted t l : StronglySorted below l -> StronglySorted below (insert_tank t l).
Proof.
  induction 1 as [|u l S IH F]; cbn; [constructor; constructor|].
  destruct (Rltb (t_cg u) (t_cg t)) eqn:E; [apply Rltb_true in E|apply Rltb_false in E].
  - constructor; [exact IH|]. rewrite Forall_forall in *. intros x I.
    apply (Permutation_in _ (Permutation_sym (insert_perm t l))) in I. destruct I as [<-|I]; [unfold below; lra|now apply F].
  - constructor; [constructor; assumption|]. constructor; [unfold below; lra|].
    rewrite Forall_forall in *. intros x I. specialize (F x I). unfold below in *. lra.
Qed.
Lemma sort_sorted l : StronglySorted below (sort_tanks l).
Proof. induction l; cbn; [constructor|]. now apply insert_sorted. Qed.

Lemma fill_shift l : forall m n, fill l m n = n + fill l m 0.
Proof.
  induction l as [|t l IH]; intros m n; cbn; [lra|].
  destruct (Req_EM_T m 0); [lra|]. destruct (Rltb (t_full t) m); rewrite IH; [rewrite (IH _ (0 + _))|rewrite (IH 0 (0 + _))]; lra.
Qed.
Lemma fill_0 l n : fill l 0 n = n.
Proof. destruct l; cbn; [reflexivity|]. destruct (Req_EM_T 0 0); [reflexivity|congruence]. Qed.
Definition capacity (l : list tank) : R := summed t_full l.
(** a price for fuel at which the filling is optimal *)
Lemma fill_price l : StronglySorted below l -> Forall (fun t => 0 <= t_full t) l -> forall b m,
  Forall (fun t => b <= t_cg t) l -> 0 <= m <= capacity l ->
  exists c, b <= c /\ fill l m 0 = c * m + summed (fun t => Rmin 0 (t_cg t - c) * t_full t) l.
Proof.
  induction 1 as [|t l S IH F]; intros P b m B M; unfold capacity in *; cbn [fill summed] in *.
  - exists b. split; [lra|]. replace m with 0 by lra. lra.
  - inversion P; subst. inversion B; subst.
    assert (Z : forall c, c <= t_cg t -> summed (fun u => Rmin 0 (t_cg u - c) * t_full u) l = 0).
    { intros c Hc. transitivity (0 * summed t_full l); [|lra]. rewrite <- summed_scale. apply summed_ext.
      rewrite Forall_forall in *. intros u I. specialize (F u I). unfold below in F. rewrite Rmin_left; lra. }
    assert (Sm : m <= t_full t -> exists c, b <= c /\ t_cg t * m
        = c * m + (Rmin 0 (t_cg t - c) * t_full t + summed (fun u => Rmin 0 (t_cg u - c) * t_full u) l)).
    { intros _. exists (t_cg t). split; [assumption|]. rewrite (Z _ (Rle_refl _)), Rmin_left by lra. lra. }
    destruct (Req_EM_T m 0) as [->|Hm].
    + destruct (Sm H1) as (c & Hc & Ec). exists c. split; [exact Hc|lra].
    + destruct (Rltb (t_full t) m) eqn:E; [apply Rltb_true in E|apply Rltb_false in E].
      * destruct (IH H2 (t_cg t) (m - t_full t)) as (c & Hc & Ef).
        { rewrite Forall_forall in *. intros u I. specialize (F u I). exact F. }
        { lra. }
        exists c. split; [lra|]. rewrite fill_shift, Ef, Rmin_right by lra. ring.
      * rewrite fill_shift, fill_0. destruct Sm as (c & Hc & Ec); [lra|]. exists c. split; [exact Hc|lra].
Qed.
Lemma fill_least l d : StronglySorted below l -> loading l d -> loaded d <= capacity l ->
  fill l (loaded d) 0 <= summed (fun q => t_cg (fst q) * snd q) d.
Proof.
  intros S [E D] C.
  assert (P : Forall (fun t => 0 <= t_full t) l).
  { rewrite <- E. clear - D. induction D as [|q d H D IH]; cbn; constructor; [lra|assumption]. }
  assert (M : 0 <= loaded d).
  { apply summed_nonneg. rewrite Forall_forall in *. intros q I. specialize (D q I). lra. }
  assert (B : exists b, Forall (fun t => b <= t_cg t) l).
  { destruct S as [|t l S F]; [exists 0; constructor|]. exists (t_cg t). constructor; [lra|exact F]. }
  destruct B as [b B].
  destruct (fill_price l S P b (loaded d) B (conj M C)) as (c & _ & ->).
  rewrite <- E, summed_map. unfold loaded. rewrite <- summed_scale, <- summed_plus. apply summed_le.
  rewrite Forall_forall in *. intros q I. specialize (D q I).
  unfold Rmin. destruct (Rle_dec 0 (t_cg (fst q) - c)) as [K|K].
  - assert (0 <= (t_cg (fst q) - c) * snd q) by (apply Rmult_le_pos; lra). lra.
  - assert (0 <= (c - t_cg (fst q)) * (t_full (fst q) - snd q)) by (apply Rmult_le_pos; lra). lra.
Qed.
Lemma loading_capacity l d : loading l d -> loaded d <= capacity l.
Proof.
  intros [<- D]. unfold loaded, capacity. rewrite summed_map. apply summed_le.
  rewrite Forall_forall in *. intros q I. specialize (D q I). lra.
Qed.
Lemma fill_attained l : Forall (fun t => 0 <= t_full t) l -> forall m, 0 <= m <= capacity l ->
  exists d, loading l d /\ loaded d = m /\ summed (fun q => t_cg (fst q) * snd q) d = fill l m 0.
Proof.
  induction 1 as [|t l H P IH]; intros m M; unfold capacity in *; cbn [summed fill] in *.
  - exists []. repeat split; [constructor|unfold loaded; cbn; lra].
  - pose proof (summed_nonneg t_full l P).
    assert (K : m <= t_full t -> exists d, loading (t :: l) d /\ loaded d = m /\
        summed (fun q => t_cg (fst q) * snd q) d = t_cg t * m).
    { intro Hm. destruct (IH 0) as (d & [D1 D2] & D3 & D4); [lra|]. exists ((t, m) :: d). unfold loaded in *. cbn.
      rewrite fill_0 in D4. repeat split; [cbn; now rewrite D1|constructor; [cbn; lra|assumption]|lra|lra]. }
    destruct (Req_EM_T m 0) as [->|Hm].
    + destruct (K H) as (d & D1 & D2 & D3). exists d. repeat split; try assumption; [apply D1|apply D1|lra].
    + destruct (Rltb (t_full t) m) eqn:E; [apply Rltb_true in E|apply Rltb_false in E].
      * destruct (IH (m - t_full t)) as (d & [D1 D2] & D3 & D4); [lra|].
        exists ((t, t_full t) :: d). unfold loaded in *. cbn. rewrite fill_shift.
        repeat split; [cbn; now rewrite D1|constructor; [cbn; lra|assumption]|lra|lra].
      * rewrite fill_shift, fill_0. destruct (K ltac:(lra)) as (d & D1 & D2 & D3). exists d. repeat split; try assumption; [apply D1|apply D1|lra].
Qed.
(** the other direction by mirroring *)
Definition mirror (t : tank) : tank := Tank (- t_cg t) (t_full t).
Lemma fill_mirror l : forall m n, fill (map mirror l) m (- n) = - fill l m n.
Proof.
  induction l as [|t l IH]; intros m n; cbn; [reflexivity|].
  destruct (Req_EM_T m 0); [reflexivity|].
  destruct (Rltb (t_full t) m); rewrite <- IH; f_equal; ring.
Qed.
Lemma sorted_snoc l x : StronglySorted below l -> Forall (fun y => below y x) l -> StronglySorted below (l ++ [x]).
Proof.
  induction 1 as [|u l S IH F]; intro Q; cbn; [constructor; constructor|]. inversion Q; subst. constructor; [now apply IH|].
  apply Forall_app. split; [exact F|constructor; [assumption|constructor]].
Qed.
Lemma sorted_mirror l : StronglySorted below l -> StronglySorted below (map mirror (rev l)).
Proof.
  induction 1 as [|u l S IH F]; cbn; [constructor|]. rewrite map_app. cbn. apply sorted_snoc; [exact IH|].
  rewrite Forall_forall in *. intros x I. apply in_map_iff in I. destruct I as (y & <- & I). apply in_rev in I.
  specialize (F y I). unfold below in *. cbn. lra.
Qed.
Lemma fill_greatest l d : StronglySorted below l -> loading (rev l) d ->
  summed (fun q => t_cg (fst q) * snd q) d <= fill (rev l) (loaded d) 0.
Proof.
  intros S [E D]. pose (d' := map (fun q => (mirror (fst q), snd q)) d).
  assert (L : loading (map mirror (rev l)) d').
  { split.
    - unfold d'. rewrite map_map. cbn. rewrite <- E, map_map. reflexivity.
    - unfold d'. rewrite Forall_forall in *. intros x I. apply in_map_iff in I. destruct I as (y & <- & I).
      specialize (D y I). cbn. exact D. }
  pose proof (fill_least _ _ (sorted_mirror l S) L (loading_capacity _ _ L)) as K.
  assert (E1 : loaded d' = loaded d) by (unfold loaded, d'; now rewrite summed_map).
  assert (E2 : summed (fun q => t_cg (fst q) * snd q) d' = - summed (fun q => t_cg (fst q) * snd q) d).
  { unfold d'. rewrite summed_map. cbn. transitivity (summed (fun q => (-1) * (t_cg (fst q) * snd q)) d).
    - apply summed_ext. apply Forall_forall. intros q _. ring.
    - rewrite summed_scale. ring. }
  rewrite E1, E2 in K. replace 0 with (- 0) in K by ring. rewrite fill_mirror in K. lra.
Qed.
Lemma loading_perm l l' d : Permutation l l' -> loading l d -> exists d', loading l' d' /\ Permutation d d'.
Proof.
  intros P [E D]. subst l. apply Permutation_sym in P. destruct (Permutation_map_inv _ _ P) as (d' & E & Q).
  exists d'. split; [|exact Q]. split; [now symmetry|].
  rewrite Forall_forall in *. intros x I. apply D. apply (Permutation_in _ (Permutation_sym Q) I).
Qed.
Lemma fuel_masses_bound total m : In m (fuel_masses total) -> 1 / 1000000 <= total -> 1 / 1000000 <= m <= total.
Proof.
  intros I H. unfold fuel_masses in I. apply in_map_iff in I. destruct I as (k & <- & I). apply in_seq in I.
  assert (K : 0 <= INR k <= 49).
  { split; [apply pos_INR|]. replace 49 with (INR 49) by (cbn; lra). apply le_INR. lia. }
  assert (A : 0 <= INR k * ((total - 1 / 1000000) / 49)) by (apply Rmult_le_pos; lra).
  assert (B : INR k * ((total - 1 / 1000000) / 49) <= 49 * ((total - 1 / 1000000) / 49)) by (apply Rmult_le_compat_r; lra).
  lra.
Qed.
Lemma fuel_range_row wt ft m lo hi : In (m, lo, hi) (fuel_range wt ft) ->
  let tanks := List.concat wt ++ List.concat ft in
  Forall (fun t => 0 <= t_full t) tanks -> 1 / 1000000 <= summed t_full tanks ->
  (forall d, loading tanks d -> loaded d = m -> lo <= loading_cg d <= hi) /\
  (exists d, loading tanks d /\ loaded d = m /\ loading_cg d = lo) /\
  (exists d, loading tanks d /\ loaded d = m /\ loading_cg d = hi).
Proof.
  intros I tanks P C. unfold fuel_range in I. fold tanks in I. cbv zeta in I. rewrite fold_summed, Rplus_0_l in I.
  rewrite <- (summed_perm t_full _ _ (sort_perm tanks)) in I.
  apply in_map_iff in I. destruct I as (m' & E & I). injection E as -> <- <-.
  apply fuel_masses_bound in I; [|exact C]. assert (Hm : 0 < m) by lra.
  assert (SP : Forall (fun t => 0 <= t_full t) (sort_tanks tanks)).
  { rewrite Forall_forall in *. intros x J. apply P. apply (Permutation_in _ (Permutation_sym (sort_perm tanks)) J). }
  assert (CS : capacity (sort_tanks tanks) = summed t_full tanks) by (symmetry; apply summed_perm, sort_perm).
  assert (CR : capacity (rev (sort_tanks tanks)) = summed t_full tanks).
  { rewrite <- CS. apply summed_perm, Permutation_sym, Permutation_rev. }
  split; [|split].
  - intros d D L.
    destruct (loading_perm _ _ _ (sort_perm tanks) D) as (d1 & D1 & Q1).
    destruct (loading_perm _ _ _ (Permutation_rev (sort_tanks tanks)) D1) as (d2 & D2 & Q2).
    assert (L1 : loaded d1 = m) by (rewrite <- L; symmetry; now apply summed_perm).
    assert (L2 : loaded d2 = m) by (rewrite <- L1; symmetry; now apply summed_perm).
    pose proof (fill_least _ _ (sort_sorted tanks) D1 (loading_capacity _ _ D1)) as A.
    pose proof (fill_greatest _ _ (sort_sorted tanks) D2) as B. rewrite L1 in A. rewrite L2 in B.
    rewrite <- (summed_perm _ _ _ Q2) in B. rewrite <- (summed_perm _ _ _ Q1) in A, B.
    unfold loading_cg. rewrite L. pose proof (Rinv_0_lt_compat m Hm). unfold Rdiv. split; apply Rmult_le_compat_r; lra.
  - destruct (fill_attained _ SP m) as (d & D & L & E); [unfold capacity in *; lra|].
    destruct (loading_perm _ _ _ (Permutation_sym (sort_perm tanks)) D) as (d' & D' & Q).
    exists d'. split; [exact D'|]. unfold loading_cg, loaded in *. rewrite <- !(summed_perm _ _ _ Q), L, E. auto.
  - assert (RP : Forall (fun t => 0 <= t_full t) (rev (sort_tanks tanks))) by now apply Forall_rev.
    destruct (fill_attained _ RP m) as (d & D & L & E); [unfold capacity in *; lra|].
    assert (Q0 : Permutation (rev (sort_tanks tanks)) tanks).
    { etransitivity; [apply Permutation_sym, Permutation_rev|]. apply Permutation_sym, sort_perm. }
    destruct (loading_perm _ _ _ Q0 D) as (d' & D' & Q).
    exists d'. split; [exact D'|]. unfold loading_cg, loaded in *. rewrite <- !(summed_perm _ _ _ Q), L, E. auto.
Qed.
