(** * Proofs: deflected surfaces *)
From Coq Require Import Reals List Bool Arith Lra Lia.
From Verif Require Import PyBase M_Opt M_Rot M_Noise M_Evtol M_Vlm M_Field M_Grid S_Vlm S_Rot S_Grid P_Opt P_Noise P_Field P_Rotor P_Vlm P_Grid2.
Import ListNotations.
Local Open Scope R_scope.

Lemma v3_eq a b : vx a = vx b -> vy a = vy b -> vz a = vz b -> a = b.
Proof. destruct a as [a1 a2 a3], b as [b1 b2 b3]. cbn. congruence. Qed.
(** the turn in vectors *)
Lemma rodrigues p u t x : vdot u u = 1 ->
  hinge_turn p u t x = let r := minus x p in plus p (plus (plus (scaled (cos t) r) (scaled (sin t) (cross u r))) (scaled ((1 - cos t) * vdot u r) u)).
Proof.
  intro U. destruct p as [a b c], u as [i j k], x as [x y z]. unfold hinge_turn. cbv zeta. cbn [vx vy vz]. unfold vdot in U. cbn in U.
  assert (E1 : j * j + k * k = 1 - i * i) by lra. assert (E2 : i * i + k * k = 1 - j * j) by lra. assert (E3 : i * i + j * j = 1 - k * k) by lra.
  rewrite E1, E2, E3. unfold plus, scaled, cross, minus, vdot. cbn [vx vy vz]. f_equal; ring.
Qed.
Lemma turn_compose p u s t x : vdot u u = 1 -> hinge_turn p u s (hinge_turn p u t x) = hinge_turn p u (s + t) x.
Proof.
  intro U. rewrite !rodrigues by exact U. rewrite cos_plus, sin_plus. cbv zeta.
  assert (M : forall w, minus (plus p w) p = w) by (intros []; apply v3_eq; unfold minus, plus; cbn; ring). rewrite M. generalize (minus x p). clear M x. intros [x y z].
  f_equal. destruct u as [i j k]. unfold vdot in U. cbn in U.
  assert (E : k * k = 1 - i * i - j * j) by lra. clear U. generalize (cos s), (sin s), (cos t), (sin t). intros cs ss ct st.
  unfold plus, scaled, cross, vdot. cbn [vx vy vz]. f_equal; ring [E].
Qed.
Lemma turn_zero p u x : vdot u u = 1 -> hinge_turn p u 0 x = x.
Proof.
  intro U. rewrite rodrigues by exact U. rewrite cos_0, sin_0. destruct p as [a b c], x as [x y z]. unfold plus, scaled, cross, minus, vdot. cbn [vx vy vz]. f_equal; ring.
Qed.
Lemma turn_axis p u t s : vdot u u = 1 -> hinge_turn p u t (plus p (scaled s u)) = plus p (scaled s u).
Proof.
  intro U. rewrite rodrigues by exact U. destruct p as [a b c], u as [i j k]. unfold vdot in U. cbn in U.
  assert (E : k * k = 1 - i * i - j * j) by lra. unfold plus, scaled, cross, minus, vdot. cbn [vx vy vz]. f_equal; ring [E].
Qed.
Lemma turn_part p u t f a b : hinge_turn p u t (part f a b) = part f (hinge_turn p u t a) (hinge_turn p u t b).
Proof. unfold part, plus, scaled, minus, hinge_turn. cbv zeta. cbn [vx vy vz]. f_equal; ring. Qed.
Lemma turn_spec p u t x : vdot u u = 1 -> turned_about p u t x (hinge_turn p u t x).
Proof.
  intro U. rewrite rodrigues by exact U. unfold turned_about. cbv zeta. destruct p as [a b c], u as [i j k], x as [x y z]. unfold vdot in U. cbn in U.
  assert (E : k * k = 1 - i * i - j * j) by lra. unfold plus, scaled, cross, minus, vdot. cbn [vx vy vz]. split; [ring [E]|]. f_equal; ring [E].
Qed.
Lemma turn_unique p u t x y : turned_about p u t x y -> vdot u u = 1 -> y = hinge_turn p u t x.
Proof.
  intros [H1 H2] U. rewrite rodrigues by exact U. cbv zeta in *. destruct p as [a b c], u as [i j k], x as [x1 y1 z1], y as [x2 y2 z2].
  unfold plus, scaled, cross, minus, vdot in *. cbn [vx vy vz] in *.
  pose proof (f_equal vx H2) as X. pose proof (f_equal vy H2) as Y. pose proof (f_equal vz H2) as Z. cbn [vx vy vz] in X, Y, Z. rewrite H1 in X, Y, Z. f_equal; lra.
Qed.
(** maps that keep lengths: turned the same way when [e] is 1, the other way when it is -1 *)
Record rigid (F : v3 -> v3) (e : R) : Prop := {
  rg_linear : forall k a b, F (plus a (scaled k b)) = plus (F a) (scaled k (F b));
  rg_dot : forall a b, vdot (F a) (F b) = vdot a b;
  rg_cross : forall a b, cross (F a) (F b) = scaled e (F (cross a b));
  rg_sign : e = 1 \/ e = -1 }.
Lemma rigid_minus F e a b : rigid F e -> F (minus a b) = minus (F a) (F b).
Proof.
  intros [L _ _ _]. specialize (L (-1) a b). assert (E : plus a (scaled (-1) b) = minus a b) by (unfold plus, scaled, minus; cbn; f_equal; ring).
  rewrite E in L. rewrite L. unfold plus, scaled, minus. cbn. f_equal; ring.
Qed.
Lemma rigid_scaled F e k b : rigid F e -> F (scaled k b) = scaled k (F b).
Proof.
  intros [L _ _ _].
  assert (Z : F (V3 0 0 0) = V3 0 0 0).
  { specialize (L (-1) (V3 0 0 0) (V3 0 0 0)). unfold plus, scaled in L. cbn in L. replace (0 + -1 * 0) with 0 in L by ring. destruct (F (V3 0 0 0)) as [x y z].
    cbn in L. injection L as A B C. f_equal; lra. }
  specialize (L k (V3 0 0 0) b). rewrite Z in L. assert (E : plus (V3 0 0 0) (scaled k b) = scaled k b) by (unfold plus, scaled; cbn; f_equal; ring).
  rewrite E in L. rewrite L. unfold plus, scaled. cbn. f_equal; ring.
Qed.
Lemma rigid_plus F e a b : rigid F e -> F (plus a b) = plus (F a) (F b).
Proof. intros [L _ _ _]. specialize (L 1 a b). assert (E : forall x, scaled 1 x = x) by (intros [x y z]; unfold scaled; cbn; f_equal; ring). rewrite !E in L. exact L. Qed.
Lemma rigid_part F e f a b : rigid F e -> F (part f a b) = part f (F a) (F b).
Proof. intro H. unfold part. rewrite (rg_linear _ _ H), (rigid_minus F e _ _ H). reflexivity. Qed.
Lemma rigid_norm F e a : rigid F e -> norm (F a) = norm a.
Proof. intro H. unfold norm. rewrite (rg_dot _ _ H). reflexivity. Qed.
Lemma rigid_turn F e p u t x : rigid F e -> vdot u u = 1 -> hinge_turn (F p) (F u) t (F x) = F (hinge_turn p u (e * t) x).
Proof.
  intros H U. rewrite !rodrigues by (rewrite ?(rg_dot _ _ H); exact U). cbv zeta.
  assert (CS : cos (e * t) = cos t /\ sin (e * t) = e * sin t).
  { destruct (rg_sign _ _ H) as [-> | ->]; [rewrite Rmult_1_l; split; ring|]. replace (-1 * t) with (- t) by ring. rewrite cos_neg, sin_neg. split; ring. }
  destruct CS as [-> ->]. rewrite !(rigid_plus F e _ _ H), !(rigid_scaled F e _ _ H), (rigid_minus F e _ _ H). rewrite <- (rigid_minus F e _ _ H), (rg_dot _ _ H), (rg_cross _ _ H).
  unfold plus, scaled. cbn [vx vy vz]. f_equal; ring.
Qed.
Lemma rigid_unit F e a b : rigid F e -> F (unit_from a b) = unit_from (F a) (F b).
Proof. intro H. unfold unit_from. rewrite (rigid_scaled F e _ _ H), (rigid_minus F e _ _ H). rewrite <- (rigid_minus F e _ _ H), (rigid_norm F e _ H). reflexivity. Qed.
Lemma minus_zero a b : minus b a = V3 0 0 0 -> a = b.
Proof. intro H. destruct a as [a1 a2 a3], b as [b1 b2 b3]. unfold minus in H. cbn in H. injection H as A B C. f_equal; lra. Qed.
Lemma norm_nonzero a b : a <> b -> 0 < norm (minus b a).
Proof.
  intro N. unfold norm. apply sqrt_lt_R0. destruct (minus b a) as [x y z] eqn:E. unfold vdot. cbn [vx vy vz].
  destruct (Req_dec x 0) as [->|X]; [|nra]. destruct (Req_dec y 0) as [->|Y]; [|nra]. destruct (Req_dec z 0) as [->|Z]; [|nra]. exfalso. apply N, minus_zero, E.
Qed.
Lemma unit_unit a b : a <> b -> vdot (unit_from a b) (unit_from a b) = 1.
Proof.
  intro N. pose proof (norm_nonzero a b N) as P. unfold unit_from. set (n := norm (minus b a)) in *. assert (Q : n * n = vdot (minus b a) (minus b a)).
  { unfold n, norm. apply sqrt_sqrt. unfold vdot. nra. }
  transitivity (/ n * / n * vdot (minus b a) (minus b a)); [unfold vdot, scaled; cbn; ring|]. rewrite <- Q. field. lra.
Qed.
Lemma unit_far a b : a <> b -> b = plus a (scaled (norm (minus b a)) (unit_from a b)).
Proof.
  intro N. pose proof (norm_nonzero a b N) as P. unfold unit_from. set (n := norm (minus b a)) in *. apply v3_eq; unfold plus, scaled, minus; cbn; field; lra.
Qed.

(** the axes of vertical surfaces *)
Lemma flips v inv a : (v = true -> inv = 1 \/ inv = -1) -> flip_2 v inv (flip_1 v inv a) = a.
Proof. intro H. unfold flip_1, flip_2. destruct v; [|reflexivity]. destruct a as [x y z]. cbn. f_equal. destruct (H eq_refl) as [-> | ->]; ring. Qed.
Lemma flip_rigid v inv : (v = true -> inv = 1 \/ inv = -1) -> rigid (flip_1 v inv) (if v then - inv else 1).
Proof.
  intro H. destruct v.
  - split; intros; unfold flip_1, plus, scaled, cross, vdot; cbn [vx vy vz].
    + f_equal; ring.
    + destruct (H eq_refl) as [-> | ->]; ring.
    + destruct (H eq_refl) as [-> | ->]; f_equal; ring.
    + destruct (H eq_refl) as [-> | ->]; [right|left]; ring.
  - split; intros; unfold flip_1, plus, scaled, cross, vdot; cbn [vx vy vz]; auto; f_equal; ring.
Qed.
Lemma opposite_rigid v : rigid (opposite v) (-1).
Proof. split; intros; unfold opposite, mirror; destruct v; unfold plus, scaled, cross, vdot; cbn [vx vy vz]; auto; try (f_equal; ring); ring. Qed.
Lemma between_part f a b : 0 <= f <= 1 -> between f a b = part f a b.
Proof.
  intros [F0 F1]. unfold between, part, plus, scaled, minus. cbv zeta. cbn [interp vx vy vz].
  assert (E : forall x y, (if Rltb f 0 then x else if Rltb f 1 then x + (y - x) / (1 - 0) * (f - 0) else y) = x + f * (y - x)).
  { intros x y. destruct (Rltb f 0) eqn:A; [apply Rltb_true in A; lra|]. destruct (Rltb f 1) eqn:B; [field|]. apply Rltb_false in B. replace f with 1 by lra. ring. }
  rewrite !E. reflexivity.
Qed.

Definition turn_side (m : moving) (mirror : bool) (angle : R) (s : list (list points)) : list (list points) :=
  every (hinge_turn (inner_hinge m s) (unit_from (inner_hinge m s) (outer_hinge m s)) (way m mirror * angle)) s.
Lemma first_panels F : forall s : list (list points), hd [] s <> [] ->
  hd no_points (hd [] (every F s)) = map_points F (hd no_points (hd [] s)) /\ last (hd [] (every F s)) no_points = map_points F (last (hd [] s) no_points).
Proof.
  intros [|s r] N; [exfalso; apply N; reflexivity|]. cbn [every map hd] in *. destruct s as [|p s]; [exfalso; apply N; reflexivity|]. split; [reflexivity|]. clear N r. revert p.
  induction s as [|q s IH]; intro p; [reflexivity|]. cbn [map] in *. specialize (IH q). cbn [last] in *. exact IH.
Qed.
Lemma hinge_every F e m m' s : rigid F e -> d_fraction m' = d_fraction m -> hd [] s <> [] ->
  inner_hinge m' (every F s) = F (inner_hinge m s) /\ outer_hinge m' (every F s) = F (outer_hinge m s).
Proof.
  intros H E N. destruct (first_panels F s N) as [A B]. unfold inner_hinge, outer_hinge. rewrite A, B, E. unfold map_points. cbn [t_a1 t_a2 t_b1 t_b2].
  rewrite !(rigid_part F e) by exact H. auto.
Qed.
Lemma has_strip m s : inner_hinge m s <> outer_hinge m s -> hd [] s <> [].
Proof. intros H E. apply H. unfold inner_hinge, outer_hinge. rewrite E. reflexivity. Qed.
Lemma every_every F G s : every F (every G s) = every (fun x => F (G x)) s.
Proof. unfold every. rewrite map_map. apply map_ext. intro l. rewrite map_map. apply map_ext. intro p. reflexivity. Qed.
Lemma every_ext F G s : (forall x, F x = G x) -> every F s = every G s.
Proof. intro H. unfold every. apply map_ext. intro l. apply map_ext. intro p. unfold map_points. rewrite !H. reflexivity. Qed.
Lemma every_id F s : (forall x, F x = x) -> every F s = s.
Proof.
  intro H. rewrite (every_ext F (fun x => x) s H). unfold every. rewrite <- (map_id s) at 2. apply map_ext. intro l. rewrite <- (map_id l) at 2. apply map_ext. intros []. reflexivity.
Qed.
Lemma hinge_chord m h s : (d_cs m = true \/ d_constant m = true) -> 0 <= d_fraction m <= 1 ->
  hinge_of m h (hd [] s) = (inner_hinge m s, unit_from (inner_hinge m s) (outer_hinge m s)).
Proof.
  intros K F. unfold hinge_of. assert (E : d_cs m || d_constant m || is_zero h = true) by (destruct K as [-> | ->]; rewrite ?orb_true_r; reflexivity). rewrite E. cbv zeta.
  assert (E2 : negb (d_cs m) && negb (d_constant m) = false) by (destruct K as [-> | ->]; cbn; rewrite ?andb_false_r; reflexivity). rewrite E2.
  rewrite !between_part by exact F. reflexivity.
Qed.
Lemma deflect_side_ok m h mirror d s : hinged m -> inner_hinge m s <> outer_hinge m s -> snd (deflect_side m h mirror d s) = turn_side m mirror (d - d_last m) s.
Proof.
  intros [K F _ UP] N. unfold deflect_side. change (map (map (map_points (flip_1 (d_vertical m) (d_inverted m)))) s) with (every (flip_1 (d_vertical m) (d_inverted m)) s).
  pose proof (flip_rigid _ _ UP) as R. set (e := if d_vertical m then - d_inverted m else 1) in R.
  rewrite hinge_chord by assumption. cbn [snd]. destruct (hinge_every _ _ m m s R eq_refl (has_strip m s N)) as [A B]. rewrite A, B.
  match goal with |- map (map (map_points ?F)) ?t = _ => change (every F t = turn_side m mirror (d - d_last m) s) end. rewrite every_every. unfold turn_side. apply every_ext. intro x.
  rewrite <- (rigid_unit _ _ _ _ R), (rigid_turn _ _ _ _ _ _ R) by (apply unit_unit; exact N). rewrite flips by exact UP. f_equal.
  unfold turn_angle, way, e. destruct (d_vertical m); ring.
Qed.
Lemma deflect_sides_ok m d : hinged m -> forall l h mirror, Forall (fun s => inner_hinge m s <> outer_hinge m s) l ->
  snd (deflect_sides m h mirror d l) = match l with [] => [] | s :: r => turn_side m mirror (d - d_last m) s :: map (turn_side m true (d - d_last m)) r end.
Proof.
  intro H. induction l as [|s r IH]; intros h mirror F; [reflexivity|]. inversion F as [|? ? F1 F2]; subst. cbn [deflect_sides].
  pose proof (deflect_side_ok m h mirror d s H F1) as E. destruct (deflect_side m h mirror d s) as [u s']. cbn [snd] in E. subst s'.
  specialize (IH u true F2). destruct (deflect_sides m u true d r) as [u' r']. cbn [snd] in *. rewrite IH. f_equal. destruct r; reflexivity.
Qed.
Definition turn_all (m : moving) (angle : R) : list (list (list points)) :=
  match d_sides m with [] => [] | s :: r => turn_side m false angle s :: map (turn_side m true angle) r end.
Lemma deflect_fields m d : d_vertical (deflect m d) = d_vertical m /\ d_inverted (deflect m d) = d_inverted m /\ d_cs (deflect m d) = d_cs m /\ d_slat (deflect m d) = d_slat m /\
  d_dup (deflect m d) = d_dup m /\ d_fraction (deflect m d) = d_fraction m /\ d_constant (deflect m d) = d_constant m /\ d_last (deflect m d) = d.
Proof. unfold deflect. destruct (deflect_sides m (d_hinge m) false d (d_sides m)) as [h l]. cbn. repeat split. Qed.
Lemma deflect_ok m d : hinged m -> d_sides (deflect m d) = turn_all m (d - d_last m).
Proof.
  intro H. unfold deflect, turn_all. pose proof (deflect_sides_ok m d H (d_sides m) (d_hinge m) false (hg_line m H)) as E.
  destruct (deflect_sides m (d_hinge m) false d (d_sides m)) as [h l]. cbn [snd d_sides] in *. exact E.
Qed.
(** the hinge line stays *)
Lemma hinge_fixed m m' mirror angle s : d_fraction m' = d_fraction m -> inner_hinge m s <> outer_hinge m s ->
  inner_hinge m' (turn_side m mirror angle s) = inner_hinge m s /\ outer_hinge m' (turn_side m mirror angle s) = outer_hinge m s.
Proof.
  intros E N. pose proof (unit_unit _ _ N) as U. set (p := inner_hinge m s) in *. set (q := outer_hinge m s) in *.
  destruct (first_panels (hinge_turn p (unit_from p q) (way m mirror * angle)) s (has_strip m s N)) as [A B].
  assert (P0 : p = plus p (scaled 0 (unit_from p q))) by (apply v3_eq; unfold plus, scaled; cbn; ring).
  split.
  - unfold inner_hinge at 1. unfold turn_side. fold p q. rewrite A, B, E. unfold map_points. cbn [t_a1 t_a2]. rewrite <- turn_part.
    change (part (d_fraction m) (t_a1 (hd no_points (hd [] s))) (t_a2 (last (hd [] s) no_points))) with p. pose proof (turn_axis p _ (way m mirror * angle) 0 U) as T. rewrite <- P0 in T. exact T.
  - unfold outer_hinge at 1. unfold turn_side. fold p q. rewrite A, B, E. unfold map_points. cbn [t_b1 t_b2]. rewrite <- turn_part.
    change (part (d_fraction m) (t_b1 (hd no_points (hd [] s))) (t_b2 (last (hd [] s) no_points))) with q. pose proof (turn_axis p _ (way m mirror * angle) (norm (minus q p)) U) as T. rewrite <- (unit_far p q N) in T. exact T.
Qed.
Lemma way_same m m' mirror : d_slat m' = d_slat m -> d_dup m' = d_dup m -> d_vertical m' = d_vertical m -> d_inverted m' = d_inverted m -> way m' mirror = way m mirror.
Proof. intros A B C D. unfold way. rewrite A, B, C, D. reflexivity. Qed.
Lemma hinged_deflect m d : hinged m -> hinged (deflect m d).
Proof.
  intro H. destruct (deflect_fields m d) as (V & I & C & S & D & F & K & L). split; rewrite ?V, ?I, ?C, ?F, ?K; try apply H.
  rewrite (deflect_ok m d H). pose proof (hg_line m H) as G. unfold turn_all. destruct (d_sides m) as [|s r]; [constructor|]. inversion G as [|? ? G1 G2]; subst.
  constructor.
  - destruct (hinge_fixed m (deflect m d) false (d - d_last m) s F G1) as [-> ->]. exact G1.
  - rewrite Forall_map. eapply Forall_impl; [|exact G2]. intros t T. cbn. destruct (hinge_fixed m (deflect m d) true (d - d_last m) t F T) as [-> ->]. exact T.
Qed.
Lemma turn_side_twice m m' mirror x y s : d_fraction m' = d_fraction m -> way m' mirror = way m mirror -> inner_hinge m s <> outer_hinge m s ->
  turn_side m' mirror y (turn_side m mirror x s) = turn_side m mirror (x + y) s.
Proof.
  intros F W N. unfold turn_side at 1. destruct (hinge_fixed m m' mirror x s F N) as [-> ->]. unfold turn_side. rewrite every_every. apply every_ext. intro v.
  rewrite turn_compose by (apply unit_unit; exact N). rewrite W. f_equal. ring.
Qed.
Lemma deflect_twice m d d' : hinged m -> d_sides (deflect (deflect m d) d') = d_sides (deflect m d').
Proof.
  intro H. rewrite (deflect_ok (deflect m d) d' (hinged_deflect m d H)), (deflect_ok m d' H). destruct (deflect_fields m d) as (V & I & C & S & D & F & K & L).
  unfold turn_all. rewrite (deflect_ok m d H), L. unfold turn_all. pose proof (hg_line m H) as G. destruct (d_sides m) as [|s r]; [reflexivity|]. inversion G as [|? ? G1 G2]; subst.
  f_equal.
  - rewrite turn_side_twice by (auto; apply way_same; auto). f_equal. ring.
  - rewrite map_map. apply map_ext_in. intros t T. rewrite Forall_forall in G2. rewrite turn_side_twice by (auto; apply way_same; auto). f_equal. ring.
Qed.
