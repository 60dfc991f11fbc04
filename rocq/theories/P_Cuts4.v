(** * Proofs: surfaces that fit the wing *)
From Coq Require Import Reals List Bool Arith ZArith Lra Lia Sorted Permutation.
From Verif Require Import PyBase M_Opt M_Rot M_Noise M_Evtol M_Vlm M_Field M_Grid M_Cuts S_Grid S_Cuts P_Opt P_Field P_Grid P_Cuts.
Import ListNotations.
Local Open Scope R_scope.

Lemma interp_shift s : forall pts x, interp (x - s) (map (fun p => (fst p - s, snd p)) pts) = interp x pts.
Proof.
  induction pts as [|[a b] r IH]; intro x; [reflexivity|]. destruct r as [|[a' b'] r]; [reflexivity|]. cbn [map fst snd]. rewrite !interp_cons. rewrite <- IH. cbn [map fst snd].
  replace (Rltb (x - s) (a - s)) with (Rltb x a) by (destruct (Rltb x a) eqn:E; symmetry; [apply Rltb_true in E; apply Rltb_true|apply Rltb_false in E; apply Rltb_false]; lra).
  replace (Rltb (x - s) (a' - s)) with (Rltb x a') by (destruct (Rltb x a') eqn:E; symmetry; [apply Rltb_true in E; apply Rltb_true|apply Rltb_false in E; apply Rltb_false]; lra).
  replace (a' - s - (a - s)) with (a' - a) by ring. replace (x - s - (a - s)) with (x - a) by ring. reflexivity.
Qed.
Lemma along_value f a b y : g_y a < g_y b -> g_y a <= y <= g_y b -> along f a b y = value f a b y.
Proof.
  intros AB Y. unfold along, value. rewrite interp_cons. destruct (Rltb y (g_y a)) eqn:E; [apply Rltb_true in E; lra|]. destruct (Rltb y (g_y b)) eqn:E2.
  - field. lra.
  - apply Rltb_false in E2. assert (y = g_y b) by lra. subst y. cbn. field. lra.
Qed.
Lemma value_lin f a b u v t : g_y a < g_y b -> value f a b u + t * (value f a b v - value f a b u) = value f a b (u + t * (v - u)).
Proof. intros. unfold value. field. lra. Qed.
Section Fits.
Context (w : surface) (half : R) (a b : segment) (start end_ cf : R) (slat : bool) (tip_camber : list (R * R)).
Context (W : w_cut w = None) (H : 0 < half) (AB : g_y a < g_y b) (SA : g_y a <= start) (SE : start < end_) (EB : end_ <= g_y b) (CF : 0 < cf) (OF : offsets_from half a b) (CA : 0 < g_chord a) (CB : 0 < g_chord b).
Let w' := cut_surface w half a b start cf slat.
Let root := cut_root half a b start cf slat.
Let tip := cut_tip half a b start end_ cf slat tip_camber.
Lemma wing_at f s t y1 y2 u : y1 <> y2 -> s = value f a b y1 -> t = value f a b y2 -> s + (u * half - y1 * half) * ((t - s) / (y2 * half - y1 * half)) = value f a b u.
Proof.
  intros N -> ->. replace (u * half - y1 * half) with ((u - y1) * half) by ring. replace (y2 * half - y1 * half) with ((y2 - y1) * half) by ring.
  replace ((u - y1) * half * ((value f a b y2 - value f a b y1) / ((y2 - y1) * half))) with ((u - y1) / (y2 - y1) * (value f a b y2 - value f a b y1)) by (field; lra).
  rewrite value_lin by exact AB. f_equal. field. lra.
Qed.
Lemma cut_chord u : chord_at root tip (u * half - start * half) = cf * value g_chord a b u.
Proof.
  unfold chord_at, root, tip, cut_root, cut_tip. cbn [s_chord s_y]. rewrite !along_value by lra. rewrite <- (wing_at g_chord _ _ start end_ u ltac:(lra) eq_refl eq_refl). field. split; [|lra]. replace (end_ * half - start * half) with (half * (end_ - start)) by ring. apply Rmult_integral_contrapositive; lra.
Qed.
Lemma cut_twist u : twist_at root tip (u * half - start * half) = value g_twist a b u.
Proof.
  unfold twist_at, root, tip, cut_root, cut_tip. cbn [s_twist s_y]. rewrite !along_value by lra. rewrite <- (wing_at g_twist _ _ start end_ u ltac:(lra) eq_refl eq_refl). field. split; [|lra]. replace (end_ * half - start * half) with (half * (end_ - start)) by ring. apply Rmult_integral_contrapositive; lra.
Qed.
Lemma cut_sweep : half * tan (s_sweep root) = half * tan (g_sweep a) + (if slat then 0 else 1 - cf) * ((g_chord b - g_chord a) / (g_y b - g_y a)).
Proof.
  unfold root, cut_root, new_sweep. cbn [s_sweep]. set (n := if slat then 0 else 1 - cf). destruct (Req_EM_T 0 n) as [<-|N]; [ring|]. rewrite tan_atan.
  field. repeat split; try lra. 
Qed.
Lemma value_x u v : value g_x a b v = value g_x a b u + (v - u) * half * tan (g_sweep a).
Proof. unfold value. destruct OF as [E _]. rewrite E. field. lra. Qed.
Lemma value_z u v : value g_z a b v = value g_z a b u + (v - u) * half * tan (g_dihedral a).
Proof. destruct OF as [_ E]. unfold value. rewrite E. field. lra. Qed.
Lemma cut_camber t u x : s_camber t = g_camber a ->
  camber w' root (cf * value g_chord a b u) x = camber w t (value g_chord a b u) (x + (if slat then 0 else 1 - cf) * value g_chord a b u).
Proof.
  intro C. unfold camber, camber_line, w', cut_surface, root, cut_root. cbn [w_cut s_camber]. rewrite W, C, map_map. cbn [fst snd]. set (c := value g_chord a b u). set (o := if slat then 0 else 1 - cf).
  rewrite <- (interp_shift (o * c) _ (x + o * c)), map_map. cbn [fst snd]. replace (x + o * c - o * c) with x by ring. f_equal. apply map_ext. intros [p q]. cbn [fst snd]. f_equal; field; lra.
Qed.
Theorem fits t t' y1 y2 side u g : on_segment half a b y1 t -> on_segment half a b y2 t' -> y1 <> y2 -> outboard_of a t -> (w_vertical w = true -> inverted t = 1) ->
  skin w' root tip side (u * half - start * half) g = skin w t t' side (u * half) (fraction_at slat cf g).
Proof.
  intros T T' N O V. unfold skin.
  assert (C' : chord_at root tip (u * half - start * half - s_y root) = cf * value g_chord a b u) by (change (s_y root) with 0; rewrite Rminus_0_r; apply cut_chord).
  assert (TW' : twist_at root tip (u * half - start * half - s_y root) = value g_twist a b u) by (change (s_y root) with 0; rewrite Rminus_0_r; apply cut_twist).
  assert (C : chord_at t t' (u * half - s_y t) = value g_chord a b u) by (unfold chord_at; rewrite (os_y _ _ _ _ _ T), (os_y _ _ _ _ _ T'); apply wing_at; [exact N|apply T|apply T']).
  assert (TW : twist_at t t' (u * half - s_y t) = value g_twist a b u) by (unfold twist_at; rewrite (os_y _ _ _ _ _ T), (os_y _ _ _ _ _ T'); apply wing_at; [exact N|apply T|apply T']).
  unfold twisted. rewrite C', TW', C, TW. set (c := value g_chord a b u). set (tw := value g_twist a b u).
  set (o := if slat then 0 else 1 - cf). change (s_y root) with 0. rewrite !Rminus_0_r.
  assert (PX : pivot_x w t (u * half - s_y t) c = value g_x a b u).
  { unfold pivot_x. rewrite W, (os_x _ _ _ _ _ T), (oo_sweep _ _ O), (os_y _ _ _ _ _ T). rewrite (value_x y1 u). ring. }
  assert (PZ : pivot_z t (u * half - s_y t) = value g_z a b u).
  { unfold pivot_z. rewrite (os_z _ _ _ _ _ T), (oo_dihedral _ _ O), (os_y _ _ _ _ _ T). rewrite (value_z y1 u). ring. }
  assert (X0 : (u * half - start * half) * tan (s_sweep root) = value g_x a b u - value g_x a b start + o * (c - value g_chord a b start)).
  { replace ((u * half - start * half) * tan (s_sweep root)) with ((u - start) * (half * tan (s_sweep root))) by ring. rewrite cut_sweep. fold o. rewrite (value_x start u). unfold c, value. field. lra. }
  assert (PX' : pivot_x w' root (u * half - start * half) (cf * c) = value g_x a b u - value g_x a b start - o * value g_chord a b start).
  { unfold pivot_x. rewrite X0. change (s_x root) with 0. change (w_cut w') with (Some (cf, slat)). cbv iota. unfold o. destruct slat; [ring|field; lra]. }
  assert (PZ' : pivot_z root (u * half - start * half) = value g_z a b u - value g_z a b start).
  { unfold pivot_z. change (s_z root) with 0. change (s_dihedral root) with (g_dihedral a). rewrite (value_z start u). ring. }
  assert (FX : flat_x t (u * half - s_y t) (fraction_at slat cf g * c) = value g_x a b u + fraction_at slat cf g * c).
  { unfold flat_x. unfold pivot_x in PX. rewrite W in PX. rewrite PX. reflexivity. }
  assert (FX' : flat_x root (u * half - start * half) (g * (cf * c)) = value g_x a b u + fraction_at slat cf g * c - value g_x a b start - o * value g_chord a b start).
  { unfold flat_x. rewrite X0. change (s_x root) with 0. unfold fraction_at, o. destruct slat; ring. }
  assert (FZ : flat_z w t (u * half - s_y t) c (fraction_at slat cf g * c) = value g_z a b u + camber w t c (fraction_at slat cf g * c)).
  { unfold flat_z. unfold pivot_z in PZ. rewrite PZ. reflexivity. }
  assert (FZ' : flat_z w' root (u * half - start * half) (cf * c) (g * (cf * c)) = value g_z a b u + camber w t c (fraction_at slat cf g * c) - value g_z a b start).
  { unfold flat_z. unfold pivot_z in PZ'. rewrite PZ'. unfold c at 1. rewrite (cut_camber t u _ (oo_camber _ _ O)). fold c. fold o. replace (g * (cf * c) + o * c) with (fraction_at slat cf g * c) by (unfold fraction_at, o; destruct slat; ring). ring. }
  rewrite PX, PZ, PX', PZ', FX, FX', FZ, FZ'.
  set (zc := camber w t c (fraction_at slat cf g * c)). set (xs := fraction_at slat cf g * c). set (gx := value g_x a b u). set (gz := value g_z a b u).
  assert (TX : forall p q x z d e, turned_x (p - d) (q - e) tw (x - d) (z - e) = turned_x p q tw x z - d) by (intros; unfold turned_x; replace (x - d - (p - d)) with (x - p) by ring; replace (z - e - (q - e)) with (z - q) by ring; ring).
  assert (TZ : forall p q x z d e, turned_z (p - d) (q - e) tw (x - d) (z - e) = turned_z p q tw x z - e) by (intros; unfold turned_z; replace (x - d - (p - d)) with (x - p) by ring; replace (z - e - (q - e)) with (z - q) by ring; ring).
  replace (gx - value g_x a b start - o * value g_chord a b start) with (gx - (value g_x a b start + o * value g_chord a b start)) by ring.
  replace (gx + xs - value g_x a b start - o * value g_chord a b start) with (gx + xs - (value g_x a b start + o * value g_chord a b start)) by ring.
  rewrite TX, TZ. set (X := turned_x _ _ _ _ _). set (Z := turned_z _ _ _ _ _).
  unfold placed. change (w_vertical w') with (w_vertical w). change (inverted root) with (- sign (g_dihedral a - PI / 2)).
  change (w_origin w') with (cut_origin w half a b start cf slat). unfold cut_origin. rewrite !(along_value) by lra. fold o. destruct (w_vertical w) eqn:E.
  - specialize (V eq_refl). assert (I : - sign (g_dihedral a - PI / 2) = 1) by (rewrite <- V; unfold inverted; rewrite (oo_dihedral _ _ O); reflexivity). rewrite I, V. unfold vmore. cbn [vx vy vz fst snd]. f_equal; [|ring|ring].
    unfold o. destruct slat; ring.
  - unfold vmore. cbn [vx vy vz fst snd]. f_equal; [|ring|ring]. unfold o. destruct slat; ring.
Qed.
End Fits.
(** ** stations *)
Lemma asked_stations half start end_ id st : 0 < half -> start < end_ -> ascending (map snd st) -> (forall p, In p st -> (fst p = id <-> start * half <= snd p < end_ * half)) -> In (start * half) (map snd st) ->
  let req := sorted (asked half start end_ id st) in
  ascending req /\ hd 0 req = 0 /\ last req 0 = (end_ - start) * half /\ (1 < length req)%nat /\
  forall v, In v req <-> v + start * half = end_ * half \/ (In (v + start * half) (map snd st) /\ start * half <= v + start * half < end_ * half).
Proof.
  intros H SE A ID S0 req.
  assert (IN : forall v, In v req <-> v + start * half = end_ * half \/ (In (v + start * half) (map snd st) /\ start * half <= v + start * half < end_ * half)).
  { intro v. unfold req. assert (P := sorted_perm (asked half start end_ id st)). transitivity (In v (asked half start end_ id st)); [split; apply Permutation_in; [exact P|symmetry; exact P]|].
    unfold asked. cbn [In]. rewrite in_map_iff. split.
    - intros [<-|(p & <- & F)]; [left; ring|right]. apply filter_In in F. destruct F as [F E]. apply Z.eqb_eq in E. replace (snd p - start * half + start * half) with (snd p) by ring. split; [apply in_map, F|]. apply ID; assumption.
    - intros [E|[I E]]; [left; lra|right]. apply in_map_iff in I. destruct I as (p & Q & I). exists p. split; [rewrite Q; ring|]. apply filter_In. split; [exact I|]. apply Z.eqb_eq, ID; [exact I|]. rewrite Q. exact E. }
  assert (ND : NoDup (asked half start end_ id st)).
  { unfold asked. constructor.
    - rewrite in_map_iff. intros (p & E & F). apply filter_In in F. destruct F as [F Q]. apply Z.eqb_eq in Q. apply ID in Q; [lra|exact F].
    - apply ascending_nodup in A. clear - A. induction st as [|p st IH]; [constructor|]. cbn [map] in A. inversion A as [|? ? N A']; subst. cbn [filter]. destruct (Z.eqb (fst p) id); [|apply IH, A']. cbn [map]. constructor; [|apply IH, A'].
      rewrite in_map_iff. intros (q & E & F). apply filter_In in F. apply N. apply in_map_iff. exists q. split; [lra|apply F]. }
  assert (AS : StronglySorted Rlt req).
  { apply strictly; [apply sorted_sorted|]. eapply Permutation_NoDup; [symmetry; apply sorted_perm|exact ND]. }
  assert (I0 : In 0 req) by (apply IN; right; rewrite Rplus_0_l; split; [exact S0|]; split; [lra|]; apply Rmult_lt_compat_r; assumption).
  assert (I1 : In ((end_ - start) * half) req) by (apply IN; left; ring).
  assert (RG : forall v, In v req -> 0 <= v <= (end_ - start) * half) by (intros v Hv; apply IN in Hv; destruct Hv as [E|[_ E]]; [split; [|lra]; assert (start * half < end_ * half) by (apply Rmult_lt_compat_r; assumption); lra|lra]).
  assert (PO : 0 < (end_ - start) * half) by (apply Rmult_lt_0_compat; lra).
  split; [apply ascending_iff; exact AS|].
  assert (HD : hd 0 req = 0).
  { clear IN. destruct req as [|x r]; [reflexivity|]. cbn. inversion AS as [|? ? _ F]; subst. rewrite Forall_forall in F. destruct I0 as [->|I0]; [reflexivity|]. specialize (F 0 I0). pose proof (RG x (or_introl eq_refl)). lra. }
  assert (LA : last req 0 = (end_ - start) * half).
  { clear IN HD I0. revert AS I1 RG. generalize req. clear - PO. intro l. induction l as [|x r IH]; intros AS I1 RG; [contradiction|]. destruct r as [|y r].
    - destruct I1 as [->|[]]. reflexivity.
    - change (last (x :: y :: r) 0) with (last (y :: r) 0). inversion AS as [|? ? S1 F]; subst. apply IH; [exact S1| |intros v Hv; apply RG; right; exact Hv].
      destruct I1 as [->|I1]; [|exact I1]. rewrite Forall_forall in F. specialize (F y (or_introl eq_refl)). pose proof (RG y (or_intror (or_introl eq_refl))). lra. }
  split; [exact HD|]. split; [exact LA|]. split; [|exact IN].
  clear IN. destruct req as [|x [|y r]]; [contradiction| |cbn; lia]. cbn in HD, LA. lra.
Qed.
