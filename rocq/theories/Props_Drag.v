(** * C67-C71: drag build-up, induced drag, skin friction, form factors, drag rise *)
From Coq Require Import Reals List Bool Arith String Lra Lia Permutation.
From Verif Require Import PyBase P_Dict M_Opt P_Opt M_Util P_Util Props_Util M_Drag S_Drag P_Drag P_Drag2 P_Drag3 P_Deriv P_Friction P_Form.
Import ListNotations.
Local Open Scope R_scope.
Local Open Scope list_scope.

(** a small aeroplane *)
Definition main : wing :=
  Wing "main" 20 0 2 0 (12 / 100) 2 2 10 true (1 / 2) 0 (1 / 10) 5 [] (1 / 2) (1 / 2) (2 / 100).
Definition tail : wing :=
  Wing "tail" 4 8 1 (1 / 5) (10 / 100) 1 1 4 true 0 0 0 4 [Seg 1 2 4 (1 / 5); Seg 1 2 4 (1 / 5)] (1 / 10) (1 / 10) (1 / 1000).
Definition body : fuselage := Fuselage "body" 2 30 10 (16 / 10).
Definition pod : nacelle := Nacelle "pod" 1 2 6 2.
Definition plane : vehicle := Vehicle [main; tail] [body] [pod] 1 20.
Definition air : flow := Flow (1 / 2) 280 5000000.
Definition usual : settings := Settings (11 / 10) (23 / 10) false (38 / 100) None None (102 / 100) 0 0 0.
Example plane_fits : named_apart plane /\ (forall w, In w (v_wings plane) -> transitions_fit w) /\ v_nacelles plane <> [] /\ separate plane = [body].
Proof.
  split; [|split; [|split]].
  - unfold named_apart, tags. cbn. repeat constructor; cbn; intuition discriminate.
  - intros w [<-|[<-|[]]]; unfold transitions_fit, on_chord; cbn; intros _; lra.
  - discriminate.
  - reflexivity.
Qed.

(** ** C67: the drag of a vehicle is built up from the drag of its parts *)
Theorem C67_parasite : forall t fl CL CDi v b v' b' d,
  named_apart v -> v_ref v <> 0 -> evaluate_drag t fl CL CDi v b = Ok (v', b', d) ->
  d_parasite d * v_ref v =
  total (fun w => wing_cd t fl w * w_ref w) (v_wings v) + total (fun f => fuselage_cd t fl f * fu_front f) (separate v) +
  12 / 10 * total (fun n => nacelle_cd fl n * nacelle_ref n) (v_nacelles v).
Proof.
  intros t fl CL CDi v b v' b' d N S E. destruct (evaluated_is _ _ _ _ _ _ _ _ _ N E) as (_ & -> & _). cbn [add_up d_parasite]. unfold parasite_of.
  assert (H : forall A (f : A -> R) (g : A -> R) l, (forall x, g x * v_ref v = f x) -> total g l * v_ref v = total f l).
  { intros A f g l Q. rewrite Rmult_comm, <- total_scale. apply total_ext. intros. rewrite <- Q. ring. }
  rewrite !Rmult_plus_distr_r, Rmult_assoc. rewrite (H _ (fun w => wing_cd t fl w * w_ref w)) by (intros; field; assumption).
  rewrite (H _ (fun f => fuselage_cd t fl f * fu_front f)) by (intros; field; assumption).
  rewrite (H _ (fun n => nacelle_cd fl n * nacelle_ref n)) by (intros; field; assumption). lra.
Qed.
Theorem C67_stored : forall t fl CL CDi v b v' b' d,
  named_apart v -> evaluate_drag t fl CL CDi v b = Ok (v', b', d) ->
  (forall w, In w (v_wings v) -> stored_cd b' (w_tag w) = Some (wing_cd t fl w * w_ref w / v_ref v)) /\
  (forall f, In f (separate v) -> stored_cd b' (fu_tag f) = Some (fuselage_cd t fl f * fu_front f / v_ref v)) /\
  (forall n, In n (v_nacelles v) -> stored_cd b' (na_tag n) = Some (nacelle_cd fl n * nacelle_ref n / v_ref v)).
Proof. intros t fl CL CDi v b v' b' d N E. destruct (evaluated_is _ _ _ _ _ _ _ _ _ N E) as (_ & _ & P). exact P. Qed.
Theorem C67_total : forall t fl CL CDi v b v' b' d,
  named_apart v -> 1 + t_ld t <> 0 -> evaluate_drag t fl CL CDi v b = Ok (v', b', d) ->
  d_total d * (1 + t_ld t) = t_trim t * (d_parasite d + in_total (d_induced d) + d_compressible d + d_misc d) + t_inc t + t_spoiler t /\
  d_compressible d = total (fun w => compressibility_drag_wing fl w * (w_ref w / v_ref v)) (v_wings v) /\
  d_misc d = excrescence (11 / 10 * (total w_wet (v_wings v') + total fu_wet (v_fuselages v) +
                                     total (fun n => na_wet n * INR (na_origins n)) (v_nacelles v))) (v_ref v).
Proof.
  intros t fl CL CDi v b v' b' d N L E. destruct (evaluated_is _ _ _ _ _ _ _ _ _ N E) as (-> & -> & _).
  cbn [add_up d_total d_parasite d_induced d_compressible d_misc]. repeat split.
  - field. assumption.
  - rewrite misc_eq. cbn [with_wings v_wings v_fuselages v_nacelles v_ref]. f_equal. lra.
Qed.
(** a wing with segments: the sum over all but the last, each with its own area *)
Theorem C67_segments : forall t fl w w' b b' c, parasite_drag_wing t fl w b = Ok (w', b', c) -> w_segs w <> [] -> w_ref w <> 0 -> w' = w /\
  c * w_ref w = total (fun s => match compute_parasite_drag (fl_re fl) (sg_mac s) (fl_M fl) (fl_T fl) (w_xtu w) (w_xtl w) (sg_sweep s) (w_tc w) (sg_ref s) (sg_wet s) (t_wing_ff t) with
                                | Ok d => s_cd d * sg_ref s | Err _ => 0 end) (removelast (w_segs w)).
Proof.
  intros t fl w w' b b' c E S R. unfold parasite_drag_wing in E. destruct (w_segs w) as [|s0 r0]; [congruence|]. set (segs := removelast (s0 :: r0)) in *. clearbody segs.
  destruct (segment_drags fl w (t_wing_ff t) segs) as [ds|] eqn:D; cbn [bind] in E; [|discriminate]. injection E as <- _ <-. split; [reflexivity|].
  unfold area_mean. rewrite Rmult_comm. unfold Rdiv. rewrite (Rmult_comm _ (/ w_ref w)), <- Rmult_assoc, Rinv_r, Rmult_1_l by exact R.
  assert (G : forall l x, fold_left (fun a d => a + s_cd (snd d) * fst d) l x = x + total (fun d => s_cd (snd d) * fst d) l).
  { induction l as [|d l IH]; intro x; cbn [fold_left total]; [ring|]. rewrite IH. ring. }
  rewrite G, Rplus_0_l. clear G S. revert ds D. induction segs as [|s r IH]; intros ds D; cbn [segment_drags] in D; [injection D as <-; reflexivity|].
  cbn [total]. destruct (compute_parasite_drag _ _ _ _ _ _ _ _ _ _ _) as [d|]; cbn [bind] in D; [|discriminate].
  destruct (segment_drags fl w (t_wing_ff t) r) as [l|]; cbn [bind] in D; [|discriminate]. injection D as <-. cbn [total fst snd]. rewrite (IH l eq_refl). reflexivity.
Qed.
(** each segment's coefficient on its own area: both sides' friction over half the wetted area, with the form factor *)
Theorem C67_segment : forall re mac M T xu xl sw tc ref wet C d,
  compute_parasite_drag re mac M T xu xl sw tc ref wet C = Ok d -> ref <> 0 ->
  exists u l, compressible_mixed_flat_plate (re * mac) M T xu = Ok u /\ compressible_mixed_flat_plate (re * mac) M T xl = Ok l /\
    s_cd d * ref = wing_form_factor C tc sw M * (f_cf u * (wet / 2) + f_cf l * (wet / 2)).
Proof.
  intros re mac M T xu xl sw tc ref wet C d E R. unfold compute_parasite_drag in E.
  destruct (compressible_mixed_flat_plate _ _ _ xu) as [u|]; cbn [bind] in E; [|discriminate].
  destruct (compressible_mixed_flat_plate _ _ _ xl) as [l|]; cbn [bind] in E; [|discriminate].
  injection E as <-. exists u, l. split; [reflexivity|]. split; [reflexivity|]. cbn [s_cd]. field. exact R.
Qed.
(** the wetted area filled in: both sides of the part of the wing outside the body, a trapezoid per side cut off up to the exposed root *)
Theorem C67_wetted : forall t fl w w' b b' c, parasite_drag_wing t fl w b = Ok (w', b', c) -> w_segs w = [] ->
  (w_wet w = 0 \/ t_recalc t = true ->
   let hidden := (w_root w + (w_root w + w_offset w / w_span w * (w_tip w - w_root w))) / 2 * w_offset w in
   let exposed := w_ref w - (if w_sym w then 2 else 1) * hidden in
   w_wet w' = (if Rlt_dec (w_tc w) (5 / 100) then 2003 / 1000 else 1977 / 1000 + 52 / 100 * w_tc w) * exposed) /\
  (w_wet w <> 0 -> t_recalc t = false -> w' = w).
Proof.
  intros t fl w w' b b' c E S. unfold parasite_drag_wing in E. rewrite S in E. destruct (compute_parasite_drag _ _ _ _ _ _ _ _ _ _ _) as [d|]; cbn [bind] in E; [|discriminate].
  injection E as <- _ _. cbn [with_wet w_wet]. unfold wetted_area. split.
  - intros H. replace (t_recalc t || (if Req_EM_T (w_wet w) 0 then true else false))%bool with true by (destruct (Req_EM_T (w_wet w) 0), (t_recalc t); destruct H; cbn; congruence || reflexivity).
    cbv zeta. destruct (Rlt_dec (w_tc w) (5 / 100)) as [L|L].
    + rewrite (proj2 (Rltb_true _ _) L). destruct (w_sym w); unfold Rdiv; lra.
    + rewrite (proj2 (Rltb_false _ _)) by lra. destruct (w_sym w); unfold Rdiv; lra.
  - intros N F. rewrite F. cbn [orb]. destruct (Req_EM_T (w_wet w) 0); [contradiction|]. destruct w. reflexivity.
Qed.
(** the vehicle afterwards: only wetted areas of wings without segments may be new *)
Theorem C67_vehicle : forall t fl CL CDi v b v' b' d,
  named_apart v -> evaluate_drag t fl CL CDi v b = Ok (v', b', d) ->
  v_fuselages v' = v_fuselages v /\ v_nacelles v' = v_nacelles v /\ v_networks v' = v_networks v /\ v_ref v' = v_ref v /\
  Forall2 (fun w w' => w' = with_wet (w_wet w') w /\ ((w_segs w <> [] \/ (w_wet w <> 0 /\ t_recalc t = false)) -> w' = w)) (v_wings v) (v_wings v').
Proof.
  intros t fl CL CDi v b v' b' d N E. destruct (evaluated_is _ _ _ _ _ _ _ _ _ N E) as (-> & _). cbn [with_wings v_fuselages v_nacelles v_networks v_ref v_wings].
  repeat split. unfold wetted. induction (v_wings v) as [|w l IH]; constructor; [|exact IH].
  assert (W : forall w0, with_wet (w_wet w0) w0 = w0) by (intros []; reflexivity).
  destruct (w_segs w) eqn:S.
  - split; [reflexivity|]. intros [H|[H K]]; [congruence|]. unfold wetted_area. rewrite K. cbn [orb]. destruct (Req_EM_T (w_wet w) 0); [contradiction|apply W].
  - split; [symmetry; apply W|reflexivity].
Qed.
Theorem C67_defined : forall t fl CL CDi v b, named_apart v ->
  ((exists r, evaluate_drag t fl CL CDi v b = Ok r) <->
   (forall w, In w (v_wings v) -> transitions_fit w) /\ (v_networks v <> 0%nat \/ v_nacelles v <> [])) /\
  (forall x, evaluate_drag t fl CL CDi v b = Err x ->
   (x = ValueError /\ exists w, In w (v_wings v) /\ ~ transitions_fit w) \/ (x = ZeroDivisionError /\ v_networks v = 0%nat /\ v_nacelles v = [])).
Proof.
  intros t fl CL CDi v b N. destruct (evaluated t fl CL CDi v b N) as (A & B & C). split; [split|].
  - intros [r E]. apply (evaluated_ok _ _ _ _ _ _ _ N E).
  - intros [H X]. destruct (A H X) as (b' & E & _). eexists. exact E.
  - intros x E.
    assert (D : (exists w, In w (v_wings v) /\ ~ transitions_fit w) \/ forall w, In w (v_wings v) -> transitions_fit w).
    { clear. induction (v_wings v) as [|w l [(y & I & H)|H]]; [right; easy|left; exists y; cbn; auto|].
      destruct (fit_dec w); [right; intros y [<-|I]; auto|left; exists w; cbn; auto]. }
    destruct D as [D|D]; [rewrite (B D) in E; injection E as <-; left; auto|].
    right. destruct (v_networks v) as [|n] eqn:VN.
    + destruct (v_nacelles v) as [|y l] eqn:VA.
      * rewrite C in E; [injection E as <-; auto|assumption|reflexivity|reflexivity].
      * destruct (A D) as (b' & E' & _); [right; discriminate|]. rewrite E in E'. discriminate.
    + destruct (A D) as (b' & E' & _); [left; discriminate|]. rewrite E in E'. discriminate.
Qed.
Theorem C67_order : forall t fl CL CDi v b v' b' d w,
  named_apart v -> reordered v w -> evaluate_drag t fl CL CDi v b = Ok (v', b', d) ->
  exists w' b2 d2, evaluate_drag t fl CL CDi w b = Ok (w', b2, d2) /\
    d_parasite d2 = d_parasite d /\ d_compressible d2 = d_compressible d /\ d_misc d2 = d_misc d /\
    (t_osw t = None -> in_total (d_induced d2) = in_total (d_induced d) /\ in_viscous (d_induced d2) = in_viscous (d_induced d) /\ d_total d2 = d_total d).
Proof.
  intros t fl CL CDi v b v' b' d w N P E. destruct (evaluated_ok _ _ _ _ _ _ _ N E) as [H X].
  destruct (evaluated_is _ _ _ _ _ _ _ _ _ N E) as (_ & -> & _).
  destruct (proj1 (evaluated t fl CL CDi w b (reordered_named _ _ P N)) (reordered_fit _ _ P H)) as (b2 & E2 & _).
  { destruct P as (_ & _ & PN & NN & _). rewrite <- NN. destruct X as [X|X]; [left; exact X|right]. intro Z. rewrite Z in PN.
    apply Permutation_sym, Permutation_nil in PN. contradiction. }
  exists (with_wings (wetted t w) w), b2. eexists. split; [exact E2|]. cbn [add_up d_parasite d_compressible d_misc d_induced d_total].
  rewrite (reordered_parasite t fl v w P), (reordered_wave fl v w P), (reordered_misc t v w P). repeat split; try reflexivity;
  unfold induced_of; rewrite H0; cbn [in_total in_viscous]; rewrite (reordered_viscous t fl v w P), ?(reordered_inviscid t v w P); reflexivity.
Qed.
Theorem C67_again : forall t fl CL CDi v b v' b' d b2,
  named_apart v -> evaluate_drag t fl CL CDi v b = Ok (v', b', d) ->
  exists b3, evaluate_drag t fl CL CDi v' b2 = Ok (v', b3, d) /\ forall k, In k (map w_tag (v_wings v)) -> stored_cd b3 k = stored_cd b' k.
Proof.
  intros t fl CL CDi v b v' b' d b2 N E. destruct (evaluated_ok _ _ _ _ _ _ _ N E) as [H X].
  destruct (evaluated_is _ _ _ _ _ _ _ _ _ N E) as (-> & -> & SW & _).
  set (v' := with_wings (wetted t v) v).
  assert (N' : named_apart v') by (unfold named_apart, v'; rewrite tags_wetted; exact N).
  assert (H' : forall w, In w (v_wings v') -> transitions_fit w).
  { intros w I. unfold v', wetted in I. cbn [with_wings v_wings] in I. apply in_map_iff in I. destruct I as (y & <- & I). apply (upd_kept t y). auto. }
  destruct (proj1 (evaluated t fl CL CDi v' b2 N') H' X) as (b3 & E3 & SW3 & _). exists b3.
  assert (W2 : wetted t v' = wetted t v) by apply wetted_twice.
  assert (T : forall f, (forall w, In w (v_wings v) -> f (upd t w) = f w) -> total f (v_wings v') = total f (v_wings v)) by (intros f Q; apply total_upd; exact Q).
  assert (PA : parasite_of t fl v' = parasite_of t fl v).
  { unfold parasite_of. rewrite T; [reflexivity|]. intros w I. destruct (upd_kept t w) as (_ & -> & _). rewrite upd_cd by auto. reflexivity. }
  assert (VI : viscous t fl v' = viscous t fl v).
  { unfold viscous. rewrite T; [reflexivity|]. intros w I. destruct (upd_kept t w) as (_ & -> & _ & -> & _). rewrite upd_cd by auto. reflexivity. }
  assert (WA : wave fl v' = wave fl v).
  { unfold wave. rewrite T; [reflexivity|]. intros w I. destruct (upd_kept t w) as (_ & -> & _ & _ & _ & _ & _ & ->). reflexivity. }
  assert (IN : induced_of t fl CL CDi v' = induced_of t fl CL CDi v).
  { unfold induced_of. rewrite VI. rewrite T.
    - change (v_wings v') with (map (upd t) (v_wings v)). rewrite largest_upd. reflexivity.
    - intros w I. destruct (upd_kept t w) as (_ & -> & _ & _ & _ & -> & _). reflexivity. }
  split.
  - rewrite E3, W2, PA, IN, WA. unfold v'. cbn [with_wings v_wings v_fuselages v_nacelles v_networks v_ref]. reflexivity.
  - intros k I. apply in_map_iff in I. destruct I as (w & <- & I). rewrite (SW w I).
    assert (I2 : In (upd t w) (v_wings v')) by (apply (in_map (upd t)); assumption).
    pose proof (SW3 _ I2) as Q. destruct (upd_kept t w) as (Q1 & Q2 & _). rewrite Q1, Q2, upd_cd in Q by auto. exact Q.
Qed.
(** two parts with one name: their friction is not the sum of theirs *)
Lemma fus_cd_pos t fl f : 0 < t_fus_ff t -> 0 < fu_front f -> 0 < fu_wet f -> 0 < fu_diam f < fu_len f -> 0 <= fl_M fl -> 0 < fl_T fl ->
  1 < fl_re fl * fu_len f -> 0 < fuselage_cd t fl f.
Proof.
  intros C F W D M T R. unfold fuselage_cd, parasite_drag_fuselage. cbn [snd]. rewrite turbulent_cf by assumption.
  assert (DD : 0 < fu_diam f / fu_len f < 1).
  { split; [apply Rdiv_lt_0_compat; lra|]. apply (Rmult_lt_reg_r (fu_len f)); [lra|]. unfold Rdiv. rewrite Rmult_assoc, Rinv_l by lra. lra. }
  pose proof (fus_ff_gt1 (t_fus_ff t) _ (fl_M fl) C DD M). pose proof (kk_pos (fl_M fl) (fl_T fl) T). pose proof (ct_pos (fl_re fl * fu_len f)).
  apply Rdiv_lt_0_compat; [|assumption]. apply Rmult_lt_0_compat; [|assumption].
  apply Rmult_lt_0_compat; [lra|apply Rmult_lt_0_compat; assumption].
Qed.
Theorem C67_tag_refuted : exists t fl v v' b' d,
  evaluate_drag t fl 0 0 v [] = Ok (v', b', d) /\ 0 < v_ref v /\ v_wings v = [] /\ v_nacelles v = [] /\ separate v = [body; body] /\
  d_parasite d * v_ref v < total (fun f => fuselage_cd t fl f * fu_front f) (separate v).
Proof.
  set (t := Settings 1 (23 / 10) false 0 (Some 1) None 1 0 0 0). set (v := Vehicle [] [body; body] [] 1 20). exists t, air, v.
  assert (P : 0 < fuselage_cd t air body) by (apply fus_cd_pos; cbn; lra).
  assert (SEP : separate v = [body; body]) by reflexivity.
  assert (CNT : counted (with_wings [] v) = [("body"%string, 2); ("body"%string, 2)]) by reflexivity.
  unfold evaluate_drag. cbn [v v_wings all_wings bind fst snd with_wings v_fuselages v_nacelles fold_left].
  change (Vehicle [] [body; body] [] 1 20) with (with_wings [] v). rewrite !fus_entry_eq. cbn [fst].
  unfold parasite_drag_pylon. cbn [with_wings v v_nacelles nacelle_entries bind v_networks Nat.eqb andb fold_left v_ref].
  change (Vehicle [] [body; body] [] 1 20) with (with_wings [] v). unfold parasite_total. rewrite CNT.
  change (fu_tag body) with "body"%string.
  assert (NE : String.eqb "body" "pylon" = false) by reflexivity. assert (EN : String.eqb "pylon" "body" = false) by reflexivity.
  repeat (cbn [refer_all refer dget dset bind fst snd e_cd with_cd]; rewrite ?String.eqb_refl, ?NE, ?EN).
  eexists _, _, _. split; [reflexivity|]. rewrite SEP. cbn [with_wings v v_ref v_wings v_nacelles d_parasite add_up total body fu_front].
  change (Fuselage "body" 2 30 10 (16 / 10)) with body. rewrite fus_entry_cd. repeat split; try lra.
Qed.
(** a glider cannot be evaluated *)
Theorem C67_glider_refuted : exists v, named_apart v /\ v_wings v = [main; tail] /\ v_fuselages v = [body] /\
  (forall w, In w (v_wings v) -> transitions_fit w) /\ forall t fl CL CDi b, evaluate_drag t fl CL CDi v b = Err ZeroDivisionError.
Proof.
  exists (Vehicle [main; tail] [body] [] 0 20). destruct plane_fits as (_ & F & _).
  assert (N : named_apart (Vehicle [main; tail] [body] [] 0 20)).
  { unfold named_apart, tags. cbn. repeat constructor; cbn; intuition discriminate. }
  refine (conj N (conj eq_refl (conj eq_refl (conj F _)))). intros t fl CL CDi b. apply (evaluated t fl CL CDi _ b N); [exact F|reflexivity|reflexivity].
Qed.
(** a nacelle at several places: its friction is counted once, its surface several times *)
Definition at_places (k : nat) (n : nacelle) : nacelle := Nacelle (na_tag n) (na_diam n) (na_len n) (na_wet n) k.
Definition all_at (k : nat) (v : vehicle) : vehicle := Vehicle (v_wings v) (v_fuselages v) (map (at_places k) (v_nacelles v)) (v_networks v) (v_ref v).
Theorem C67_places_refuted : forall t fl CL CDi v b k v' b' d v2 b2 d2,
  named_apart v -> evaluate_drag t fl CL CDi v b = Ok (v', b', d) -> evaluate_drag t fl CL CDi (all_at k v) b = Ok (v2, b2, d2) ->
  d_parasite d2 = d_parasite d /\
  total_wetted v2 - total_wetted v' = 11 / 10 * total (fun n => na_wet n * (INR k - INR (na_origins n))) (v_nacelles v).
Proof.
  intros t fl CL CDi v b k v' b' d v2 b2 d2 N E E2.
  assert (N2 : named_apart (all_at k v)).
  { unfold named_apart, tags, all_at in *. cbn [v_wings v_fuselages v_nacelles]. rewrite map_map. exact N. }
  destruct (evaluated_is _ _ _ _ _ _ _ _ _ N E) as (-> & -> & _). destruct (evaluated_is _ _ _ _ _ _ _ _ _ N2 E2) as (-> & -> & _).
  cbn [add_up d_parasite]. split.
  - unfold parasite_of, all_at. cbn [v_wings v_fuselages v_nacelles v_ref]. rewrite total_map. reflexivity.
  - unfold total_wetted. rewrite !fold_total. unfold all_at. cbn [with_wings v_wings v_fuselages v_nacelles].
    replace (wetted t (Vehicle (v_wings v) (v_fuselages v) (map (at_places k) (v_nacelles v)) (v_networks v) (v_ref v))) with (wetted t v) by reflexivity.
    rewrite total_map.
    assert (Q : total (fun n => na_wet n * (INR k - INR (na_origins n))) (v_nacelles v) =
      total (fun n => na_wet (at_places k n) * INR (na_origins (at_places k n))) (v_nacelles v) - total (fun n => na_wet n * INR (na_origins n)) (v_nacelles v)).
    { clear. induction (v_nacelles v) as [|n l IH]; cbn [total]; [lra|]. rewrite IH. cbn [at_places na_wet na_origins]. lra. }
    rewrite Q. lra.
Qed.
Example C67_case : forall CL CDi, exists v' b' d, evaluate_drag usual air CL CDi plane [] = Ok (v', b', d) /\
  w_wet main = 0 /\ map w_wet (v_wings v') = [(1977 / 1000 + 52 / 100 * (12 / 100)) * (20 - 2); 8] /\ exists c, stored_cd b' "body" = Some c /\ 0 < c.
Proof.
  intros. destruct plane_fits as (N & F & X & _). destruct (proj1 (evaluated usual air CL CDi plane [] N) F (or_intror X)) as (b' & E & _ & SF & _).
  eexists _, _, _. split; [exact E|]. split; [reflexivity|]. split.
  - cbn [with_wings v_wings wetted plane main tail map w_segs with_wet w_wet]. f_equal. unfold wetted_area. cbn.
    destruct (Req_EM_T 0 0); [|lra]. unfold Rltb. destruct (Rlt_dec (12 / 100) (5 / 100)); lra.
  - eexists. split; [apply (SF body); left; reflexivity|]. assert (P : 0 < fuselage_cd usual air body) by (apply fus_cd_pos; cbn; lra). cbn [body fu_front plane v_ref]. unfold Rdiv. nra.
Qed.

(** ** C68: induced drag *)
Theorem C68_given : forall t fl CL CDi v b v' b' d e,
  named_apart v -> evaluate_drag t fl CL CDi v b = Ok (v', b', d) -> t_osw t = Some e -> (exists w, In w (v_wings v) /\ 0 < w_ref w) ->
  in_e (d_induced d) = e /\ in_viscous (d_induced d) + CDi = in_total (d_induced d) /\
  exists w, a_largest w (v_wings v) /\ in_total (d_induced d) = CL ^ 2 / (PI * w_ar w * e).
Proof.
  intros t fl CL CDi v b v' b' d e N E O (w & I & P). destruct (evaluated_is _ _ _ _ _ _ _ _ _ N E) as (_ & -> & _).
  cbn [add_up d_induced]. unfold induced_of. rewrite O. cbn [in_e in_viscous in_total]. split; [reflexivity|]. split; [lra|].
  destruct (largest_spec (v_wings v) 0 (1 / 100)) as [[_ B]|(x & J & L & B & ->)]; [pose proof (B w I); lra|]. exists x. split; [split; assumption|reflexivity].
Qed.
Theorem C68_computed : forall t fl CL CDi v b v' b' d,
  named_apart v -> evaluate_drag t fl CL CDi v b = Ok (v', b', d) -> t_osw t = None -> v_ref v <> 0 -> (exists w, In w (v_wings v) /\ 0 < w_ref w) ->
  (in_total (d_induced d) - in_viscous (d_induced d)) * v_ref v = total (fun w => inviscid t w * w_ref w) (v_wings v) /\
  in_viscous (d_induced d) = total (fun w => t_K t * wing_cd t fl w * w_cl w ^ 2 * (w_ref w / v_ref v) ^ 2) (v_wings v) /\
  exists w, a_largest w (v_wings v) /\ (w_ar w <> 0 -> in_total (d_induced d) <> 0 -> in_total (d_induced d) * (PI * w_ar w * in_e (d_induced d)) = CL ^ 2).
Proof.
  intros t fl CL CDi v b v' b' d N E O S (w & I & P). destruct (evaluated_is _ _ _ _ _ _ _ _ _ N E) as (_ & -> & _).
  cbn [add_up d_induced]. unfold induced_of. rewrite O. cbn [in_e in_viscous in_total]. split; [|split].
  - replace (viscous t fl v + total (fun w => inviscid t w * (w_ref w / v_ref v)) (v_wings v) - viscous t fl v) with (total (fun w => inviscid t w * (w_ref w / v_ref v)) (v_wings v)) by ring.
    rewrite Rmult_comm, <- total_scale. apply total_ext. intros. field. assumption.
  - unfold viscous. apply total_ext. intros. field. assumption.
  - destruct (largest_spec (v_wings v) 0 (1 / 100)) as [[_ B]|(x & J & L & B & ->)]; [pose proof (B w I); lra|]. exists x. split; [split; assumption|].
    intros A T. pose proof PI_RGT_0. field. repeat split; try assumption; lra.
Qed.
(** without viscous lift-dependent drag and with one wing the whole reported efficiency is that of the wing *)
Theorem C68_span : forall t fl CL CDi v b v' b' d w es,
  named_apart v -> evaluate_drag t fl CL CDi v b = Ok (v', b', d) -> t_osw t = None -> t_K t = 0 -> t_span t = Some es -> v_wings v = [w] ->
  0 < w_ref w -> v_ref v = w_ref w -> w_cl w = CL -> CL <> 0 -> w_ar w <> 0 -> es <> 0 -> in_e (d_induced d) = es.
Proof.
  intros t fl CL CDi v b v' b' d w es N E O K SP W R RR C NC NA NE. destruct (evaluated_is _ _ _ _ _ _ _ _ _ N E) as (_ & -> & _).
  cbn [add_up d_induced]. unfold induced_of, viscous. rewrite O, K, W. cbn [in_e total largest]. rewrite (proj2 (Rltb_true 0 (w_ref w)) R).
  unfold inviscid. rewrite SP, RR, C. pose proof PI_RGT_0. field. repeat split; try assumption; try lra.
Qed.
(** the viscous part is not [K CDp cl^2] referred to the vehicle's area: the area ratio enters twice *)
Theorem C68_viscous_refuted : exists t fl v b' v' d, named_apart v /\ evaluate_drag t fl (1 / 2) 0 v [] = Ok (v', b', d) /\ t_osw t = None /\ 0 < v_ref v /\
  exists w, v_wings v = [w] /\ 0 < w_ref w /\ 0 < in_viscous (d_induced d) /\
  in_viscous (d_induced d) = 1 / 2 * (t_K t * wing_cd t fl w * w_cl w ^ 2 * (w_ref w / v_ref v)).
Proof.
  set (w := Wing "main" 10 20 2 0 (12 / 100) 2 2 10 true 0 0 0 5 [] (1 / 2) (1 / 2) (2 / 100)). set (v := Vehicle [w] [] [] 1 20).
  assert (N : named_apart v) by (unfold named_apart, tags; cbn; repeat constructor; cbn; intuition discriminate).
  assert (F : forall x, In x (v_wings v) -> transitions_fit x) by (intros x [<-|[]]; unfold transitions_fit, on_chord; cbn; intros _; lra).
  destruct (proj1 (evaluated usual air (1 / 2) 0 v [] N) F (or_introl (Nat.neq_succ_0 0))) as (b' & E & _).
  exists usual, air, v, b'. eexists _, _. split; [exact N|]. split; [exact E|]. split; [reflexivity|]. split; [cbn; lra|].
  exists w. split; [reflexivity|]. split; [cbn; lra|]. cbn [add_up d_induced]. unfold induced_of. cbn [usual t_osw in_viscous]. unfold viscous. cbn [v v_wings total].
  assert (P : 0 < wing_cd usual air w).
  { unfold wing_cd, parasite_drag_wing. cbn [w w_segs]. unfold compute_parasite_drag. cbn [air fl_re fl_M fl_T].
    change (w_mac w) with 2. change (w_xtu w) with 0. change (w_xtl w) with 0. change (w_tc w) with (12 / 100). change (w_sweep w) with 0. change (w_ref w) with 10.
    assert (X : compressible_mixed_flat_plate (5000000 * 2) (1 / 2) 280 0 = Ok (compressible_turbulent_flat_plate (5000000 * 2) (1 / 2) 280)) by (apply mixed_0; lra).
    rewrite X. cbn [bind s_cd]. rewrite turbulent_cf by lra.
    assert (W : wetted_area usual w = 20).
    { unfold wetted_area. cbn. destruct (Req_EM_T 20 0); [lra|reflexivity]. }
    rewrite W. pose proof (ct_pos (5000000 * 2)). pose proof (kk_pos (1 / 2) 280 ltac:(lra)).
    assert (0 < ct (5000000 * 2) * kk (1 / 2) 280) by (apply Rmult_lt_0_compat; assumption).
    assert (1 <= wing_form_factor (t_wing_ff usual) (12 / 100) 0 (1 / 2)).
    { rewrite ff_eq by lra. pose proof (ff_raw_ge (t_wing_ff usual) (12 / 100) (cos 0) (1 / 2) ltac:(cbn; lra) ltac:(lra) (below1 0 (1 / 2) ltac:(lra))).
      pose proof (C39_range (95 / 100) 1 (1 / 2)). nra. }
    nra. }
  change (t_K usual) with (38 / 100). change (w_cl w) with (1 / 2). change (w_ref w) with 10. change (v_ref v) with 20. split; nra.
Qed.
Example C68_case : forall CL, exists v' b' d w, evaluate_drag usual air CL 0 plane [] = Ok (v', b', d) /\ a_largest w (v_wings plane) /\ w = main /\
  (in_total (d_induced d) - in_viscous (d_induced d)) * 20 = 2 / 100 * 20 + 1 / 1000 * 4.
Proof.
  intro CL. destruct plane_fits as (N & F & X & _). destruct (proj1 (evaluated usual air CL 0 plane [] N) F (or_intror X)) as (b' & E & _).
  eexists _, _, _, main. split; [exact E|]. split; [split; [left; reflexivity|]|split; [reflexivity|]].
  - intros x [<-|[<-|[]]]; cbn; lra.
  - pose proof (proj1 (C68_computed _ _ _ _ _ _ _ _ _ N E eq_refl ltac:(cbn; lra) ltac:(exists main; split; [left; reflexivity|cbn; lra]))) as Q.
    cbn [plane v_ref v_wings total inviscid usual t_span main tail w_cdi w_ref] in Q. rewrite Q. lra.
Qed.

(** ** C69: skin friction of flat plates *)
Theorem C69_turbulent : forall Re Re' M M' T, 1 < Re -> 0 < T -> 0 <= M ->
  let cf r m := f_cf (compressible_turbulent_flat_plate r m T) in
  0 < cf Re M /\ (Re < Re' -> cf Re' M < cf Re M) /\ (M < M' -> cf Re M' < cf Re M).
Proof.
  intros Re Re' M M' T HR HT HM cf. unfold cf. rewrite (turbulent_cf Re M) by lra.
  pose proof (ct_pos Re). pose proof (kk_pos M T HT). split; [apply Rmult_lt_0_compat; assumption|]. split; intro L.
  - rewrite turbulent_cf by lra. apply Rmult_lt_compat_r; [assumption|]. apply ct_less; assumption.
  - rewrite turbulent_cf by lra. apply Rmult_lt_compat_l; [assumption|]. apply kk_less; assumption.
Qed.
(** with no laminar run the formula is the incompressible Prandtl-Schlichting line times two factors *)
Theorem C69_factors : forall Re M T, 1 < Re -> 0 < T -> 0 <= M ->
  let f := compressible_turbulent_flat_plate Re M T in
  0 < f_comp f <= 1 /\ 0 < f_reyn f <= 1 /\ (f_comp f = 1 <-> M = 0) /\ (f_reyn f = 1 <-> M = 0) /\
  f_cf f = 455 / 1000 / Rpower (ln Re / ln 10) (258 / 100) * f_comp f * f_reyn f.
Proof.
  intros Re M T HR HT HM f. unfold f. rewrite turbulent_eq by assumption. cbn [f_comp f_reyn f_cf].
  assert (H0 : heat 0 = 1) by (unfold heat; lra).
  split; [apply k_comp_range|]. split; [apply k_reyn_range; assumption|]. split; [|split; [|reflexivity]]; split; intro E.
  - destruct (Req_dec M 0) as [|NZ]; [assumption|]. pose proof (k_comp_less 0 M ltac:(lra) ltac:(lra)) as Q. rewrite H0, Rinv_1 in Q. lra.
  - subst. rewrite H0. apply Rinv_1.
  - destruct (Req_dec M 0) as [|NZ]; [assumption|]. pose proof (k_reyn_less 0 M T HT ltac:(lra) ltac:(lra)) as Q. rewrite H0, slow_1, Rinv_1, Rpower_one in Q by assumption. lra.
  - subst. rewrite H0, slow_1, Rinv_1 by assumption. apply Rpower_one.
Qed.
Theorem C69_refused : forall Re M T xt, (exists f, compressible_mixed_flat_plate Re M T xt = Ok f) <-> 0 <= xt <= 1.
Proof.
  intros. destruct (plate_ok Re M T xt) as [A B]. split.
  - intros [f E]. destruct (on_chord_dec xt) as [H|H]; [exact H|]. rewrite (B H) in E. discriminate.
  - intro H. apply A. exact H.
Qed.
Theorem C69_ends : forall Re M T, 1 < Re -> 0 < T ->
  compressible_mixed_flat_plate Re M T 0 = Ok (compressible_turbulent_flat_plate Re M T) /\
  exists f, compressible_mixed_flat_plate Re M T 1 = Ok f /\ f_cf f = 1328 / 1000 / sqrt Re * f_comp f * f_reyn f /\
    f_comp f = f_comp (compressible_turbulent_flat_plate Re M T) /\ f_reyn f = f_reyn (compressible_turbulent_flat_plate Re M T).
Proof.
  intros Re M T HR HT. split; [apply mixed_0; assumption|]. rewrite mixed_eq by lra. eexists. split; [reflexivity|].
  rewrite turbulent_eq by assumption. cbn [f_cf f_comp f_reyn]. rewrite mixed_1 by lra. auto.
Qed.
Theorem C69_positive : forall Re M T xt f, 1 < Re -> 0 < T -> (xt = 0 \/ 1 <= Re * xt) -> compressible_mixed_flat_plate Re M T xt = Ok f -> 0 < f_cf f.
Proof.
  intros Re M T xt f HR HT HX E. destruct HX as [->|HX].
  - rewrite mixed_0 in E by assumption. injection E as <-. rewrite turbulent_cf by assumption. apply Rmult_lt_0_compat; [apply ct_pos|apply kk_pos; assumption].
  - assert (C : 0 <= xt <= 1) by (apply (C69_refused Re M T); eexists; exact E).
    assert (0 < xt) by (destruct C as [[|Z] _]; [assumption|subst; lra]).
    rewrite mixed_eq in E by lra. injection E as <-. cbn [f_cf]. pose proof (mixed_pos Re xt ltac:(lra) HX).
    apply Rmult_lt_0_compat; [apply Rmult_lt_0_compat; [assumption|apply k_comp_range]|apply k_reyn_range; assumption].
Qed.
(** an all-laminar plate rubs less than an all-turbulent one *)
Theorem C69_laminar : forall Re M T l u, 10 ^ 5 <= Re -> 0 < T ->
  compressible_mixed_flat_plate Re M T 1 = Ok l -> compressible_mixed_flat_plate Re M T 0 = Ok u -> f_cf l < f_cf u.
Proof.
  intros Re M T l u HR HT L U. rewrite mixed_0 in U by lra. injection U as <-. rewrite mixed_eq in L by lra. injection L as <-. cbn [f_cf].
  rewrite turbulent_cf, mixed_1 by lra. rewrite Rmult_assoc. apply Rmult_lt_compat_r; [apply kk_pos; assumption|apply laminar_less; assumption].
Qed.
Example C69_case : exists f, compressible_mixed_flat_plate 1000000 (8 / 10) 220 (1 / 4) = Ok f /\ 0 < f_cf f.
Proof.
  destruct (proj2 (C69_refused 1000000 (8 / 10) 220 (1 / 4)) ltac:(lra)) as [f E]. exists f. split; [exact E|].
  apply (C69_positive 1000000 (8 / 10) 220 (1 / 4)); try lra. exact E.
Qed.

(** ** C70: form factors *)
Lemma blend_pos M : M < 1 -> 0 < blend (95 / 100) 1 M.
Proof.
  intro H. destruct (Rle_or_lt M (95 / 100)) as [L|L].
  - rewrite (proj1 (C39_ends (95 / 100) 1 M ltac:(lra)) L). lra.
  - pose proof (C39_falls (95 / 100) 1 M 1 ltac:(lra) ltac:(lra) H ltac:(lra)) as Q. rewrite (proj2 (C39_ends (95 / 100) 1 1 ltac:(lra)) ltac:(lra)) in Q. exact Q.
Qed.
Theorem C70_wing : forall C tc sweep M, 0 <= C -> 0 <= tc -> 0 <= M ->
  (M < 1 -> 1 <= wing_form_factor C tc sweep M) /\ (1 < M -> wing_form_factor C tc sweep M = 1) /\
  (forall tc', 0 < C -> tc < tc' -> cos sweep <> 0 -> M < 1 -> wing_form_factor C tc sweep M < wing_form_factor C tc' sweep M).
Proof.
  intros C tc s M HC HT HM. split; [|split].
  - intro L. rewrite ff_eq by lra. pose proof (ff_raw_ge C tc (cos s) M HC HT (below1 s M ltac:(lra))). pose proof (C39_range (95 / 100) 1 M). nra.
  - intro L. unfold wing_form_factor. rewrite (proj2 (Rltb_true _ _) L). lra.
  - intros tc' C0 LT CN L. rewrite !ff_eq by lra. pose proof (ff_raw_grows C tc tc' (cos s) M C0 HT LT CN (below1 s M ltac:(lra))). pose proof (blend_pos M L). nra.
Qed.
(** the drag of a wing without segments is its form factor times the mean friction of its two sides on the wetted area *)
Theorem C70_wing_drag : forall t fl w w' b b' c, parasite_drag_wing t fl w b = Ok (w', b', c) -> w_segs w = [] -> w_ref w <> 0 ->
  exists u l, compressible_mixed_flat_plate (fl_re fl * w_mac w) (fl_M fl) (fl_T fl) (w_xtu w) = Ok u /\
    compressible_mixed_flat_plate (fl_re fl * w_mac w) (fl_M fl) (fl_T fl) (w_xtl w) = Ok l /\
    c * w_ref w = wing_form_factor (t_wing_ff t) (w_tc w) (w_sweep w) (fl_M fl) * ((f_cf u + f_cf l) / 2) * w_wet w'.
Proof.
  intros t fl w w' b b' c E S R. unfold parasite_drag_wing in E. rewrite S in E. unfold compute_parasite_drag in E.
  destruct (compressible_mixed_flat_plate _ _ _ (w_xtu w)) as [u|]; cbn [bind] in E; [|discriminate].
  destruct (compressible_mixed_flat_plate _ _ _ (w_xtl w)) as [l|]; cbn [bind] in E; [|discriminate].
  injection E as <- _ <-. exists u, l. split; [reflexivity|]. split; [reflexivity|]. cbn [s_cd with_wet w_wet]. field. assumption.
Qed.
Theorem C70_fuselage : forall C d M, 0 < C -> 0 < d < 1 -> 0 <= M ->
  1 < fuselage_form_factor C d M /\ forall d', d < d' < 1 -> fuselage_form_factor C d M < fuselage_form_factor C d' M.
Proof.
  intros C d M HC HD HM. split; [apply fus_ff_gt1; assumption|]. intros d' H. apply fus_ff_grows; lra.
Qed.
(** the two formulas do not meet at Mach 0.95 *)
Theorem C70_jump_refuted : exists d, 0 < d < 1 /\ forall M, 945 / 1000 <= M < 95 / 100 ->
  fuselage_form_factor (23 / 10) d M + 5 / 100 < fuselage_form_factor (23 / 10) d (95 / 100).
Proof.
  exists (6 / 10). split; [lra|]. intros M H. unfold fuselage_form_factor. pose proof (jump_below M H). pose proof jump_above.
  pose proof (speed_up_pos (6 / 10) M ltac:(lra) ltac:(lra)). nra.
Qed.
Theorem C70_nacelle : forall fl n b, 0 < na_diam n -> 0 < na_len n ->
  let c := f_cf (compressible_turbulent_flat_plate (fl_re fl * na_len n) (fl_M fl) (fl_T fl)) in
  snd (parasite_drag_nacelle fl n b) * (PI * (na_diam n / 2) ^ 2) = (1 + 35 / 100 * (na_diam n / na_len n)) * c * na_wet n.
Proof.
  intros fl n b D L. unfold parasite_drag_nacelle, nacelle_ref. cbn [snd]. pose proof PI_RGT_0. field. repeat split; lra.
Qed.
Example C70_case : 1 <= wing_form_factor (11 / 10) (12 / 100) (1 / 2) (8 / 10) /\ 1 < fuselage_form_factor (23 / 10) (1 / 8) (8 / 10).
Proof. split; [apply C70_wing; lra|apply C70_fuselage; lra]. Qed.

(** ** C71: drag rise with Mach number; excrescence drag *)
Theorem C71_rise : forall mcc s M M', 0 < mcc -> 0 < cos s -> 0 <= M -> M < M' ->
  drag_rise mcc s 0 = 0 /\ drag_rise mcc s M < drag_rise mcc s M' /\ drag_rise mcc s mcc = 19 / 10000 * cos s ^ 3 /\ mcc < divergence mcc s.
Proof.
  intros mcc s M M' HM HC H0 HL. assert (C3 : 0 < cos s * cos s * cos s) by (repeat apply Rmult_lt_0_compat; assumption).
  unfold drag_rise. repeat split.
  - replace (0 / mcc) with 0 by (field; lra). rewrite pw_0. ring.
  - assert (Q : pw (M / mcc) (14641 / 1000) < pw (M' / mcc) (14641 / 1000)).
    { apply pw_less; [apply Rmult_le_pos; [assumption|left; apply Rinv_0_lt_compat; assumption]| |lra]. apply Rmult_lt_compat_r; [apply Rinv_0_lt_compat|]; assumption. }
    nra.
  - replace (mcc / mcc) with 1 by (field; lra). rewrite pw_eq, Rpower_one by lra. ring.
  - unfold divergence. pose proof (COS_bound s). nra.
Qed.
(** thicker wings meet the rise earlier, within the range of the fit *)
Theorem C71_thickness : forall tc tc' s cl, 0 < cos s -> tc < tc' -> 0 <= tc -> tc' / cos s <= 1 / 2 -> cl / cos s ^ 2 <= 17 / 10 -> crest_critical tc' s cl < crest_critical tc s cl.
Proof.
  intros tc tc' s cl HC L H0 HB HL. unfold crest_critical. apply Rmult_lt_compat_r; [apply Rinv_0_lt_compat; assumption|].
  assert (T : tc / cos s < tc' / cos s) by (apply Rmult_lt_compat_r; [apply Rinv_0_lt_compat|]; assumption).
  assert (0 <= tc / cos s) by (apply Rmult_le_pos; [assumption|left; apply Rinv_0_lt_compat; assumption]).
  replace (cl / cos s ^ 2) with (cl / (cos s * cos s)) in HL by (f_equal; ring).
  set (x := tc / cos s) in *. set (y := tc' / cos s) in *. set (z := cl / (cos s * cos s)) in *. nra.
Qed.
(** more lift brings the rise forward only where the fit falls *)
Theorem C71_lift : forall tc s cl cl', 0 < cos s -> cl < cl' ->
  467317361111105 * (tc / cos s) + 174980862403098 * (cl' / cos s ^ 2) <= 304541067183461 -> crest_critical tc s cl' < crest_critical tc s cl.
Proof.
  intros tc s cl cl' HC L HB. unfold crest_critical. apply Rmult_lt_compat_r; [apply Rinv_0_lt_compat; assumption|].
  replace (cl' / cos s ^ 2) with (cl' / (cos s * cos s)) in HB by (f_equal; ring).
  assert (T : cl / (cos s * cos s) < cl' / (cos s * cos s)) by (apply Rmult_lt_compat_r; [apply Rinv_0_lt_compat; nra|assumption]).
  set (x := tc / cos s) in *. set (y := cl / (cos s * cos s)) in *. set (z := cl' / (cos s * cos s)) in *. nra.
Qed.
Theorem C71_lift_refuted : crest_critical (2 / 10) 0 (13 / 10) < crest_critical (2 / 10) 0 (14 / 10).
Proof. unfold crest_critical. rewrite cos_0. lra. Qed.
(** excrescence drag grows with the surface up to about 2075 square metres, falls beyond, and is negative beyond 4190 *)
Theorem C71_excrescence : forall s s' Sref, 0 < Sref -> 0 <= s -> s < s' -> s' <= 2075 -> 0 < excrescence s Sref < excrescence s' Sref.
Proof.
  intros s s' Sref HS H0 L B. unfold excrescence. split; [apply Rdiv_lt_0_compat; [nra|assumption]|].
  apply Rmult_lt_compat_r; [apply Rinv_0_lt_compat; assumption|]. nra.
Qed.
Theorem C71_excrescence_refuted : forall s s' Sref, 0 < Sref -> 2076 <= s -> s < s' ->
  excrescence s' Sref < excrescence s Sref /\ (4190 <= s -> excrescence s Sref < 0).
Proof.
  intros s s' Sref HS H0 L. unfold excrescence. split; [apply Rmult_lt_compat_r; [apply Rinv_0_lt_compat; assumption|nra]|].
  intro B. rewrite <- (Rmult_0_l (/ Sref)). apply Rmult_lt_compat_r; [apply Rinv_0_lt_compat; assumption|nra].
Qed.
Example C71_case : crest_critical (14 / 100) 0 (1 / 2) < crest_critical (12 / 100) 0 (1 / 2) /\ crest_critical (12 / 100) 0 (1 / 2) < crest_critical (12 / 100) 0 (4 / 10).
Proof. split; [apply C71_thickness|apply C71_lift]; rewrite ?cos_0; lra. Qed.

Print Assumptions C67_parasite.
Print Assumptions C67_stored.
Print Assumptions C67_total.
Print Assumptions C67_segments.
Print Assumptions C67_segment.
Print Assumptions C67_wetted.
Print Assumptions C67_vehicle.
Print Assumptions C67_defined.
Print Assumptions C67_order.
Print Assumptions C67_again.
Print Assumptions C67_tag_refuted.
Print Assumptions C67_glider_refuted.
Print Assumptions C67_places_refuted.
Print Assumptions C68_given.
Print Assumptions C68_computed.
Print Assumptions C68_span.
Print Assumptions C68_viscous_refuted.
Print Assumptions C69_turbulent.
Print Assumptions C69_factors.
Print Assumptions C69_refused.
Print Assumptions C69_ends.
Print Assumptions C69_positive.
Print Assumptions C69_laminar.
Print Assumptions C70_wing.
Print Assumptions C70_wing_drag.
Print Assumptions C70_fuselage.
Print Assumptions C70_jump_refuted.
Print Assumptions C70_nacelle.
Print Assumptions C71_rise.
Print Assumptions C71_thickness.
Print Assumptions C71_lift.
Print Assumptions C71_lift_refuted.
Print Assumptions C71_excrescence.
Print Assumptions C71_excrescence_refuted.
