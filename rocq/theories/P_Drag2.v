(** * Drag build-up: what follows from the closed form *)
From Coq Require Import Reals List Bool Arith String Lra Lia Permutation.
From Verif Require Import PyBase P_Dict M_Opt P_Opt M_Util P_Util M_Drag S_Drag P_Drag.
Import ListNotations.
Local Open Scope R_scope.
Local Open Scope list_scope.

(** ** which wings can be evaluated *)
Lemma plate_ok Re M T x : (on_chord x -> exists f, compressible_mixed_flat_plate Re M T x = Ok f) /\
  (~ on_chord x -> compressible_mixed_flat_plate Re M T x = Err ValueError).
Proof.
  unfold compressible_mixed_flat_plate, on_chord. destruct (Rltb x 0) eqn:A.
  - apply Rltb_true in A. split; [intro; lra|reflexivity].
  - apply Rltb_false in A. destruct (Rltb 1 x) eqn:B.
    + apply Rltb_true in B. split; [intro; lra|reflexivity].
    + apply Rltb_false in B. cbn [orb]. destruct (plate_factors Re M T). split; [intros _; eexists; reflexivity|intro H; lra].
Qed.
Lemma on_chord_dec x : on_chord x \/ ~ on_chord x.
Proof. unfold on_chord. destruct (Rlt_or_le x 0); destruct (Rlt_or_le 1 x); first [left; lra|right; lra]. Qed.
Lemma surface_ok re mac M T xu xl s tc a b C :
  (on_chord xu /\ on_chord xl -> exists d, compute_parasite_drag re mac M T xu xl s tc a b C = Ok d) /\
  (~ (on_chord xu /\ on_chord xl) -> compute_parasite_drag re mac M T xu xl s tc a b C = Err ValueError).
Proof.
  unfold compute_parasite_drag. destruct (plate_ok (re * mac) M T xu) as [U U']. destruct (plate_ok (re * mac) M T xl) as [L L'].
  destruct (on_chord_dec xu) as [HU|HU].
  - destruct (U HU) as [fu ->]. cbn [bind]. destruct (on_chord_dec xl) as [HL|HL].
    + destruct (L HL) as [fl ->]. cbn [bind]. split; [intros _; eexists; reflexivity|tauto].
    + rewrite (L' HL). split; [tauto|reflexivity].
  - rewrite (U' HU). split; [tauto|reflexivity].
Qed.
Lemma segs_ok fl w C l : (on_chord (w_xtu w) /\ on_chord (w_xtl w) -> exists d, segment_drags fl w C l = Ok d) /\
  (~ (on_chord (w_xtu w) /\ on_chord (w_xtl w)) -> l <> [] -> segment_drags fl w C l = Err ValueError).
Proof.
  induction l as [|s r [IH _]]; cbn; [split; [intros _; eexists; reflexivity|congruence]|].
  pose proof (surface_ok (fl_re fl) (sg_mac s) (fl_M fl) (fl_T fl) (w_xtu w) (w_xtl w) (sg_sweep s) (w_tc w) (sg_ref s) (sg_wet s) C) as [A B].
  split; intro H.
  - destruct (A H) as [d ->]. cbn. destruct (IH H) as [ds ->]. cbn. eexists; reflexivity.
  - intros _. rewrite (B H). reflexivity.
Qed.
Lemma wing_ok t fl w : (transitions_fit w -> exists x, wing_entry t fl w = Ok x) /\ (~ transitions_fit w -> wing_entry t fl w = Err ValueError).
Proof.
  unfold wing_entry, parasite_drag_wing, transitions_fit. destruct (w_segs w) as [|s r] eqn:S.
  - match goal with |- context [compute_parasite_drag ?a ?b ?c ?d ?e ?f ?g ?h ?i ?j ?k] => pose proof (surface_ok a b c d e f g h i j k) as [A B] end.
    split; intro H.
    + destruct (A (H ltac:(cbn; discriminate))) as [d ->]. cbn [bind dset dget]. rewrite String.eqb_refl. eexists; reflexivity.
    + rewrite B; [reflexivity|]. tauto.
  - pose proof (segs_ok fl w (t_wing_ff t) (removelast (s :: r))) as [A B]. split; intro H.
    + destruct r as [|s' r].
      * cbn. rewrite String.eqb_refl. eexists; reflexivity.
      * destruct (A (H ltac:(cbn; discriminate))) as [d ->]. cbn [bind dset dget]. rewrite String.eqb_refl. eexists; reflexivity.
    + rewrite B; [reflexivity| |].
      * tauto.
      * intro E. destruct r as [|s' r]; [|cbn in E; discriminate]. apply H. cbn. congruence.
Qed.
Lemma fit_dec w : transitions_fit w \/ ~ transitions_fit w.
Proof.
  unfold transitions_fit. destruct (Nat.eq_dec (List.length (w_segs w)) 1) as [E|E]; [left; congruence|].
  destruct (on_chord_dec (w_xtu w)), (on_chord_dec (w_xtl w)); first [left; tauto|right; tauto].
Qed.
Lemma entries_ok t fl l : ((forall w, In w l -> transitions_fit w) -> exists xs, entries_of t fl l = Ok xs) /\
  (forall w, In w l -> ~ transitions_fit w -> entries_of t fl l = Err ValueError).
Proof.
  induction l as [|w r [IH JH]]; cbn; [split; [intros; eexists; reflexivity|easy]|].
  destruct (wing_ok t fl w) as [A B]. split.
  - intro H. destruct (A (H w (or_introl eq_refl))) as [x ->]. destruct (IH (fun y I => H y (or_intror I))) as [xs ->]. eexists; reflexivity.
  - intros y I N. destruct (fit_dec w) as [F|F]; [|rewrite (B F); reflexivity].
    destruct (A F) as [x ->]. destruct I as [->|I]; [contradiction|]. rewrite (JH y I N). reflexivity.
Qed.

(** ** induced drag in closed form *)
Lemma largest_spec l : forall S ar, (largest l S ar = ar /\ forall w, In w l -> w_ref w <= S) \/
  exists w, In w l /\ S < w_ref w /\ (forall x, In x l -> w_ref x <= w_ref w) /\ largest l S ar = w_ar w.
Proof.
  induction l as [|w r IH]; intros S ar; cbn; [left; split; [reflexivity|easy]|].
  destruct (Rltb S (w_ref w)) eqn:E; [apply Rltb_true in E|apply Rltb_false in E].
  - right. destruct (IH (w_ref w) (w_ar w)) as [[A B]|(x & I & L & B & A)].
    + exists w. rewrite A. repeat split; auto. intros x [<-|I]; [lra|auto].
    + exists x. rewrite A. repeat split; auto; [lra|]. intros y [<-|I']; [lra|auto].
  - destruct (IH S ar) as [[A B]|(x & I & L & B & A)].
    + left. split; [assumption|]. intros y [<-|I]; auto.
    + right. exists x. repeat split; auto. intros y [<-|I']; [lra|auto].
Qed.
Lemma induced_sums_eq t Sref b (g : wing -> R) : forall l vis inv area ar,
  (forall w, In w l -> exists e, dget (w_tag w) b = Some e /\ e_cd e = g w /\ e_ref e = w_ref w) ->
  induced_sums t Sref b l vis inv area ar =
  Ok (vis + total (fun w => t_K t * g w * w_cl w ^ 2 * (w_ref w / Sref)) l,
      inv + total (fun w => inviscid t w * (w_ref w / Sref)) l, largest l area ar).
Proof.
  induction l as [|w r IH]; intros vis inv area ar H; cbn.
  - rewrite !Rplus_0_r. reflexivity.
  - destruct (H w (or_introl eq_refl)) as (e & -> & Ec & Er). rewrite Ec, Er.
    rewrite IH by (intros; apply H; right; assumption). rewrite !Rplus_assoc.
    destruct (Rltb area (w_ref w)); reflexivity.
Qed.

(** ** the new wings differ from the old in their wetted areas only *)
Lemma kept_ref t fl l xs : entries_of t fl l = Ok xs ->
  Forall2 (fun w x => fst x = with_wet (w_wet (fst x)) w /\ e_cd (snd x) = wing_cd t fl w /\ e_ref (snd x) = w_ref w /\ wing_entry t fl w = Ok x) l xs.
Proof.
  intro E. pose proof (entries_kept _ _ _ _ E) as F. clear E. induction F as [|w [w' e] l xs H F IH]; constructor; [|assumption].
  pose proof (wing_entry_kept _ _ _ _ _ H) as (K & _ & _ & R & _). cbn [fst snd]. repeat split; try assumption.
  symmetry. apply (wing_cd_entry _ _ _ _ _ H).
Qed.
Lemma total_wings t fl l xs (f : wing -> R) (g : wing * entry -> R) : entries_of t fl l = Ok xs ->
  (forall w x, wing_entry t fl w = Ok x -> f w = g x) -> total f l = total g xs.
Proof.
  intros E H. pose proof (entries_kept _ _ _ _ E) as F. clear E. induction F as [|w x l xs HX F IH]; [reflexivity|].
  cbn. rewrite (H w x HX), IH. reflexivity.
Qed.
Lemma largest_wet t fl l xs : entries_of t fl l = Ok xs -> forall S ar, largest (map fst xs) S ar = largest l S ar.
Proof.
  intro E. pose proof (kept_ref _ _ _ _ E) as F. clear E. induction F as [|w x l xs (K & _) F IH]; intros S ar; [reflexivity|].
  cbn. rewrite K. cbn [with_wet w_ref w_ar]. rewrite !IH. reflexivity.
Qed.

(** the results of [evaluate_drag] *)
Definition wave (fl : flow) (v : vehicle) : R := total (fun w => compressibility_drag_wing fl w * (w_ref w / v_ref v)) (v_wings v).
Definition viscous (t : settings) (fl : flow) (v : vehicle) : R :=
  total (fun w => t_K t * (wing_cd t fl w * w_ref w / v_ref v) * w_cl w ^ 2 * (w_ref w / v_ref v)) (v_wings v).
Definition induced_of (t : settings) (fl : flow) (CL CDi : R) (v : vehicle) : induced :=
  let AR := largest (v_wings v) 0 (1 / 100) in
  match t_osw t with
  | None => let tot := viscous t fl v + total (fun w => inviscid t w * (w_ref w / v_ref v)) (v_wings v) in
            Induced tot (viscous t fl v) (CL ^ 2 / (PI * AR * tot))
  | Some e => let tot := CL ^ 2 / (PI * AR * e) in Induced tot (tot - CDi) e
  end.
Definition parasite_of (t : settings) (fl : flow) (v : vehicle) : R :=
  total (fun w => wing_cd t fl w * w_ref w / v_ref v) (v_wings v) +
  total (fun f => fuselage_cd t fl f * fu_front f / v_ref v) (separate v) +
  120 / 100 * total (fun n => nacelle_cd fl n * nacelle_ref n / v_ref v) (v_nacelles v).
Definition wetted (t : settings) (v : vehicle) : list wing :=
  map (fun w => match w_segs w with [] => with_wet (wetted_area t w) w | _ => w end) (v_wings v).
Lemma wetted_eq t fl v xs : entries_of t fl (v_wings v) = Ok xs -> map fst xs = wetted t v.
Proof.
  unfold wetted. intro E. pose proof (entries_kept _ _ _ _ E) as F. clear E. induction F as [|w [w' e] l xs H F IH]; [reflexivity|].
  cbn. rewrite IH. f_equal. pose proof (wing_entry_kept _ _ _ _ _ H) as (K & Q & P & _). destruct (w_segs w).
  - rewrite (P eq_refl) in K. exact K.
  - apply Q. discriminate.
Qed.
Theorem evaluated t fl CL CDi v b : named_apart v ->
  ((forall w, In w (v_wings v) -> transitions_fit w) -> (v_networks v <> 0%nat \/ v_nacelles v <> []) -> exists b',
    evaluate_drag t fl CL CDi v b = Ok (with_wings (wetted t v) v, b',
      add_up t (parasite_of t fl v) (induced_of t fl CL CDi v) (wave fl v) (miscellaneous_drag (with_wings (wetted t v) v))) /\
    (forall w, In w (v_wings v) -> stored_cd b' (w_tag w) = Some (wing_cd t fl w * w_ref w / v_ref v)) /\
    (forall f, In f (separate v) -> stored_cd b' (fu_tag f) = Some (fuselage_cd t fl f * fu_front f / v_ref v)) /\
    (forall n, In n (v_nacelles v) -> stored_cd b' (na_tag n) = Some (nacelle_cd fl n * nacelle_ref n / v_ref v))) /\
  ((exists w, In w (v_wings v) /\ ~ transitions_fit w) -> evaluate_drag t fl CL CDi v b = Err ValueError) /\
  ((forall w, In w (v_wings v) -> transitions_fit w) -> v_networks v = 0%nat -> v_nacelles v = [] -> evaluate_drag t fl CL CDi v b = Err ZeroDivisionError).
Proof.
  intro N. destruct (entries_ok t fl (v_wings v)) as [A B]. split; [|split].
  - intros H X. destruct (A H) as [xs E]. destruct (build_up t fl CL CDi v b xs N E X) as (b' & W & F & K & EV).
    exists b'. rewrite (wetted_eq _ _ _ _ E) in EV. rewrite <- (wetted_eq _ _ _ _ E).
    pose proof (kept_ref _ _ _ _ E) as KR.
    assert (WW : forall w, In w (v_wings v) -> exists x, In x xs /\ wing_entry t fl w = Ok x).
    { clear - KR. induction KR as [|w x l xs (_ & _ & _ & P) KR IH]; intros y I; [easy|].
      destruct I as [<-|I]; [exists x; cbn; auto|]. destruct (IH y I) as (z & Z & P'). exists z. cbn; auto. }
    assert (XX : forall x, In x xs -> exists w, In w (v_wings v) /\ wing_entry t fl w = Ok x).
    { clear - KR. induction KR as [|w x l xs (_ & _ & _ & P) KR IH]; intros y I; [easy|].
      destruct I as [<-|I]; [exists w; cbn; auto|]. destruct (IH y I) as (z & Z & P'). exists z. cbn; auto. }
    split; [|split; [|split]].
    + rewrite EV. unfold induced_drag_aircraft. cbn [with_wings v_wings v_ref].
      assert (PE : parasite_sum t fl v xs = parasite_of t fl v).
      { unfold parasite_sum, parasite_of. rewrite (total_wings t fl _ xs (fun w => wing_cd t fl w * w_ref w / v_ref v) (fun x => e_cd (snd x) * w_ref (fst x) / v_ref v) E).
        - assert (Z : total (fun n => 20 / 100 * nacelle_cd fl n * (nacelle_ref n / v_ref v)) (v_nacelles v) =
                      20 / 100 * total (fun n => nacelle_cd fl n * nacelle_ref n / v_ref v) (v_nacelles v)).
          { rewrite <- total_scale. apply total_ext. intros. unfold Rdiv. ring. }
          rewrite Z. lra.
        - intros w [w' e] HW. pose proof (wing_entry_kept _ _ _ _ _ HW) as (Q & _). cbn [fst snd]. rewrite (wing_cd_entry _ _ _ _ _ HW), Q. reflexivity. }
      assert (CE : compressibility_drag_wing_total fl (with_wings (wetted t v) v) = wave fl v).
      { unfold compressibility_drag_wing_total, wave. rewrite fold_total, Rplus_0_l. cbn [with_wings v_wings v_ref].
        rewrite <- (wetted_eq _ _ _ _ E), total_map. symmetry. apply (total_wings t fl _ xs); [exact E|].
        intros w [w' e] HW. pose proof (wing_entry_kept _ _ _ _ _ HW) as (Q & _). cbn [fst]. rewrite Q. reflexivity. }
      rewrite PE, CE. unfold induced_of. rewrite <- (wetted_eq _ _ _ _ E). destruct (t_osw t) as [e|].
      * cbn [bind]. rewrite (largest_wet _ _ _ _ E). reflexivity.
      * rewrite (induced_sums_eq t (v_ref v) b' (fun w => match dget (w_tag w) b' with Some e => e_cd e | None => 0 end)).
        2:{ intros w I. apply in_map_iff in I. destruct I as (x & <- & I). rewrite (W x I). eexists. split; [reflexivity|].
            split; [reflexivity|]. cbn. destruct (XX x I) as (w0 & _ & HW). destruct x as [w' e].
            pose proof (wing_entry_kept _ _ _ _ _ HW) as (Q & _ & _ & R & _). cbn [fst snd]. rewrite R, Q. reflexivity. }
        cbn [bind]. rewrite !Rplus_0_l, (largest_wet _ _ _ _ E).
        assert (V1 : total (fun w => t_K t * match dget (w_tag w) b' with Some e => e_cd e | None => 0 end * w_cl w ^ 2 * (w_ref w / v_ref v)) (map fst xs) = viscous t fl v).
        { unfold viscous. rewrite total_map.
          transitivity (total (fun x : wing * entry => t_K t * (e_cd (snd x) * w_ref (fst x) / v_ref v) * w_cl (fst x) ^ 2 * (w_ref (fst x) / v_ref v)) xs).
          - apply total_ext. intros x I. rewrite (W x I). reflexivity.
          - symmetry. apply (total_wings t fl _ xs); [exact E|].
            intros w [w' e] HW. pose proof (wing_entry_kept _ _ _ _ _ HW) as (Q & _). cbn [fst snd]. rewrite (wing_cd_entry _ _ _ _ _ HW), Q. reflexivity. }
        assert (V2 : total (fun w => inviscid t w * (w_ref w / v_ref v)) (map fst xs) = total (fun w => inviscid t w * (w_ref w / v_ref v)) (v_wings v)).
        { rewrite total_map. symmetry. apply (total_wings t fl _ xs); [exact E|].
          intros w [w' e] HW. pose proof (wing_entry_kept _ _ _ _ _ HW) as (Q & _). cbn [fst snd]. rewrite Q. reflexivity. }
        rewrite V1, V2. reflexivity.
    + intros w I. destruct (WW w I) as ([w' e] & J & HW). pose proof (W _ J) as G. cbn [fst snd] in G.
      pose proof (wing_entry_kept _ _ _ _ _ HW) as (Q & _). assert (T : w_tag w' = w_tag w) by (rewrite Q; reflexivity).
      assert (T2 : w_ref w' = w_ref w) by (rewrite Q; reflexivity). rewrite T, T2 in G. unfold stored_cd. rewrite G, (wing_cd_entry _ _ _ _ _ HW). reflexivity.
    + intros f I. unfold stored_cd. rewrite (F f I). reflexivity.
    + intros n I. unfold stored_cd. rewrite (K n I). reflexivity.
  - intros (w & I & NF). unfold evaluate_drag. rewrite all_wings_eq, (B w I NF). reflexivity.
  - intros H X Y. destruct (A H) as [xs E]. unfold evaluate_drag. rewrite all_wings_eq, E. cbn [bind fst snd with_wings v_fuselages v_nacelles].
    rewrite Y. cbn [fold_left]. unfold parasite_drag_pylon. cbn [with_wings v_nacelles v_networks]. rewrite X, Y. reflexivity.
Qed.
