(** * Drag build-up: proofs *)
From Coq Require Import Reals List Bool Arith String Lra Lia Permutation.
From Verif Require Import PyBase P_Dict M_Opt P_Opt M_Util P_Util M_Drag S_Drag.
Import ListNotations.
Local Open Scope R_scope.
Local Open Scope list_scope.

(** ** sums *)
Lemma total_app {A} (f : A -> R) l m : total f (l ++ m) = total f l + total f m.
Proof. induction l; cbn; lra. Qed.
Lemma total_perm {A} (f : A -> R) l m : Permutation l m -> total f l = total f m.
Proof. induction 1; cbn; lra. Qed.
Lemma total_ext {A} (f g : A -> R) l : (forall x, In x l -> f x = g x) -> total f l = total g l.
Proof. induction l; cbn; intro H; [reflexivity|]. rewrite H by auto. rewrite IHl; auto. Qed.
Lemma total_scale {A} k (f : A -> R) l : total (fun x => k * f x) l = k * total f l.
Proof. induction l; cbn; lra. Qed.
Lemma total_map {A B} (h : B -> A) (f : A -> R) l : total f (map h l) = total (fun x => f (h x)) l.
Proof. induction l; cbn; congruence. Qed.
Lemma total_nonneg {A} (f : A -> R) l : (forall x, In x l -> 0 <= f x) -> 0 <= total f l.
Proof. induction l; cbn; intro H; [lra|]. pose proof (H a (or_introl eq_refl)). assert (0 <= total f l) by (apply IHl; auto). lra. Qed.
Lemma fold_total {A} (f : A -> R) l : forall a, fold_left (fun t y => t + f y) l a = a + total f l.
Proof. induction l; cbn; intro b; [lra|]. rewrite IHl. lra. Qed.

(** ** what each component writes *)
Definition wing_entry (t : settings) (fl : flow) (w : wing) : result (wing * entry) :=
  match parasite_drag_wing t fl w [] with
  | Ok (w', b, _) => match dget (w_tag w) b with Some e => Ok (w', e) | None => Err KeyError end
  | Err e => Err e
  end.
Lemma wing_entry_eq t fl w b :
  parasite_drag_wing t fl w b =
  match wing_entry t fl w with Ok (w', e) => Ok (w', dset (w_tag w) e b, e_cd e) | Err x => Err x end.
Proof.
  unfold wing_entry, parasite_drag_wing. destruct (w_segs w) as [|s r].
  - destruct (compute_parasite_drag _ _ _ _ _ _ _ _ _ _ _) as [d|x]; cbn [bind]; [|reflexivity].
    cbn. rewrite String.eqb_refl. reflexivity.
  - destruct (segment_drags _ _ _ _) as [d|x]; cbn [bind]; [|reflexivity].
    cbn [dset dget]. rewrite String.eqb_refl. reflexivity.
Qed.
Lemma wing_cd_entry t fl w w' e : wing_entry t fl w = Ok (w', e) -> wing_cd t fl w = e_cd e.
Proof. intro H. unfold wing_cd. rewrite wing_entry_eq, H. reflexivity. Qed.
Lemma wing_entry_kept t fl w w' e : wing_entry t fl w = Ok (w', e) ->
  w' = with_wet (w_wet w') w /\ (w_segs w <> [] -> w' = w) /\ (w_segs w = [] -> w_wet w' = wetted_area t w) /\
  e_ref e = w_ref w /\ e_wet e = w_wet w'.
Proof.
  unfold wing_entry, parasite_drag_wing. destruct (w_segs w) as [|s r] eqn:S.
  - destruct (compute_parasite_drag _ _ _ _ _ _ _ _ _ _ _) as [d|x]; cbn [bind]; [|discriminate].
    cbn [dset dget]. rewrite String.eqb_refl. intro H. injection H as <- <-. cbn. repeat split; try reflexivity. intro N. congruence.
  - destruct (segment_drags _ _ _ _) as [d|x]; cbn [bind]; [|discriminate].
    cbn [dset dget]. rewrite String.eqb_refl. intro H. injection H as <- <-. cbn. repeat split; try reflexivity; try discriminate.
    destruct w; reflexivity.
Qed.
Lemma wetted_again t w : wetted_area t (with_wet (wetted_area t w) w) = wetted_area t w.
Proof.
  unfold wetted_area at 1. cbn [with_wet w_root w_offset w_tip w_span w_wet w_sym w_ref w_tc].
  destruct (t_recalc t) eqn:R.
  - cbn [orb]. unfold wetted_area. rewrite R. reflexivity.
  - cbn [orb]. destruct (Req_EM_T (wetted_area t w) 0) as [E|E]; [|reflexivity].
    unfold wetted_area in *. rewrite R in *. cbn [orb] in *. destruct (Req_EM_T (w_wet w) 0); [reflexivity|contradiction].
Qed.
Lemma with_wet_again a w : with_wet a (with_wet a w) = with_wet a w.
Proof. reflexivity. Qed.
Lemma wing_entry_again t fl w w' e : wing_entry t fl w = Ok (w', e) -> wing_entry t fl w' = Ok (w', e).
Proof.
  intro H. pose proof H as H0. apply wing_entry_kept in H0. destruct H0 as (K & Q & P & _).
  destruct (w_segs w) as [|s r] eqn:S; [|rewrite (Q ltac:(discriminate)) in *; exact H].
  specialize (P eq_refl). rewrite P in K. subst w'.
  revert H. unfold wing_entry, parasite_drag_wing. cbn [with_wet w_segs]. rewrite S.
  fold (with_wet (wetted_area t w) w). rewrite wetted_again.
  cbn [with_wet w_mac w_xtu w_xtl w_sweep w_tc w_ref w_tag].
  destruct (compute_parasite_drag _ _ _ _ _ _ _ _ _ _ _) as [d|x]; cbn [bind]; [|discriminate].
  cbn [dset dget]. rewrite String.eqb_refl. intro H. injection H as <-. reflexivity.
Qed.

Definition fus_entry (t : settings) (fl : flow) (f : fuselage) : entry :=
  match dget (fu_tag f) (fst (parasite_drag_fuselage t fl f [])) with Some e => e | None => Entry 0 0 0 0 0 0 0 end.
Lemma fus_entry_eq t fl f b : parasite_drag_fuselage t fl f b = (dset (fu_tag f) (fus_entry t fl f) b, fuselage_cd t fl f).
Proof. unfold fus_entry, fuselage_cd, parasite_drag_fuselage. cbn [fst snd dset dget]. rewrite String.eqb_refl. reflexivity. Qed.
Lemma fus_entry_cd t fl f : e_cd (fus_entry t fl f) = fuselage_cd t fl f.
Proof. unfold fus_entry, fuselage_cd, parasite_drag_fuselage. cbn [fst snd dset dget]. rewrite String.eqb_refl. reflexivity. Qed.
Definition nac_entry (fl : flow) (n : nacelle) : entry :=
  match dget (na_tag n) (fst (parasite_drag_nacelle fl n [])) with Some e => e | None => Entry 0 0 0 0 0 0 0 end.
Lemma nac_entry_eq fl n b : parasite_drag_nacelle fl n b = (dset (na_tag n) (nac_entry fl n) b, nacelle_cd fl n).
Proof. unfold nac_entry, nacelle_cd, parasite_drag_nacelle. cbn [fst snd dset dget]. rewrite String.eqb_refl. reflexivity. Qed.
Lemma nac_entry_cd fl n : e_cd (nac_entry fl n) = nacelle_cd fl n.
Proof. unfold nac_entry, nacelle_cd, parasite_drag_nacelle. cbn [fst snd dset dget]. rewrite String.eqb_refl. reflexivity. Qed.

(** ** writing many entries *)
Definition puts (l : list (string * entry)) (b : breakdown) : breakdown := fold_left (fun b x => dset (fst x) (snd x) b) l b.
Lemma puts_app l m b : puts (l ++ m) b = puts m (puts l b).
Proof. unfold puts. apply fold_left_app. Qed.
Lemma puts_other l k : forall b, ~ In k (map fst l) -> dget k (puts l b) = dget k b.
Proof.
  unfold puts. induction l as [|[a e] l IH]; cbn; intros b N; [reflexivity|]. rewrite IH by tauto.
  apply dget_dset_ne. intro; subst; tauto.
Qed.
Lemma puts_in l k e : forall b, NoDup (map fst l) -> In (k, e) l -> dget k (puts l b) = Some e.
Proof.
  unfold puts. induction l as [|[a x] l IH]; cbn; intros b N I; [easy|]. inversion N; subst.
  destruct I as [I|I].
  - injection I as -> ->. change (fold_left _ l ?b0) with (puts l b0). rewrite puts_other by assumption. apply dget_dset_eq.
  - apply IH; assumption.
Qed.

Fixpoint entries_of (t : settings) (fl : flow) (l : list wing) : result (list (wing * entry)) :=
  match l with
  | [] => Ok []
  | w :: r => match wing_entry t fl w with
              | Ok x => match entries_of t fl r with Ok y => Ok (x :: y) | Err e => Err e end
              | Err e => Err e
              end
  end.
Lemma all_wings_eq t fl : forall l b, all_wings t fl l b =
  match entries_of t fl l with
  | Ok xs => Ok (map fst xs, puts (map (fun x => (w_tag (fst x), snd x)) xs) b)
  | Err e => Err e
  end.
Proof.
  induction l as [|w r IH]; intro b; [reflexivity|]. cbn [all_wings entries_of]. rewrite wing_entry_eq.
  destruct (wing_entry t fl w) as [[w' e]|x] eqn:E; cbn [bind]; [|reflexivity].
  rewrite IH. destruct (entries_of t fl r) as [xs|x]; cbn; [|reflexivity].
  destruct (wing_entry_kept _ _ _ _ _ E) as (K & _). assert (T : w_tag w' = w_tag w) by (rewrite K; reflexivity). rewrite T. reflexivity.
Qed.
Lemma entries_kept t fl : forall l xs, entries_of t fl l = Ok xs ->
  Forall2 (fun w x => wing_entry t fl w = Ok x) l xs.
Proof.
  induction l as [|w r IH]; cbn; intros xs H; [injection H as <-; constructor|].
  destruct (wing_entry t fl w) as [x|] eqn:E; [|discriminate].
  destruct (entries_of t fl r) as [y|]; [|discriminate]. injection H as <-. constructor; auto.
Qed.
Lemma entries_again t fl : forall l xs, entries_of t fl l = Ok xs -> entries_of t fl (map fst xs) = Ok xs.
Proof.
  induction l as [|w r IH]; cbn; intros xs H; [injection H as <-; reflexivity|].
  destruct (wing_entry t fl w) as [[w' e]|] eqn:E; [|discriminate].
  destruct (entries_of t fl r) as [y|]; [|discriminate]. injection H as <-. cbn.
  rewrite (wing_entry_again _ _ _ _ _ E), (IH y eq_refl). reflexivity.
Qed.
Lemma fold_fus t fl l : forall b, fold_left (fun b f => fst (parasite_drag_fuselage t fl f b)) l b =
  puts (map (fun f => (fu_tag f, fus_entry t fl f)) l) b.
Proof. induction l as [|f r IH]; intro b; [reflexivity|]. cbn [fold_left map]. rewrite IH, fus_entry_eq. reflexivity. Qed.
Lemma fold_nac fl l : forall b, fold_left (fun b n => fst (parasite_drag_nacelle fl n b)) l b =
  puts (map (fun n => (na_tag n, nac_entry fl n)) l) b.
Proof. induction l as [|f r IH]; intro b; [reflexivity|]. cbn [fold_left map]. rewrite IH, nac_entry_eq. reflexivity. Qed.

Lemma nacelle_entries_eq fl b : forall l, (forall n, In n l -> dget (na_tag n) b = Some (nac_entry fl n)) ->
  nacelle_entries b l = Ok (map (fun n => (n, nac_entry fl n)) l).
Proof.
  induction l as [|n r IH]; intro H; [reflexivity|]. cbn. rewrite (H n) by (left; reflexivity).
  rewrite IH by (intros; apply H; right; assumption). reflexivity.
Qed.

(** ** referring to the vehicle's area *)
Lemma refer_all_eq Sref (g : string -> entry) : forall l b s, NoDup (map fst l) ->
  (forall x, In x l -> dget (fst x) b = Some (g (fst x))) ->
  exists b', refer_all Sref l (b, s) = Ok (b', s + total (fun x => e_cd (g (fst x)) * snd x / Sref) l) /\
    (forall x, In x l -> dget (fst x) b' = Some (with_cd (e_cd (g (fst x)) * snd x / Sref) (g (fst x)))) /\
    (forall k, ~ In k (map fst l) -> dget k b' = dget k b).
Proof.
  induction l as [|[k a] r IH]; intros b s N H.
  - exists b. cbn. rewrite Rplus_0_r. split; [reflexivity|]. split; [easy|intros; reflexivity].
  - inversion N; subst. cbn [refer_all refer]. pose proof (H (k, a) (or_introl eq_refl)) as Hk. cbn [fst] in Hk. rewrite Hk. cbn [fst bind].
    destruct (IH (dset k (with_cd (e_cd (g k) * a / Sref) (g k)) b) (s + e_cd (g k) * a / Sref) H3) as (b' & E & P & Q).
    { intros x I. rewrite dget_dset_ne; [apply H; right; assumption|]. intro Z. apply H2. rewrite <- Z. apply in_map. assumption. }
    exists b'. split; [|split].
    + rewrite E. cbn. f_equal. f_equal. lra.
    + intros x [<-|I]; [cbn|apply P; assumption]. rewrite Q by assumption. apply dget_dset_eq.
    + intros k' M. cbn in M. rewrite Q by tauto. apply dget_dset_ne. intros ->. tauto.
Qed.

Fixpoint put_list (l : list (string * entry)) (k : string) : entry :=
  match l with [] => Entry 0 0 0 0 0 0 0 | (a, e) :: r => if String.eqb a k then e else put_list r k end.
Lemma put_list_in l k e : NoDup (map fst l) -> In (k, e) l -> put_list l k = e.
Proof.
  induction l as [|[a x] l IH]; cbn; intros N I; [easy|]. inversion N; subst.
  destruct I as [I|I]; [injection I as -> ->; rewrite String.eqb_refl; reflexivity|].
  destruct (String.eqb_spec a k); [|apply IH; assumption]. subst. exfalso. apply H1.
  change k with (fst (k, e)). apply in_map. assumption.
Qed.

Lemma NoDup_part {A} (l m : list A) : NoDup (l ++ m) -> NoDup l /\ NoDup m /\ (forall x, In x l -> ~ In x m).
Proof.
  induction l as [|a l IH]; cbn; intro N; [repeat split; [constructor|assumption|easy]|].
  inversion N; subst. destruct (IH H2) as (P & Q & R). repeat split; [constructor; [|assumption]|assumption|].
  - intro I. apply H1. apply in_or_app. left; assumption.
  - intros x [<-|I]; [|auto]. intro I. apply H1. apply in_or_app. right; assumption.
Qed.
Lemma NoDup_sub {A} (l m n : list A) : incl n m -> NoDup n -> NoDup (l ++ m) -> NoDup (l ++ n).
Proof.
  intros I N H. induction l as [|a l IH]; cbn in *; [assumption|]. inversion H; subst. constructor; [|auto].
  intro Q. apply H2. apply in_app_or in Q. apply in_or_app. destruct Q; [left; assumption|right; apply I; assumption].
Qed.
Lemma NoDup_filter_map {A} (f : A -> string) p l : NoDup (map f l) -> NoDup (map f (filter p l)).
Proof.
  induction l as [|a l IH]; cbn; intro N; [constructor|]. inversion N; subst. destruct (p a); [|auto].
  cbn. constructor; [|auto]. intro I. apply H1. apply in_map_iff in I. destruct I as (x & E & I). apply filter_In in I.
  rewrite <- E. apply in_map. tauto.
Qed.

(** ** the whole build-up in closed form *)
Definition parasite_sum (t : settings) (fl : flow) (v : vehicle) (xs : list (wing * entry)) : R :=
  total (fun x => e_cd (snd x) * w_ref (fst x) / v_ref v) xs +
  total (fun f => fuselage_cd t fl f * fu_front f / v_ref v) (separate v) +
  total (fun n => nacelle_cd fl n * nacelle_ref n / v_ref v) (v_nacelles v) +
  total (fun n => 20 / 100 * nacelle_cd fl n * (nacelle_ref n / v_ref v)) (v_nacelles v).

Lemma build_up t fl CL CDi v b xs :
  named_apart v -> entries_of t fl (v_wings v) = Ok xs -> (v_networks v <> 0%nat \/ v_nacelles v <> []) ->
  exists b',
    (forall x, In x xs -> dget (w_tag (fst x)) b' = Some (with_cd (e_cd (snd x) * w_ref (fst x) / v_ref v) (snd x))) /\
    (forall f, In f (separate v) -> dget (fu_tag f) b' = Some (with_cd (fuselage_cd t fl f * fu_front f / v_ref v) (fus_entry t fl f))) /\
    (forall n, In n (v_nacelles v) -> dget (na_tag n) b' = Some (with_cd (nacelle_cd fl n * nacelle_ref n / v_ref v) (nac_entry fl n))) /\
    evaluate_drag t fl CL CDi v b =
    bind (induced_drag_aircraft t (with_wings (map fst xs) v) b' CL CDi) (fun ind =>
      Ok (with_wings (map fst xs) v, b', add_up t (parasite_sum t fl v xs) ind
        (compressibility_drag_wing_total fl (with_wings (map fst xs) v)) (miscellaneous_drag (with_wings (map fst xs) v)))).
Proof.
  intros N E X. unfold evaluate_drag. rewrite all_wings_eq, E. cbn [bind fst snd].
  cbn [with_wings v_fuselages v_nacelles v_networks v_ref v_wings].
  rewrite fold_fus, fold_nac. rewrite <- !puts_app.
  set (L := map (fun x : wing * entry => (w_tag (fst x), snd x)) xs ++ map (fun f => (fu_tag f, fus_entry t fl f)) (v_fuselages v) ++
            map (fun n => (na_tag n, nac_entry fl n)) (v_nacelles v)).
  assert (T : map w_tag (map fst xs) = map w_tag (v_wings v)).
  { pose proof (entries_kept _ _ _ _ E) as F. clear - F. induction F as [|w [w' e] l xs H F IH]; [reflexivity|].
    cbn. rewrite IH. f_equal. apply wing_entry_kept in H. destruct H as (-> & _). reflexivity. }
  assert (K : map fst L = tags v).
  { unfold L, tags. rewrite !map_app, !map_map. cbn [fst]. rewrite map_map in T. rewrite T. reflexivity. }
  assert (ND : NoDup (map fst L)) by (rewrite K; inversion N; assumption).
  assert (NP : ~ In "pylon"%string (map fst L)) by (rewrite K; inversion N; assumption).
  assert (G : forall k e, In (k, e) L -> dget k (puts L b) = Some e) by (intros; apply puts_in; assumption).
  assert (Gw : forall x, In x xs -> dget (w_tag (fst x)) (puts L b) = Some (snd x)).
  { intros x I. apply G. unfold L. apply in_or_app; left. apply in_map_iff. exists x. auto. }
  assert (Gf : forall f, In f (v_fuselages v) -> dget (fu_tag f) (puts L b) = Some (fus_entry t fl f)).
  { intros f I. apply G. unfold L. apply in_or_app; right. apply in_or_app; left. apply in_map_iff. exists f. auto. }
  assert (Gn : forall n, In n (v_nacelles v) -> dget (na_tag n) (puts L b) = Some (nac_entry fl n)).
  { intros n I. apply G. unfold L. apply in_or_app; right. apply in_or_app; right. apply in_map_iff. exists n. auto. }
  unfold parasite_drag_pylon. cbn [v_nacelles v_networks v_ref with_wings].
  rewrite (nacelle_entries_eq fl) by assumption. cbn [bind].
  replace (_ && _)%bool with false.
  2:{ destruct X as [X|X].
      - apply Nat.eqb_neq in X. rewrite X. reflexivity.
      - destruct (v_nacelles v); [congruence|]. cbn. rewrite andb_false_r. reflexivity. }
  cbn [bind fst snd].
  match goal with |- context [dset "pylon" ?e (puts L b)] => set (py := e) end.
  unfold parasite_total. cbn [v_ref with_wings].
  set (C := counted _).
  assert (KC : map fst C = map w_tag (v_wings v) ++ map fu_tag (separate v) ++ map na_tag (v_nacelles v)).
  { unfold C, counted. cbn [with_wings v_wings v_fuselages v_nacelles]. rewrite !map_app, !map_map. cbn [fst].
    rewrite map_map in T. rewrite T. reflexivity. }
  assert (ND2 : NoDup (map w_tag (v_wings v) ++ map fu_tag (v_fuselages v) ++ map na_tag (v_nacelles v))) by (inversion N; assumption).
  assert (IS : incl (map fu_tag (separate v)) (map fu_tag (v_fuselages v))).
  { intros k I. apply in_map_iff in I. destruct I as (f & <- & I). apply in_map. unfold separate in I. apply filter_In in I. tauto. }
  assert (NC : NoDup (map fst C)).
  { rewrite KC. destruct (NoDup_part _ _ ND2) as (P1 & P2 & P3). destruct (NoDup_part _ _ P2) as (P4 & P5 & P6).
    apply (NoDup_sub _ (map fu_tag (v_fuselages v) ++ map na_tag (v_nacelles v))); [| |exact ND2].
    - apply incl_app; [apply incl_appl; exact IS|apply incl_appr; apply incl_refl].
    - clear - IS P4 P5 P6. assert (NF : NoDup (map fu_tag (separate v))) by (apply NoDup_filter_map; assumption).
      revert IS NF. generalize (map fu_tag (separate v)) as l. induction l as [|a l IH]; intros IS NF; [assumption|].
      cbn. inversion NF; subst. constructor; [|apply IH; [intros x I; apply IS; right; assumption|assumption]].
      intro I. apply in_app_or in I. destruct I as [I|I]; [contradiction|]. apply (P6 a); [apply IS; left; reflexivity|assumption]. }
  assert (NPC : ~ In "pylon"%string (map fst C)).
  { rewrite KC. intro I. apply NP. rewrite K. unfold tags. apply in_app_or in I. destruct I as [I|I]; [apply in_or_app; left; assumption|].
    apply in_app_or in I. apply in_or_app; right. apply in_or_app. destruct I as [I|I]; [left; apply IS; assumption|right; assumption]. }
  assert (GC : forall x, In x C -> dget (fst x) (dset "pylon" py (puts L b)) = Some (put_list L (fst x))).
  { intros x I. rewrite dget_dset_ne by (intro Z; apply NPC; rewrite <- Z; apply in_map; assumption).
    unfold C, counted in I. cbn [with_wings v_wings v_fuselages v_nacelles] in I.
    apply in_app_or in I. destruct I as [I|I]; [|apply in_app_or in I; destruct I as [I|I]].
    - rewrite map_map in I. apply in_map_iff in I. destruct I as (y & <- & I). cbn [fst]. rewrite (Gw y I). f_equal. symmetry.
      apply put_list_in; [assumption|]. unfold L. apply in_or_app; left. apply in_map_iff. exists y. auto.
    - apply in_map_iff in I. destruct I as (y & <- & I). apply filter_In in I. cbn [fst]. rewrite (Gf y) by tauto. f_equal. symmetry.
      apply put_list_in; [assumption|]. unfold L. apply in_or_app; right. apply in_or_app; left. apply in_map_iff. exists y. tauto.
    - apply in_map_iff in I. destruct I as (y & <- & I). cbn [fst]. rewrite (Gn y) by tauto. f_equal. symmetry.
      apply put_list_in; [assumption|]. unfold L. apply in_or_app; right. apply in_or_app; right. apply in_map_iff. exists y. tauto. }
  destruct (refer_all_eq (v_ref v) (put_list L) C (dset "pylon" py (puts L b)) 0 NC GC) as (b' & ER & PR & QR).
  assert (Lw : forall x, In x xs -> put_list L (w_tag (fst x)) = snd x).
  { intros x I. apply put_list_in; [assumption|]. unfold L. apply in_or_app; left. apply in_map_iff. exists x. auto. }
  assert (Lf : forall f, In f (v_fuselages v) -> put_list L (fu_tag f) = fus_entry t fl f).
  { intros x I. apply put_list_in; [assumption|]. unfold L. apply in_or_app; right. apply in_or_app; left. apply in_map_iff. exists x. auto. }
  assert (Ln : forall n, In n (v_nacelles v) -> put_list L (na_tag n) = nac_entry fl n).
  { intros x I. apply put_list_in; [assumption|]. unfold L. apply in_or_app; right. apply in_or_app; right. apply in_map_iff. exists x. auto. }
  exists b'. split; [|split; [|split]].
  - intros x I. rewrite <- (Lw x I) at 2. rewrite <- (Lw x I) at 1.
    apply (PR (w_tag (fst x), w_ref (fst x))). unfold C, counted. cbn [with_wings v_wings]. apply in_or_app; left.
    rewrite map_map. apply in_map_iff. exists x. auto.
  - intros f I. assert (I' : In f (v_fuselages v)) by (unfold separate in I; apply filter_In in I; tauto).
    rewrite <- fus_entry_cd. rewrite <- (Lf f I').
    apply (PR (fu_tag f, fu_front f)). unfold C, counted. cbn [with_wings v_fuselages]. apply in_or_app; right. apply in_or_app; left.
    apply in_map_iff. exists f. auto.
  - intros n I. rewrite <- nac_entry_cd. rewrite <- (Ln n I).
    apply (PR (na_tag n, nacelle_ref n)). unfold C, counted. cbn [with_wings v_nacelles]. apply in_or_app; right. apply in_or_app; right.
    apply in_map_iff. exists n. auto.
  - refine (eq_trans (f_equal (fun x => bind (bind x _) _) ER) _). cbn [bind]. rewrite (QR "pylon"%string NPC), dget_dset_eq.
    match goal with |- bind _ ?f = bind _ ?g => replace f with g; [reflexivity|] end.
    assert (EQ : parasite_sum t fl v xs = 0 + total (fun x => e_cd (put_list L (fst x)) * snd x / v_ref v) C + e_cd py); [|rewrite EQ; reflexivity].
    unfold parasite_sum, py. cbn [e_cd]. rewrite Rplus_0_l. f_equal.
    + unfold C, counted. cbn [with_wings v_wings v_fuselages v_nacelles]. rewrite !total_app, !total_map. cbn [fst snd]. rewrite <- Rplus_assoc.
      f_equal; [f_equal|]; apply total_ext; intros x I.
      * rewrite (Lw x I). reflexivity.
      * rewrite Lf by (unfold separate in I; apply filter_In in I; tauto). rewrite fus_entry_cd. reflexivity.
      * rewrite Ln by assumption. rewrite nac_entry_cd. reflexivity.
    + rewrite fold_total, total_map, Rplus_0_l. apply total_ext. intros x I. cbn [fst snd]. rewrite nac_entry_cd. reflexivity.
Qed.
