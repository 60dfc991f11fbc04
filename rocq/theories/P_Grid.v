(** * Proofs: spanwise stations and strips *)
From Coq Require Import Reals List Bool Arith ZArith Lra Lia Sorted Permutation.
From Verif Require Import PyBase M_Opt M_Rot M_Noise M_Evtol M_Vlm M_Field M_Grid S_Vlm S_Rot S_Grid P_Opt P_Noise.
Import ListNotations.
Local Open Scope R_scope.

Lemma nearest_some r : forall l i d, nearest r l = Some (i, d) ->
  exists l1 y l2, l = l1 ++ (y, false) :: l2 /\ length l1 = i /\ d = Rabs (y - r) /\ (forall y', In (y', false) l -> d <= Rabs (y' - r)).
Proof.
  induction l as [|[y b] l IH]; intros i d H; [discriminate|]. cbn [nearest] in H.
  assert (HL : forall i d, match nearest r l with Some (i, d) => Some (S i, d) | None => None end = Some (i, d) ->
    exists j, i = S j /\ nearest r l = Some (j, d)).
  { intros i0 d0 H0. destruct (nearest r l) as [[j e]|]; [|discriminate]. injection H0 as <- <-. eauto. }
  destruct b.
  - apply HL in H. destruct H as (j & -> & H). destruct (IH _ _ H) as (l1 & y1 & l2 & -> & L & D & M).
    exists ((y, true) :: l1), y1, l2. repeat split; auto; [cbn; lia|]. intros y' [E|I]; [discriminate|auto].
  - destruct (nearest r l) as [[j e]|] eqn:N.
    + destruct (IH _ _ eq_refl) as (l1 & y1 & l2 & -> & L & D & M). destruct (Rltb e (Rabs (y - r))) eqn:C.
      * injection H as <- <-. apply Rltb_true in C. exists ((y, false) :: l1), y1, l2. repeat split; auto; [cbn; lia|].
        intros y' [E|I]; [injection E as <-; lra|auto].
      * injection H as <- <-. apply Rltb_false in C. exists [], y, (l1 ++ (y1, false) :: l2). repeat split; auto.
        intros y' [E|I]; [injection E as <-; lra|]. specialize (M _ I). lra.
    + injection H as <- <-. exists [], y, l. repeat split; auto. intros y' [E|I]; [injection E as <-; lra|].
      exfalso. clear -N I. induction l as [|[z b] l IH]; [inversion I|]. cbn [nearest] in N. destruct b.
      * destruct I as [E|I]; [discriminate|]. apply IH; auto. destruct (nearest r l) as [[? ?]|]; [discriminate|reflexivity].
      * destruct (nearest r l) as [[? ?]|]; [destruct (Rltb _ _); discriminate|discriminate].
Qed.
Lemma nearest_none r : forall l, nearest r l = None -> Forall (fun p => snd p = true) l.
Proof.
  induction l as [|[y b] l IH]; intro H; [constructor|]. cbn [nearest] in H. destruct b.
  - constructor; [reflexivity|]. apply IH. destruct (nearest r l) as [[? ?]|]; [discriminate|reflexivity].
  - destruct (nearest r l) as [[? ?]|]; [destruct (Rltb _ _); discriminate|discriminate].
Qed.
Lemma put_middle v : forall l1 x l2, put (length l1) v (l1 ++ x :: l2) = l1 ++ v :: l2.
Proof. induction l1 as [|a l1 IH]; intros; cbn; [reflexivity|]. f_equal. apply IH. Qed.

Definition fixed (l : list (R * bool)) : nat := length (filter snd l).
Record snapped (ys done : list R) (l : list (R * bool)) : Prop := {
  sn_length : length l = length ys;
  sn_nodup : NoDup (map fst l);
  sn_done : forall v, In (v, true) l <-> In v done;
  sn_free : forall v, In (v, false) l -> In v ys;
  sn_count : fixed l = length done }.
Lemma fixed_app l1 l2 : fixed (l1 ++ l2) = (fixed l1 + fixed l2)%nat.
Proof. unfold fixed. rewrite filter_app, app_length. reflexivity. Qed.
Lemma snapped_start ys : NoDup ys -> snapped ys [] (map (fun y => (y, false)) ys).
Proof.
  intro N. split.
  - apply map_length.
  - rewrite map_map. cbn. rewrite map_id. exact N.
  - intro v. split; intro I; [|inversion I]. apply in_map_iff in I. destruct I as (x & E & _). discriminate.
  - intros v I. apply in_map_iff in I. destruct I as (x & E & I). injection E as <-. exact I.
  - unfold fixed. clear N. induction ys; cbn in *; auto.
Qed.
Lemma snapped_step ys done l r : snapped ys done l -> ~ In r done -> (length done < length ys)%nat -> snapped ys (r :: done) (move_one l r).
Proof.
  intros [L N D F C] NI LT. unfold move_one. destruct (nearest r l) as [[i d]|] eqn:E.
  - destruct (nearest_some _ _ _ _ E) as (l1 & y & l2 & -> & <- & -> & M). rewrite put_middle.
    assert (NR : ~ In r (map fst (l1 ++ l2))).
    { intro I. apply in_map_iff in I. destruct I as ([v b] & <- & I). cbn [fst] in *.
      assert (I' : In (v, b) (l1 ++ (y, false) :: l2)) by (apply in_app_or in I; apply in_or_app; cbn; tauto). destruct b.
      - apply NI. apply D. exact I'.
      - specialize (M _ I'). rewrite (Rabs_right (v - v)) in M by lra. pose proof (Rabs_pos (y - v)).
        assert (y = v). { destruct (Req_dec (y - v) 0); [lra|]. pose proof (Rabs_pos_lt _ H0). lra. } subst y.
        rewrite map_app in N. cbn in N. apply NoDup_remove_2 in N. apply N. rewrite <- map_app. apply (in_map fst) in I. exact I. }
    split.
    + rewrite <- L, !app_length. reflexivity.
    + rewrite map_app in *. cbn in *. apply NoDup_remove_1 in N. apply (Permutation_NoDup (l := r :: map fst l1 ++ map fst l2)); [apply Permutation_middle|].
      constructor; [exact NR|exact N].
    + intro v. rewrite in_app_iff. cbn [In]. rewrite <- D, in_app_iff. cbn [In]. split; intro H.
      * destruct H as [H|[H|H]]; [tauto|injection H as <-; tauto|tauto].
      * destruct H as [<-|[H|[H|H]]]; [tauto|tauto|discriminate|tauto].
    + intros v I. apply F. apply in_app_iff in I. apply in_app_iff. destruct I as [I|[I|I]]; [tauto|discriminate|cbn; tauto].
    + rewrite fixed_app in *. unfold fixed in *. cbn in *. lia.
  - exfalso. apply nearest_none in E. assert (fixed l = length l).
    { unfold fixed. clear -E. induction E as [|x l H E IH]; [reflexivity|]. cbn. rewrite H. cbn. rewrite IH. reflexivity. }
    lia.
Qed.
Lemma snapped_all ys : forall req done l, snapped ys done l -> NoDup (req ++ done) -> (length (req ++ done) <= length ys)%nat ->
  exists done', snapped ys done' (fold_left move_one req l) /\ length done' = length (req ++ done) /\ (forall v, In v done' <-> In v (req ++ done)).
Proof.
  induction req as [|r req IH]; intros done l S N L; cbn [fold_left app] in *.
  - exists done. split; [exact S|]. split; [reflexivity|]. intro; tauto.
  - inversion N as [|? ? NI N']; subst. cbn [length] in L.
    assert (P : Permutation (req ++ r :: done) (r :: req ++ done)) by (symmetry; apply Permutation_middle).
    destruct (IH (r :: done) (move_one l r)) as (d & S' & L' & I').
    + apply snapped_step; auto; [intro I; apply NI; apply in_or_app; tauto|]. rewrite app_length in L. lia.
    + apply (Permutation_NoDup (Permutation_sym P)). exact N.
    + rewrite (Permutation_length P). cbn. lia.
    + exists d. split; [exact S'|]. split; [rewrite L'; apply Permutation_length; exact P|].
      intro v. rewrite I'. split; apply Permutation_in; [exact P|symmetry; exact P].
Qed.

Lemma insert_perm x : forall l, Permutation (insert x l) (x :: l).
Proof. induction l as [|y l IH]; cbn; [reflexivity|]. destruct (Rltb y x); [|reflexivity]. rewrite IH. constructor. Qed.
Lemma sorted_perm : forall l, Permutation (sorted l) l.
Proof. induction l as [|x l IH]; cbn; [constructor|]. rewrite insert_perm. constructor. exact IH. Qed.
Lemma insert_sorted x : forall l, StronglySorted Rle l -> StronglySorted Rle (insert x l).
Proof.
  induction l as [|y l IH]; intro S; cbn; [repeat constructor|]. inversion S as [|? ? S' F]; subst. destruct (Rltb y x) eqn:C.
  - apply Rltb_true in C. constructor; [auto|]. apply (Permutation_Forall (Permutation_sym (insert_perm x l))). constructor; [lra|exact F].
  - apply Rltb_false in C. constructor; [exact S|]. constructor; [lra|]. eapply Forall_impl; [|exact F]. cbn. intros; lra.
Qed.
Lemma sorted_sorted : forall l, StronglySorted Rle (sorted l).
Proof. induction l; cbn; [constructor|]. apply insert_sorted. exact IHl. Qed.
Lemma strictly : forall l, StronglySorted Rle l -> NoDup l -> StronglySorted Rlt l.
Proof.
  induction l as [|x l IH]; intros S N; [constructor|]. inversion S as [|? ? S' F]; inversion N as [|? ? NI N']; subst. constructor; [auto|].
  rewrite Forall_forall in *. intros y I. specialize (F y I). destruct (Req_dec x y); [subst; contradiction|lra].
Qed.
Lemma ascending_iff : forall l, ascending l <-> StronglySorted Rlt l.
Proof.
  induction l as [|x l IH]; split; intro H.
  - constructor.
  - intros i j [H1 H2]. cbn in H2. lia.
  - constructor.
    + apply IH. intros i j L. apply (H (S i) (S j)). cbn. lia.
    + rewrite Forall_forall. intros y I. apply (In_nth _ _ 0) in I. destruct I as (n & L & <-). apply (H O (S n)). cbn. lia.
  - inversion H as [|? ? S F]; subst. intros i j L. cbn in L. destruct j as [|j]; [lia|]. destruct i as [|i].
    + cbn. rewrite Forall_forall in F. apply F. apply nth_In. lia.
    + cbn. apply IH; auto. lia.
Qed.
Lemma ascending_nodup l : ascending l -> NoDup l.
Proof.
  intro H. apply ascending_iff in H. induction H as [|x l S IH F]; constructor; auto. rewrite Forall_forall in F. intro I. specialize (F x I). lra.
Qed.
Lemma same_elements : forall a b, ascending a -> ascending b -> (forall v, In v a <-> In v b) -> a = b.
Proof.
  intros a b A B E. apply ascending_iff in A. apply ascending_iff in B. revert b B E.
  induction A as [|x a SA IH FA]; intros b B E.
  - destruct b as [|y b]; [reflexivity|]. exfalso. apply (proj2 (E y)). left; reflexivity.
  - destruct b as [|y b]; [exfalso; apply (proj1 (E x)); left; reflexivity|]. inversion B as [|? ? SB FB]; subst.
    rewrite Forall_forall in FA, FB.
    assert (x = y). { pose proof (proj1 (E x) (or_introl eq_refl)) as [<-|I1]; [reflexivity|]. pose proof (proj2 (E y) (or_introl eq_refl)) as [->|I2]; [reflexivity|].
      specialize (FA y I2). specialize (FB x I1). lra. } subst y. f_equal. apply IH; auto. intro v. split; intro I.
    + destruct (proj1 (E v) (or_intror I)) as [<-|J]; [|exact J]. exfalso. specialize (FA x I). lra.
    + destruct (proj2 (E v) (or_intror I)) as [<-|J]; [|exact J]. exfalso. specialize (FB x I). lra.
Qed.
Lemma has_in x l : has x l = true <-> In x l.
Proof.
  unfold has. rewrite existsb_exists. split.
  - intros (y & I & E). destruct (Req_EM_T x y); [subst; exact I|discriminate].
  - intro I. exists x. split; [exact I|]. destruct (Req_EM_T x x); congruence.
Qed.
Lemma filter_short {A} (f : A -> bool) : forall l, (length (filter f l) <= length l)%nat.
Proof. induction l as [|a l IH]; cbn; [lia|]. destruct (f a); cbn; lia. Qed.
(** the spanwise stations *)
Lemma spanwise_spec breaks ys req : NoDup ys -> NoDup req -> (length req <= length ys)%nat -> (breaks <= length ys)%nat ->
  exists l, spanwise breaks ys req = Ok l /\ ascending l /\ length l = length ys /\ (forall v, In v req -> In v l) /\
    (forall v, In v l -> In v req \/ In v ys) /\ (length req = length ys -> forall v, In v l -> In v req).
Proof.
  intros NY NR LR LB. destruct (snapped_all ys req [] _ (snapped_start ys NY)) as (d & S & L & I); [rewrite app_nil_r; exact NR|rewrite app_nil_r; exact LR|].
  rewrite app_nil_r in *. destruct S as [SL SN SD SF SC]. set (l := sorted (moved ys req)).
  assert (P : Permutation l (moved ys req)) by apply sorted_perm.
  assert (IN : forall v, In v l <-> exists b, In (v, b) (fold_left move_one req (map (fun y => (y, false)) ys))).
  { intro v. split.
    - intro H. apply (Permutation_in _ P) in H. unfold moved in H. apply in_map_iff in H. destruct H as ([w b] & E & H). cbn in E. subst. eauto.
    - intros (b & H). apply (Permutation_in _ (Permutation_sym P)). unfold moved. apply (in_map fst) in H. exact H. }
  assert (REQ : forall v, In v req -> In v l). { intros v H. apply IN. exists true. apply SD. apply I. exact H. }
  exists l. split; [|split; [|split; [|split; [|split]]]].
  - unfold spanwise. assert (Nat.ltb (length ys) breaks = false) by (apply Nat.ltb_ge; exact LB). rewrite H. fold l.
    assert (forallb (fun r => has r l) req = true). { apply forallb_forall. intros v H1. apply has_in. auto. } rewrite H0. reflexivity.
  - apply ascending_iff. apply strictly; [apply sorted_sorted|]. apply (Permutation_NoDup (Permutation_sym P)). exact SN.
  - rewrite (Permutation_length P). unfold moved. rewrite map_length. exact SL.
  - exact REQ.
  - intros v H. apply IN in H. destruct H as ([|] & H); [left; apply I, SD, H|right; apply SF, H].
  - intros E v H. apply IN in H. destruct H as ([|] & H); [apply I, SD, H|]. exfalso.
    assert (C : forall m, In (v, false) m -> (fixed m < length m)%nat).
    { clear. induction m as [|[w b] m IH]; intro H; [inversion H|]. unfold fixed in *. cbn. destruct H as [H|H].
      - injection H as <- ->. cbn. pose proof (filter_short (@snd R bool) m). lia.
      - specialize (IH H). destruct b; cbn; lia. }
    specialize (C _ H). rewrite SC, SL, L, E in C. lia.
Qed.

Lemma hd_nth : forall (l : list R), hd 0 l = nth 0 l 0.
Proof. destruct l; reflexivity. Qed.
Lemma last_nth : forall (l : list R), last l 0 = nth (length l - 1) l 0.
Proof.
  induction l as [|a l IH]; [reflexivity|]. destruct l as [|b l]; [reflexivity|]. change (last (a :: b :: l) 0) with (last (b :: l) 0). rewrite IH.
  cbn [length]. replace (S (S (length l)) - 1)%nat with (S (S (length l) - 1)) by lia. reflexivity.
Qed.
Lemma strips_cons breaks i ya yb rest : strips breaks i (ya :: yb :: rest) =
  match nth_error breaks (S i) with
  | None => Err IndexError
  | Some next => bind (strips breaks (if Req_EM_T yb next then S i else i) (yb :: rest)) (fun l => Ok ((i, ya, yb) :: l))
  end.
Proof. reflexivity. Qed.
(** every strip lies in one section *)
Lemma strips_from breaks : ascending breaks -> forall ys i, ascending ys -> (i < length breaks)%nat -> ys <> [] -> nth i breaks 0 <= hd 0 ys ->
  (forall j, (i < j < length breaks)%nat -> In (nth j breaks 0) (tl ys)) -> last ys 0 = last breaks 0 ->
  exists st, strips breaks i ys = Ok st /\ length st = (length ys - 1)%nat /\
    forall k, (k < length st)%nat -> exists a, nth k st (O, 0, 0) = (a, nth k ys 0, nth (S k) ys 0) /\ (S a < length breaks)%nat /\
      nth a breaks 0 <= nth k ys 0 /\ nth (S k) ys 0 <= nth (S a) breaks 0.
Proof.
  intros AB. induction ys as [|ya ys IH]; intros i AY LI NE HI HB HL; [congruence|]. destruct ys as [|yb rest].
  - exists []. cbn. repeat split; auto. intros k L. lia.
  - cbn [hd tl] in *. assert (AY' : ascending (yb :: rest)) by (apply ascending_iff in AY; apply ascending_iff; inversion AY; auto).
    assert (AB1 : ya < yb) by (apply (AY O 1%nat); cbn; lia).
    assert (LS : (S i < length breaks)%nat).
    { destruct (Nat.eq_dec (S i) (length breaks)) as [E|]; [|lia]. exfalso.
      rewrite (last_nth breaks) in HL. replace (length breaks - 1)%nat with i in HL by lia. rewrite last_nth in HL.
      assert (ya < nth (length (ya :: yb :: rest) - 1) (ya :: yb :: rest) 0) by (apply (AY O); cbn; lia). lra. }
    assert (IS : In (nth (S i) breaks 0) (yb :: rest)) by (apply HB; lia).
    assert (MIN : forall v, In v rest -> yb < v).
    { intros v I. apply ascending_iff in AY'. inversion AY' as [|? ? _ F]; subst. rewrite Forall_forall in F. auto. }
    assert (LE : yb <= nth (S i) breaks 0) by (destruct IS as [<-|I]; [lra|specialize (MIN _ I); lra]).
    rewrite strips_cons. rewrite (nth_error_nth' breaks 0 LS).
    set (i' := if Req_EM_T yb (nth (S i) breaks 0) then S i else i).
    assert (HI' : (i' < length breaks)%nat /\ nth i' breaks 0 <= yb).
    { unfold i'. destruct (Req_EM_T yb (nth (S i) breaks 0)); split; auto; lra. }
    destruct (IH i' AY' (proj1 HI')) as (st & E & L & P); [discriminate|exact (proj2 HI')| |exact HL|].
    + intros j LJ. cbn [tl]. unfold i' in LJ. destruct (Req_EM_T yb (nth (S i) breaks 0)) as [E|NEQ].
      * destruct (HB j) as [E1|I]; [lia| |exact I]. exfalso. assert (nth (S i) breaks 0 < nth j breaks 0) by (apply AB; lia). lra.
      * destruct (HB j) as [E1|I]; [lia| |exact I]. exfalso. destruct (Nat.eq_dec j (S i)) as [->|]; [congruence|].
        assert (nth (S i) breaks 0 < nth j breaks 0) by (apply AB; lia). lra.
    + rewrite E. cbn [bind]. exists ((i, ya, yb) :: st). split; [reflexivity|]. split; [cbn [length] in *; lia|].
      intros [|k] LK.
      * exists i. cbn. repeat split; auto.
      * destruct (P k) as (a & E1 & L1 & G1 & G2); [cbn in LK; lia|]. exists a. cbn [nth]. repeat split; auto.
Qed.
Lemma strips_ok breaks ys : ascending breaks -> ascending ys -> breaks <> [] -> (forall v, In v breaks -> In v ys) -> hd 0 ys = hd 0 breaks -> last ys 0 = last breaks 0 ->
  exists st, strips breaks 0 ys = Ok st /\ length st = (length ys - 1)%nat /\
    forall k, (k < length st)%nat -> exists a, nth k st (O, 0, 0) = (a, nth k ys 0, nth (S k) ys 0) /\ (S a < length breaks)%nat /\
      nth a breaks 0 <= nth k ys 0 /\ nth (S k) ys 0 <= nth (S a) breaks 0.
Proof.
  intros AB AY NB HI HH HL. destruct breaks as [|b breaks]; [congruence|]. destruct ys as [|y ys]; [exfalso; apply (HI b); left; reflexivity|].
  cbn [hd] in HH. subst y. apply strips_from; auto; [cbn; lia|discriminate|cbn; lra|].
  intros j L. assert (I : In (nth j (b :: breaks) 0) (b :: ys)) by (apply HI; apply nth_In; lia). destruct I as [E|I]; [|exact I].
  exfalso. assert (b < nth j (b :: breaks) 0) by (apply (AB O); lia). lra.
Qed.

(** stations *)
Lemma stations_nth cosine span n i : (0 < n)%nat -> (i <= n)%nat ->
  nth i (stations cosine span n) 0 = if cosine then span * sin (INR i / INR n * (PI / 2)) else span * (INR i / INR n).
Proof.
  intros N L. assert (NR : 0 < INR n) by (apply lt_0_INR; exact N). unfold stations. destruct cosine.
  - rewrite (nth_indep _ _ (span * cos (0 * (PI / 2) / INR (n + 1)))) by (rewrite map_length, linspace_length; lia).
    rewrite (map_nth (fun k => span * cos (k * (PI / 2) / INR (n + 1)))). rewrite linspace_nth by lia.
    replace (n + 1 - 1)%nat with n by lia. f_equal. rewrite sin_cos, <- (cos_neg (PI / 2 + _)).
    assert (N1 : 0 < INR (n + 1)) by (apply lt_0_INR; lia).
    replace ((INR (n + 1) + (0 - INR (n + 1)) * (INR i / INR n)) * (PI / 2) / INR (n + 1)) with (PI / 2 - INR i / INR n * (PI / 2)) by (field; lra).
    rewrite cos_shift. rewrite cos_neg, cos_plus, cos_PI2, sin_PI2. ring.
  - rewrite linspace_nth by lia. replace (n + 1 - 1)%nat with n by lia. lra.
Qed.
Lemma stations_length cosine span n : length (stations cosine span n) = S n.
Proof. unfold stations. destruct cosine; [rewrite map_length|]; rewrite linspace_length; lia. Qed.
Lemma stations_ascending cosine span n : 0 < span -> (0 < n)%nat -> ascending (stations cosine span n).
Proof.
  intros S N i j L. rewrite stations_length in L. rewrite !stations_nth by lia. assert (NR : 0 < INR n) by (apply lt_0_INR; exact N).
  assert (F : 0 <= INR i / INR n < INR j / INR n /\ INR j / INR n <= 1).
  { assert (INR i < INR j) by (apply lt_INR; lia). assert (INR j <= INR n) by (apply le_INR; lia). pose proof (pos_INR i). unfold Rdiv.
    assert (0 < / INR n) by (apply Rinv_0_lt_compat; lra). split; [split|]; [nra|nra|].
    apply (Rmult_le_reg_r (INR n)); [lra|]. rewrite Rmult_assoc, Rinv_l by lra. lra. }
  destruct cosine; [|nra]. apply Rmult_lt_compat_l; [exact S|]. pose proof PI_RGT_0. apply sin_increasing_1; nra.
Qed.
