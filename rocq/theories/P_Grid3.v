(** * Proofs: areas and lists of panels *)
From Coq Require Import Reals List Bool Arith ZArith Lra Lia Sorted.
From Verif Require Import PyBase M_Opt M_Rot M_Noise M_Evtol M_Vlm M_Field M_Grid S_Vlm S_Rot S_Grid P_Opt P_Noise P_Field P_Rotor P_Vlm P_Vlm3 P_Grid P_Grid2.
Import ListNotations.
Local Open Scope R_scope.

Lemma total_concat : forall l : list (list R), total (concat l) = total (map total l).
Proof. induction l as [|a l IH]; cbn [concat map]; [reflexivity|]. rewrite total_app, IH. reflexivity. Qed.
Lemma total_same {A} (f : A -> R) c : forall l, (forall x, In x l -> f x = c) -> total (map f l) = INR (length l) * c.
Proof.
  induction l as [|x l IH]; intro H; [cbn; ring|]. cbn [map length]. rewrite S_INR. change (total (f x :: map f l)) with (f x + total (map f l)).
  rewrite IH by (intros; apply H; right; auto). rewrite (H x) by (left; reflexivity). ring.
Qed.
(** flat, untwisted sections *)
Lemma chord_between a b y : 0 <= s_chord a -> 0 <= s_chord b -> s_y a < s_y b -> s_y a <= y <= s_y b -> 0 <= chord_at a b (y - s_y a).
Proof.
  intros A B L [Y1 Y2]. unfold chord_at. set (f := (y - s_y a) / (s_y b - s_y a)).
  assert (F : 0 <= f <= 1). { unfold f. split; [apply Rmult_le_pos; [lra|left; apply Rinv_0_lt_compat; lra]|]. apply (Rmult_le_reg_r (s_y b - s_y a)); [lra|]. unfold Rdiv. rewrite Rmult_assoc, Rinv_l by lra. lra. }
  replace (s_chord a + (y - s_y a) * ((s_chord b - s_chord a) / (s_y b - s_y a))) with (s_chord a * (1 - f) + s_chord b * f) by (unfold f; field; lra).
  assert (0 <= s_chord a * (1 - f)) by (apply Rmult_le_pos; lra). assert (0 <= s_chord b * f) by (apply Rmult_le_pos; lra). lra.
Qed.
Definition spread (a : station) : R := (s_te a - s_le a) / cos (s_dihedral a).
(** what is left from [y] outwards *)
Definition rest_area (l : list station) (i : nat) (y : R) : R :=
  if Nat.ltb (S i) (length l) then
    let a := nth i l no_station in let b := nth (S i) l no_station in
    (chord_at a b (y - s_y a) + s_chord b) / 2 * (s_y b - y) * spread a + surface_area (skipn (S i) l)
  else 0.
Lemma skipn_nth {A} (d : A) : forall i l, (i < length l)%nat -> skipn i l = nth i l d :: skipn (S i) l.
Proof. induction i as [|i IH]; intros [|a l] L; cbn in *; try lia; [reflexivity|]. rewrite IH by lia. reflexivity. Qed.
Lemma rest_start l i : (i < length l)%nat -> rest_area l i (s_y (nth i l no_station)) = surface_area (skipn i l).
Proof.
  intro L. unfold rest_area. rewrite (skipn_nth no_station i l L). destruct (Nat.ltb_spec (S i) (length l)) as [L'|L'].
  - rewrite (skipn_nth no_station (S i) l L'). cbv zeta. cbn [surface_area]. destruct (at_start (nth i l no_station) (nth (S i) l no_station)) as [-> _]. unfold spread. unfold Rdiv. ring.
  - rewrite skipn_all2 by lia. reflexivity.
Qed.
Lemma area_from w n side l : (0 < n)%nat -> w_vertical w = false -> (side = 1 \/ side = -1) -> Forall plain l -> ascending (map s_y l) ->
  forall ys i, ascending ys -> (i < length l)%nat -> ys <> [] -> s_y (nth i l no_station) <= hd 0 ys ->
  (forall j, (i < j < length l)%nat -> In (s_y (nth j l no_station)) (tl ys)) -> last ys 0 = last (map s_y l) 0 ->
  exists st, strips (map s_y l) i ys = Ok st /\
    total (map (fun '(i, ya, yb) => total (map (fun k => panel_area (corners (panel_points w n (nth i l no_station) (nth (S i) l no_station) side ya yb k))) (seq 0 n))) st) =
    rest_area l i (hd 0 ys).
Proof.
  intros N V SD G AB. assert (NR : 0 < INR n) by (apply lt_0_INR; exact N).
  assert (SY : forall j, nth j (map s_y l) 0 = s_y (nth j l no_station)) by (intro j; exact (map_nth s_y l no_station j)).
  assert (AS : forall i j, (i < j < length l)%nat -> s_y (nth i l no_station) < s_y (nth j l no_station)).
  { intros i j L. rewrite <- !SY. apply AB. rewrite map_length. exact L. }
  assert (GN : forall i, (i < length l)%nat -> plain (nth i l no_station)) by (intros; rewrite Forall_forall in G; apply G, nth_In; auto).
  induction ys as [|ya ys IH]; intros i AY LI NE HI HB HL; [congruence|]. destruct ys as [|yb rest].
  - exists []. split; [reflexivity|]. cbn [map hd]. unfold rest_area. destruct (Nat.ltb_spec (S i) (length l)) as [L|L]; [|reflexivity]. exfalso. apply (HB (S i)). lia.
  - cbn [hd tl] in *. assert (AY' : ascending (yb :: rest)) by (apply ascending_iff in AY; apply ascending_iff; inversion AY; auto).
    assert (AB1 : ya < yb) by (apply (AY O 1%nat); cbn; lia).
    assert (LS : (S i < length l)%nat).
    { destruct (Nat.eq_dec (S i) (length l)) as [E|]; [|lia]. exfalso.
      rewrite (last_nth (map s_y l)), SY, map_length in HL. replace (length l - 1)%nat with i in HL by lia. rewrite last_nth in HL.
      assert (ya < nth (length (ya :: yb :: rest) - 1) (ya :: yb :: rest) 0) by (apply (AY O); cbn; lia). lra. }
    assert (IS : In (s_y (nth (S i) l no_station)) (yb :: rest)) by (apply HB; lia).
    assert (MIN : forall v, In v rest -> yb < v).
    { intros v I. apply ascending_iff in AY'. inversion AY' as [|? ? _ F]; subst. rewrite Forall_forall in F. auto. }
    assert (LE : yb <= s_y (nth (S i) l no_station)) by (destruct IS as [<-|I]; [lra|specialize (MIN _ I); lra]).
    rewrite strips_cons. rewrite (nth_error_nth' (map s_y l) 0) by (rewrite map_length; exact LS). rewrite SY.
    set (a := nth i l no_station) in *. set (b := nth (S i) l no_station) in *. set (i' := if Req_EM_T yb (s_y b) then S i else i).
    assert (ABY : s_y a < s_y b) by (apply AS; lia).
    destruct (GN i LI) as [GA1 GA2 GA3 GA4 GA5]. destruct (GN (S i) LS) as [GB1 GB2 GB3 GB4 GB5]. fold a in GA1, GA2, GA3, GA4, GA5. fold b in GB1, GB2, GB3, GB4, GB5.
    assert (HI' : (i' < length l)%nat /\ s_y (nth i' l no_station) <= yb).
    { unfold i'. destruct (Req_EM_T yb (s_y b)); split; auto; [fold b; lra|fold a; lra]. }
    destruct (IH i' AY' (proj1 HI')) as (st & E & T); [discriminate|exact (proj2 HI')| |exact HL|].
    + intros j LJ. cbn [tl]. unfold i' in LJ. destruct (Req_EM_T yb (s_y b)) as [E|NEQ].
      * destruct (HB j) as [E1|I]; [lia| |exact I]. exfalso. assert (s_y b < s_y (nth j l no_station)) by (apply AS; lia). lra.
      * destruct (HB j) as [E1|I]; [lia| |exact I]. exfalso. destruct (Nat.eq_dec j (S i)) as [->|]; [fold b in E1; congruence|].
        assert (s_y b < s_y (nth j l no_station)) by (apply AS; lia). lra.
    + rewrite E. cbn [bind]. exists ((i, ya, yb) :: st). split; [reflexivity|]. cbn [map]. match goal with |- total (?x :: ?r) = _ => change (x + total r = rest_area l i ya) end.
      rewrite T. cbn [hd]. fold a b.
      assert (PA : forall k, panel_area (corners (panel_points w n a b side ya yb k)) =
        (chord_at a b (ya - s_y a) + chord_at a b (yb - s_y a)) / 2 * (s_te a - s_le a) / INR n * ((yb - ya) / cos (s_dihedral a))).
      { intro k. apply panel_area_flat; auto; try lra; apply chord_between; auto; lra. }
      rewrite (total_same _ _ _ (fun k _ => PA k)), seq_length. unfold rest_area at 2. destruct (Nat.ltb_spec (S i) (length l)) as [_|]; [|lia]. cbv zeta. fold a b.
      unfold i'. destruct (Req_EM_T yb (s_y b)) as [->|NEQ].
      * pose proof (rest_start l (S i) LS) as RS. fold b in RS. rewrite RS. destruct (at_section a b) as [-> _]; [lra|]. unfold spread. field. lra.
      * unfold rest_area. destruct (Nat.ltb_spec (S i) (length l)) as [_|]; [|lia]. cbv zeta. fold a b. unfold chord_at, spread. field. lra.
Qed.
Lemma side_area w n side l ys : (0 < n)%nat -> w_vertical w = false -> (side = 1 \/ side = -1) -> Forall plain l -> ascending (map s_y l) -> ascending ys -> l <> [] ->
  (forall a, In a l -> In (s_y a) ys) -> hd 0 ys = s_y (hd no_station l) -> last ys 0 = last (map s_y l) 0 ->
  exists p, side_points w n l ys side = Ok p /\ total (map (fun q => panel_area (corners q)) p) = surface_area l.
Proof.
  intros N V SD G AB AY NL HI HH HL. destruct l as [|b l]; [congruence|]. cbn [hd] in HH.
  destruct ys as [|y ys]; [exfalso; apply (HI b); left; reflexivity|]. cbn [hd] in HH. subst y.
  destruct (area_from w n side (b :: l) N V SD G AB (s_y b :: ys) 0 AY) as (st & E & T); [cbn; lia|discriminate|cbn; lra| |exact HL|].
  - intros j L. cbn [tl]. assert (I : In (s_y (nth j (b :: l) no_station)) (s_y b :: ys)) by (apply HI, nth_In; lia). destruct I as [E|I]; [|exact I].
    exfalso. assert (X : nth 0 (map s_y (b :: l)) 0 < nth j (map s_y (b :: l)) 0) by (apply AB; rewrite map_length; lia).
    pose proof (map_nth s_y (b :: l) no_station j : nth j (map s_y (b :: l)) 0 = _) as Y. rewrite Y, <- E in X. cbn in X. lra.
  - unfold side_points. rewrite E. cbn [bind]. eexists. split; [reflexivity|]. rewrite concat_map, total_concat, !map_map.
    pose proof (rest_start (b :: l) 0) as RS. cbn [skipn nth] in RS. rewrite <- RS by (cbn; lia). cbn [hd] in T. rewrite <- T. f_equal. apply map_ext. intros [[i ya] yb]. rewrite map_map. reflexivity.
Qed.

(** lists of panels *)
Lemma all_books_app l s : all_books (l ++ [s]) = keep (all_books l) s.
Proof. unfold all_books. rewrite fold_left_app. reflexivity. Qed.
Lemma panels_in_app a b : panels_in (a ++ b) = (panels_in a + panels_in b)%nat.
Proof. induction a as [|[[sw cw] id] a IH]; cbn; [reflexivity|]. rewrite IH. lia. Qed.
Lemma strips_in_app a b : strips_in (a ++ b) = (strips_in a + strips_in b)%nat.
Proof. induction a as [|[[sw cw] id] a IH]; cbn; [reflexivity|]. rewrite IH. lia. Qed.
Lemma concat_repeat_length {A} (p : list A) : forall n, length (concat (repeat p n)) = (length p * n)%nat.
Proof. induction n as [|n IH]; cbn; [lia|]. rewrite app_length, IH. lia. Qed.
Lemma concat_repeat_nth {A} (p : list A) d : (0 < length p)%nat -> forall n j, (j < length p * n)%nat -> nth j (concat (repeat p n)) d = nth (j mod length p) p d.
Proof.
  intros L n. induction n as [|n IH]; intros j J; [lia|]. cbn [repeat concat]. destruct (Nat.lt_ge_cases j (length p)) as [H|H].
  - rewrite app_nth1 by exact H. rewrite Nat.mod_small by exact H. reflexivity.
  - rewrite app_nth2 by exact H. rewrite IH by lia. f_equal. rewrite <- (Nat.mod_add (j - length p) 1) by lia. f_equal. lia.
Qed.
Lemma books_sizes : forall l, sizes l (all_books l).
Proof.
  apply rev_ind; [split; reflexivity|]. intros [[sw cw] id] l H. rewrite all_books_app. destruct H as [H1 H2 H3 H4 H5 H6 H7 H8 H9 H10].
  split; cbn [keep k_cp k_id k_le k_te k_rnmax k_number k_chordwise k_spanwise k_sw k_cw]; rewrite ?panels_in_app, ?strips_in_app, ?app_length, ?concat_repeat_length, ?map_length, ?seq_length, ?repeat_length, ?map_app;
    cbn [panels_in strips_in length map fst snd]; try (rewrite ?H1, ?H2, ?H3, ?H4, ?H5, ?H6, ?H7, ?H8; lia); rewrite ?H9, ?H10; reflexivity.
Qed.
(** the part of the books about one side *)
Lemma entry_new l sw cw id : (0 < cw)%nat -> entry l sw cw id (keep (all_books l) (sw, cw, id)).
Proof.
  intro C. destruct (books_sizes l) as [H1 H2 H3 H4 H5 H6 H7 H8 H9 H10]. split; cbn [keep k_cp k_id k_le k_te k_rnmax k_number k_chordwise k_spanwise k_sw k_cw].
  - rewrite app_nth2 by lia. rewrite H8, Nat.sub_diag. exact H7.
  - intros q Q. rewrite app_nth2 by lia. rewrite H7. replace (strips_in l + q - strips_in l)%nat with q by lia.
    rewrite (nth_indep _ _ (length (k_id (all_books l)) + 0 * cw)%nat) by (rewrite map_length, seq_length; exact Q).
    rewrite (map_nth (fun j => (length (k_id (all_books l)) + j * cw)%nat)), seq_nth by exact Q. rewrite H2. reflexivity.
  - intros j J. cbv zeta.
    assert (ML : forall {A} (f : nat -> A), length (map f (seq 0 cw)) = cw) by (intros; rewrite map_length; apply seq_length).
    assert (MJ : (j mod cw < cw)%nat) by (apply Nat.mod_upper_bound; lia).
    assert (MN : forall {A} (f : nat -> A) d, nth (j mod cw) (map f (seq 0 cw)) d = f (j mod cw)).
    { intros A f d. rewrite (nth_indep _ _ (f O)) by (rewrite ML; exact MJ). rewrite map_nth, seq_nth by exact MJ. reflexivity. }
    rewrite !app_nth2 by lia. rewrite H2, H3, H4, H5, H6. replace (panels_in l + j - panels_in l)%nat with j by lia. repeat split.
    + assert (R : forall n j, (j < n)%nat -> nth j (repeat id n) 0%Z = id). { clear. induction n; intros [|j] H; cbn; try lia; auto. apply IHn. lia. } apply R. exact J.
    + rewrite concat_repeat_nth by (rewrite ?repeat_length; lia). rewrite repeat_length.
      assert (R : forall n j, (j < n)%nat -> nth j (repeat cw n) O = cw). { clear. induction n; intros [|j] H; cbn; try lia; auto. apply IHn. lia. } apply R. exact MJ.
    + rewrite concat_repeat_nth by (rewrite ?seq_length; lia). rewrite seq_length, seq_nth by exact MJ. lia.
    + rewrite concat_repeat_nth by (rewrite ?ML; lia). rewrite ML. apply MN.
    + rewrite concat_repeat_nth by (rewrite ?ML; lia). rewrite ML. apply MN.
Qed.
Lemma entry_later before sw cw id l s : (length before < length l)%nat -> (strips_in before + sw <= strips_in l)%nat -> (panels_in before + cw * sw <= panels_in l)%nat ->
  entry before sw cw id (all_books l) -> entry before sw cw id (keep (all_books l) s).
Proof.
  intros L1 L2 L3 [E1 E2 E3]. destruct (books_sizes l) as [H1 H2 H3 H4 H5 H6 H7 H8 H9 H10]. destruct s as [[sw' cw'] id'].
  split; cbn [keep k_cp k_id k_le k_te k_rnmax k_number k_chordwise k_spanwise k_sw k_cw].
  - rewrite app_nth1 by lia. exact E1.
  - intros q Q. rewrite app_nth1 by lia. auto.
  - intros j J. cbv zeta. specialize (E3 j J). cbv zeta in E3. rewrite !app_nth1 by lia. exact E3.
Qed.
Lemma books_entry : forall rest ahead sw cw id, (0 < cw)%nat -> entry ahead sw cw id (all_books (ahead ++ (sw, cw, id) :: rest)).
Proof.
  intro rest. induction rest as [|s rest IH] using rev_ind; intros ahead sw cw id C.
  - rewrite all_books_app. apply entry_new. exact C.
  - replace (ahead ++ (sw, cw, id) :: rest ++ [s]) with ((ahead ++ (sw, cw, id) :: rest) ++ [s]) by (rewrite <- app_assoc; reflexivity).
    rewrite all_books_app. apply entry_later.
    + rewrite app_length. cbn. lia.
    + rewrite strips_in_app. cbn. lia.
    + rewrite panels_in_app. cbn. lia.
    + apply IH. exact C.
Qed.
(** every panel belongs to a side *)
Lemma locate : forall l j, (j < panels_in l)%nat -> exists before sw cw id after k, l = before ++ (sw, cw, id) :: after /\ j = (panels_in before + k)%nat /\ (k < cw * sw)%nat.
Proof.
  induction l as [|[[sw cw] id] l IH]; intros j L; cbn in L; [lia|]. destruct (Nat.lt_ge_cases j (cw * sw)) as [H|H].
  - exists [], sw, cw, id, l, j. cbn. auto.
  - destruct (IH (j - cw * sw)%nat) as (b & sw' & cw' & id' & a & k & -> & E & K); [lia|]. exists ((sw, cw, id) :: b), sw', cw', id', a, k. cbn. repeat split; auto. lia.
Qed.
