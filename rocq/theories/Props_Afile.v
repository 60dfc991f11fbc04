(** * Airfoil files: the properties *)
From Coq Require Import Reals List Bool Arith String Lia Lra.
From Verif Require Import PyBase M_Opt P_Opt M_Noise M_Field P_Field P_Noise P_Panel P_Costs M_Afile S_Afile P_Afile.
Import ListNotations.
Local Open Scope R_scope.
Local Open Scope list_scope.

(** ** C190: coordinate files in two blocks *)
Theorem C190_blocks h1 h2 h3 n u pu m l pl k : u <> [] -> l <> [] -> Forall2 reads u pu -> Forall2 reads l pl ->
  import_dat (h1 :: h2 :: h3 :: repeat [] n ++ u ++ repeat [] (S m) ++ l ++ repeat [] k) = Ok (Dat pu pl).
Proof.
  intros NU NL FU FL. unfold import_dat. cbn [skipn]. rewrite dat_blanks.
  assert (E : dat_loop (u ++ repeat [] (S m) ++ l ++ repeat [] k) [Upper; Lower] None (Dat [] []) = Ok (Dat pu pl)).
  { rewrite (dat_begin _ _ _ _ _ _ NU FU). rewrite dat_blanks. rewrite (dat_begin _ _ _ _ _ _ NL FL).
    rewrite <- (app_nil_r (repeat [] k)), dat_blanks. now destruct k. }
  destruct n; exact E.
Qed.
Theorem C190_one_block h1 h2 h3 n u pu k : u <> [] -> Forall2 reads u pu ->
  import_dat (h1 :: h2 :: h3 :: repeat [] n ++ u ++ repeat [] k) = Ok (Dat pu []).
Proof.
  intros NU FU. unfold import_dat. cbn [skipn]. rewrite dat_blanks.
  assert (E : dat_loop (u ++ repeat [] k) [Upper; Lower] None (Dat [] []) = Ok (Dat pu [])).
  { rewrite (dat_begin _ _ _ _ _ _ NU FU). rewrite <- (app_nil_r (repeat [] k)), dat_blanks. now destruct k. }
  destruct n; exact E.
Qed.
(** a file of up to three lines, or with blank lines only after them, has no points *)
Theorem C190_empty h n : (List.length h <= 3)%nat -> import_dat (h ++ (if Nat.eqb (List.length h) 3 then repeat [] n else [])) = Ok (Dat [] []).
Proof.
  intro L. unfold import_dat. destruct h as [|a [|b [|c [|d h]]]]; cbn [List.length Nat.eqb app skipn]; try reflexivity.
  - rewrite <- (app_nil_r (repeat [] n)), dat_blanks. now destruct n.
  - cbn in L. lia.
Qed.
(** a third block has nowhere to go *)
Theorem C190_third_block h1 h2 h3 u pu m l pl k x r : u <> [] -> l <> [] -> Forall2 reads u pu -> Forall2 reads l pl -> x <> [] ->
  import_dat (h1 :: h2 :: h3 :: u ++ repeat [] (S m) ++ l ++ repeat [] (S k) ++ x :: r) = Err IndexError.
Proof.
  intros NU NL FU FL NX. unfold import_dat. cbn [skipn].
  rewrite (dat_begin _ _ _ _ _ _ NU FU), dat_blanks, (dat_begin _ _ _ _ _ _ NL FL), dat_blanks. now destruct x.
Qed.
(** a line among the points with something that is not a number *)
Theorem C190_not_numbers h1 h2 h3 u pu vs x v w r : Forall2 reads u pu -> map t_val vs = map Some w -> t_val x = None ->
  import_dat (h1 :: h2 :: h3 :: u ++ (vs ++ x :: v) :: r) = Err ValueError.
Proof.
  intros FU V X. unfold import_dat. cbn [skipn].
  assert (N : numbers (vs ++ x :: v) = Err ValueError).
  { clear FU. revert w V. induction vs as [|t vs IH]; intros [|y w] V; try discriminate; cbn [app numbers]; unfold number.
    - now rewrite X.
    - cbn [map] in V. injection V as V1 V2. rewrite V1. cbn [bind]. now rewrite (IH _ V2). }
  destruct u as [|a u].
  - cbn [app]. cbn [dat_loop]. destruct (vs ++ x :: v) eqn:E; [destruct vs; discriminate|]. now rewrite N.
  - rewrite (dat_begin Upper [Lower] (a :: u) pu _ _ ltac:(discriminate) FU). cbn [dat_loop].
    destruct (vs ++ x :: v) eqn:E; [destruct vs; discriminate|]. now rewrite N.
Qed.
Example C190_case : exists a b c d : tok, import_dat [[a]; [a]; []; [b; c]; [d; c]; []; [b; d]] = Ok (Dat [[0; 1]; [2; 1]] [[0; 2]]).
Proof.
  exists (Tok "NACA" None), (Tok "0." (Some 0)), (Tok "1." (Some 1)), (Tok "2." (Some 2)).
  apply (C190_blocks _ _ _ 0 [[Tok "0." (Some 0); Tok "1." (Some 1)]; [Tok "2." (Some 2); Tok "1." (Some 1)]] _ 0 [[Tok "0." (Some 0); Tok "2." (Some 2)]] _ 0); try discriminate;
  repeat constructor; discriminate.
Qed.

(** ** C191: geometry files *)
(** Lednicer's layout: title, counts, a line, upper surface, blank lines, lower surface *)
Theorem C191_lednicer title counts c any u pu n l pl : l_digit title = None -> flag counts = Ok c -> 101 / 100 < c ->
  Forall2 shows u pu -> Forall2 shows l pl ->
  surfaces (title :: counts :: any :: u ++ repeat (FLine None None []) (S n) ++ l) = Ok (pu, pl).
Proof.
  intros D F C FU FL. unfold surfaces. destruct title as [dg cm tk]. cbn in D. subst dg. cbn [detect nth_error]. rewrite F. cbn [bind].
  replace (Rltb (101 / 100) c) with true by (symmetry; apply Rltb_true; lra). cbn [bind fst snd skipn].
  rewrite (lednicer_block _ _ FU), lednicer_blanks. rewrite <- (app_nil_r l), (lednicer_block _ _ FL). cbn. now rewrite !app_nil_r.
Qed.
Lemma selig_all u pu m y l pl : Forall2 shows u pu -> Forall (fun p => fst p <> 0) pu -> falling u -> shows m (0, y) ->
  Forall2 shows l pl -> Forall (fun p => fst p <> 0) pl -> selig (u ++ m :: l) true = Ok (pu ++ [(0, y)], (0, y) :: pl).
Proof.
  intros FU ZU FA M FL ZL. rewrite (selig_upper _ _ _ _ _ FU ZU M (or_intror (conj FA (Rle_refl 0)))). cbn [selig].
  destruct (shows_xy _ _ M) as (X & _). rewrite X. cbn [bind fst]. destruct (Req_EM_T 0 0); [|congruence].
  rewrite <- (app_nil_r l), (selig_lower _ _ FL ZL). cbn. now rewrite app_nil_r.
Qed.
(** Selig's layout: a title, then once around from the trailing edge over the upper surface; both surfaces come back from the leading edge *)
Theorem C191_selig title u pu m y l pl c : l_digit title = None -> flag (hd m u) = Ok c -> c <= 101 / 100 ->
  Forall2 shows u pu -> Forall (fun p => fst p <> 0) pu -> falling u -> shows m (0, y) -> Forall2 shows l pl -> Forall (fun p => fst p <> 0) pl ->
  surfaces (title :: u ++ m :: l) = Ok ((0, y) :: rev pu, (0, y) :: pl).
Proof.
  intros D F C FU ZU FA M FL ZL. unfold surfaces. destruct title as [dg cm tk]. cbn in D. subst dg.
  assert (N : nth_error (FLine None cm tk :: u ++ m :: l) 1 = Some (hd m u)) by now destruct u.
  unfold detect. rewrite N, F. cbn [bind]. replace (Rltb (101 / 100) c) with false by (symmetry; apply Rltb_false; lra). cbn [bind fst snd skipn].
  rewrite (selig_all _ _ _ _ _ _ FU ZU FA M FL ZL). cbn [bind fst snd]. now rewrite rev_app_distr.
Qed.
Theorem C191_untitled u pu m y l pl : u <> [] -> l_digit (hd m u) = Some 1 ->
  Forall2 shows u pu -> Forall (fun p => fst p <> 0) pu -> falling u -> shows m (0, y) -> Forall2 shows l pl -> Forall (fun p => fst p <> 0) pl ->
  surfaces (u ++ m :: l) = Ok ((0, y) :: rev pu, (0, y) :: pl).
Proof.
  intros NU D FU ZU FA M FL ZL. unfold surfaces.
  assert (E : detect (u ++ m :: l) = Ok (false, u ++ m :: l)).
  { destruct u as [|[dg cm tk] u]; [congruence|]. cbn in D. subst dg. cbn [app detect]. destruct (Req_EM_T 1 1); [reflexivity|congruence]. }
  rewrite E. cbn [bind fst snd]. rewrite (selig_all _ _ _ _ _ _ FU ZU FA M FL ZL). cbn [bind fst snd]. now rewrite rev_app_distr.
Qed.
(** the outline is then the file's points once around, in reverse *)
Theorem C191_outline pu y pl : NoDup (0 :: map fst pu) -> outline (trim ((0, y) :: rev pu, (0, y) :: pl)) = rev (pu ++ (0, y) :: pl).
Proof.
  intro N. unfold trim. cbn [fst snd map]. rewrite map_rev. rewrite repeated_no.
  - unfold outline. cbn [fst snd tl rev]. rewrite rev_app_distr. cbn [rev]. reflexivity.
  - inversion N as [|? ? A B]. constructor; [now rewrite <- in_rev|]. now apply NoDup_rev.
Qed.
(** without a point at x = 0 the most forward one, [m], is lost from the outline *)
Theorem C191_lost_refuted title u pu m pm l1 p1 l pl c : l_digit title = None -> flag (hd m u) = Ok c -> c <= 101 / 100 ->
  Forall2 shows u pu -> Forall (fun p => fst p <> 0) (pu ++ pm :: p1 :: pl) -> falling (u ++ [m]) -> shows m pm -> shows l1 p1 -> Forall2 shows l pl ->
  String.ltb (text m) (text l1) = true -> 0 < fst p1 -> NoDup (map fst (pu ++ [pm])) ->
  exists s, surfaces (title :: u ++ m :: l1 :: l) = Ok s /\ outline (trim s) = rev (pu ++ p1 :: pl).
Proof.
  intros D F C FU Z FA M L1 FL GT P N. apply Forall_app in Z as (ZU & Z). apply Forall_cons_iff in Z as (ZM & Z).
  exists (rev (pu ++ [pm]), p1 :: pl). split.
  - unfold surfaces. destruct title as [dg cm tk]. cbn in D. subst dg.
    assert (NE : nth_error (FLine None cm tk :: u ++ m :: l1 :: l) 1 = Some (hd m u)) by now destruct u.
    unfold detect. rewrite NE, F. cbn [bind]. replace (Rltb (101 / 100) c) with false by (symmetry; apply Rltb_false; lra). cbn [bind fst snd skipn].
    rewrite (selig_upper _ _ _ _ _ FU ZU M (or_introl FA)).
    assert (E : selig (m :: l1 :: l) true = Ok ([pm], p1 :: pl)).
    { pose proof (selig_lower (l1 :: l) (p1 :: pl) (Forall2_cons _ _ L1 FL) Z []) as SL. rewrite app_nil_r in SL.
      remember (l1 :: l) as ls eqn:El. cbn [selig]. destruct (shows_xy _ _ M) as (X & _). rewrite X. cbn [bind]. destruct (Req_EM_T (fst pm) 0); [contradiction|].
      assert (T : turns m ls = Ok true).
      { subst ls. unfold turns. destruct M as (t & w & r & E & A & B). destruct L1 as (t' & w' & r' & E' & A' & B'). unfold text in GT. rewrite E, E' in *.
        unfold text_gt. rewrite GT. unfold number. rewrite A'. cbn [bind]. f_equal. apply Rltb_true. lra. }
      rewrite T. cbn [bind negb]. rewrite SL. cbn. now rewrite app_nil_r. }
    rewrite E. reflexivity.
  - unfold trim. cbn [fst snd]. rewrite map_rev, repeated_no by now apply NoDup_rev.
    unfold outline. cbn [fst snd]. rewrite !rev_app_distr. reflexivity.
Qed.
(** the surface also turns where a text comes after another although its number is smaller: here the point at 0.000095 *)
Theorem C191_text_refuted : exists f, let p x y tx := FLine None None [Tok tx (Some x); Tok "0.1" (Some y)] in
  f = [FLine None None [Tok "RAE" None]; p 1 0 "1.0"; p (2 / 10000) (2 / 10) "0.0002"; p (95 / 1000000) (1 / 10) "9.5e-05"; p 0 0 "0.0"; p 1 0 "1.0"]%string /\
  surfaces f = Ok ([(0, 0); (2 / 10000, 2 / 10); (1, 0)], [(95 / 1000000, 1 / 10); (0, 0); (1, 0)]).
Proof.
  eexists. cbn zeta. split; [reflexivity|]. unfold surfaces. cbn [detect nth_error flag l_toks t_val]. cbn [bind].
  replace (Rltb (101 / 100) 1) with false by (symmetry; apply Rltb_false; lra). cbn [bind fst snd skipn selig xy l_toks number t_val].
  unfold number. cbn [t_val bind fst snd].
  repeat match goal with |- context[Req_EM_T ?a ?b] => destruct (Req_EM_T a b); [try (exfalso; lra)|try (exfalso; lra)] end.
  unfold turns. cbn [l_toks t_text bind]. unfold text_gt, number. cbn [t_val].
  change (String.ltb "1.0" "0.0002") with false. change (String.ltb "0.0002" "9.5e-05") with true. cbn [bind].
  replace (Rltb 0 (95 / 1000000)) with true by (symmetry; apply Rltb_true; lra). cbn [bind negb fst snd rev app]. reflexivity.
Qed.
(** a file whose first character is a digit other than 1 cannot be read *)
Theorem C191_digit l r v : l_digit l = Some v -> v <> 1 -> surfaces (l :: r) = Err UnboundLocalError.
Proof. intros D N. destruct l as [dg cm tk]. cbn in D. subst dg. unfold surfaces. cbn [detect]. destruct (Req_EM_T v 1); [contradiction|reflexivity]. Qed.
(** a blank line is allowed in Lednicer's layout only *)
Theorem C191_blank title u pu m y l pl c b r : l_digit title = None -> flag (hd m u) = Ok c -> c <= 101 / 100 ->
  Forall2 shows u pu -> Forall (fun p => fst p <> 0) pu -> falling u -> shows m (0, y) -> Forall2 shows l pl -> Forall (fun p => fst p <> 0) pl -> blank b ->
  surfaces (title :: u ++ m :: l ++ b :: r) = Err IndexError.
Proof.
  intros D F C FU ZU FA M FL ZL B. unfold surfaces. destruct title as [dg cm tk]. cbn in D. subst dg.
  assert (N : nth_error (FLine None cm tk :: u ++ m :: l ++ b :: r) 1 = Some (hd m u)) by now destruct u.
  unfold detect. rewrite N, F. cbn [bind]. replace (Rltb (101 / 100) c) with false by (symmetry; apply Rltb_false; lra). cbn [bind fst snd skipn].
  rewrite (selig_upper _ _ _ _ _ FU ZU M (or_intror (conj FA (Rle_refl 0)))). cbn [selig].
  destruct (shows_xy _ _ M) as (X & _). rewrite X. cbn [bind fst]. destruct (Req_EM_T 0 0); [|congruence].
  rewrite (selig_lower _ _ FL ZL). cbn [selig]. unfold xy. now rewrite B.
Qed.
(** when a station of the upper surface repeats, both surfaces lose their first point: nothing else is ever dropped *)
Theorem C191_trim u l : (NoDup (map fst u) -> trim (u, l) = (u, l)) /\ (~ NoDup (map fst u) -> trim (u, l) = (tl u, tl l)).
Proof.
  unfold trim. cbn [fst snd]. split; intro H; [now rewrite repeated_no|]. destruct (repeated (map fst u)) eqn:E; [reflexivity|]. exfalso. apply H. now apply repeated_yes.
Qed.
(** the leftmost point is moved to the origin and the shape is kept *)
Theorem C191_origin ps : ps <> [] ->
  In (0, 0) (to_origin ps) /\ (forall p, In p (to_origin ps) -> 0 <= fst p) /\
  exists a b, In (a, b) ps /\ to_origin ps = map (fun p => (fst p - a, snd p - b)) ps.
Proof.
  intro NE. unfold to_origin. set (m := minimum (map fst ps)). destruct (minimum_spec (map fst ps)) as (L & I); [now destruct ps|]. fold m in L, I.
  pose proof (argmin_in m ps I) as J. split; [|split].
  - apply in_map_iff. exists (m, argmin_y m ps). split; [cbn; f_equal; ring|exact J].
  - intros p H. apply in_map_iff in H as (q & <- & H). cbn. specialize (L (fst q) (in_map fst _ _ H)). lra.
  - exists m, (argmin_y m ps). split; [exact J|reflexivity].
Qed.
(** both ends come to x = 1, at different heights; the points between stay *)
Theorem C191_ends x0 y0 mid xn yn : exists d, part ((x0, y0) :: mid ++ [(xn, yn)]) = (1, y0 - d) :: mid ++ [(1, yn + d)] /\
  y0 - d <> yn + d /\ (y0 <> yn -> d = 0) /\ (y0 = yn -> d = 1 / 10000).
Proof.
  exists (if Req_EM_T y0 yn then 1 / 10000 else 0). split.
  - unfold part. rewrite rev_app_distr. cbn [rev app]. now rewrite rev_involutive.
  - destruct (Req_EM_T y0 yn); repeat split; intros; try lra; contradiction.
Qed.
Example C191_case : exists title u m l, falling u /\ shows m (0, 0) /\ l_digit title = None /\
  surfaces (title :: u ++ m :: l) = Ok ([(0, 0); (1 / 2, 1 / 10); (1, 0)], [(0, 0); (1 / 2, - 1 / 10); (1, 0)]).
Proof.
  set (p x y tx := FLine None None [Tok tx (Some x); Tok "y" (Some y)]).
  exists (FLine None None [Tok "Clark" None]), [p 1 0 "1.0"%string; p (1 / 2) (1 / 10) "0.5"%string], (p 0 0 "0.0"%string), [p (1 / 2) (- 1 / 10) "0.5"%string; p 1 0 "1.0"%string].
  assert (FA : falling [p 1 0 "1.0"%string; p (1 / 2) (1 / 10) "0.5"%string]).
  { intros a b r s E. destruct r as [|r0 [|r1 r]]; cbn in E.
    - injection E as <- <- _. reflexivity.
    - discriminate.
    - injection E as _ _ E. destruct r; discriminate. }
  assert (SH : forall x y tx, shows (p x y tx) (x, y)) by (intros; unfold p; do 3 eexists; repeat split).
  split; [exact FA|]. split; [apply SH|]. split; [reflexivity|].
  apply (C191_selig (FLine None None [Tok "Clark" None]) _ [(1, 0); (1 / 2, 1 / 10)] (p 0 0 "0.0"%string) 0 _ [(1 / 2, - 1 / 10); (1, 0)] 1); try reflexivity; try lra; try exact FA; try apply SH;
  repeat constructor; try apply SH; cbn; lra.
Qed.

Example C191_lost_case : exists f s, surfaces f = Ok s /\ List.length f = 5%nat /\ outline (trim s) = [(1, 0); (1 / 2, - 1 / 10); (1, 0)].
Proof.
  set (p x y tx := FLine None None [Tok tx (Some x); Tok "y" (Some y)]).
  assert (SH : forall x y tx, shows (p x y tx) (x, y)) by (intros; unfold p; do 3 eexists; repeat split).
  assert (FA : falling ([p 1 0 "1.0"%string] ++ [p (1 / 1000) 0 "0.001"%string])).
  { intros a b r s E. destruct r as [|r0 [|r1 r]]; cbn in E.
    - injection E as <- <- _. reflexivity.
    - discriminate.
    - injection E as _ _ E. destruct r; discriminate. }
  destruct (C191_lost_refuted (FLine None None [Tok "Clark" None]) [p 1 0 "1.0"%string] [(1, 0)] (p (1 / 1000) 0 "0.001"%string) (1 / 1000, 0)
    (p (1 / 2) (- 1 / 10) "0.5"%string) (1 / 2, - 1 / 10) [p 1 0 "1.0"%string] [(1, 0)] 1) as (s & S1 & S2); try reflexivity; try lra; try exact FA; try apply SH;
    repeat constructor; try apply SH; cbn; try lra; try tauto.
  eexists. exists s. split; [exact S1|]. split; [reflexivity|exact S2].
Qed.

(** ** C192: airfoils between two airfoils *)
(** what is written is read back *)
Theorem C192_round_trip str dig com title u l : surfaces (written str dig com title u l) = Ok (u, l).
Proof.
  assert (SH : forall ps, Forall2 shows (map (point_line str dig com) ps) ps).
  { induction ps as [|p ps IH]; constructor; [|exact IH]. do 3 eexists. repeat split. }
  unfold written. apply (C191_lednicer (FLine None None title) _ 61 (FLine None None []) _ u 0 _ l); try reflexivity; try lra; apply SH.
Qed.
(** every point lies on the segment between the two points of the same number *)
Theorem C192_between z a b : List.length a = List.length b ->
  List.length (blend z a b) = List.length a /\
  forall i, (i < List.length a)%nat -> nth i (blend z a b) (0, 0) =
    ((1 - z) * fst (nth i a (0, 0)) + z * fst (nth i b (0, 0)), (1 - z) * snd (nth i a (0, 0)) + z * snd (nth i b (0, 0))).
Proof.
  revert b. induction a as [|p a IH]; intros [|q b] L; try discriminate; [split; [reflexivity|cbn; intros; lia]|].
  injection L as L. destruct (IH b L) as (A & B). split; [cbn; now f_equal|]. intros [|i] Hi; cbn [nth blend map2].
  - f_equal; ring.
  - apply B. cbn in Hi. lia.
Qed.
Theorem C192_ends a b : List.length a = List.length b -> blend 0 a b = a /\ blend 1 a b = b.
Proof.
  revert b. induction a as [|[x y] a IH]; intros [|[x' y'] b] L; try discriminate; [split; reflexivity|]. injection L as L. destruct (IH b L) as (A & B).
  split; unfold blend in *; cbn [map2 fst snd].
  - rewrite A. do 2 f_equal; ring.
  - rewrite B. do 2 f_equal; ring.
Qed.
(** so the thickness at a station goes over linearly *)
Theorem C192_thickness z ua la ub lb i : List.length ua = List.length ub -> List.length la = List.length lb -> (i < List.length ua)%nat -> (i < List.length la)%nat ->
  let t u l := snd (nth i u (0, 0)) - snd (nth i l (0, 0)) in
  t (blend z ua ub) (blend z la lb) = (1 - z) * t ua la + z * t ub lb.
Proof.
  intros LU LL Hu Hl t. unfold t. cbv beta. destruct (C192_between z ua ub LU) as (_ & A). destruct (C192_between z la lb LL) as (_ & B). etransitivity; [apply (f_equal2 Rminus); [exact (f_equal snd (A i Hu))|exact (f_equal snd (B i Hl))]|]. cbn [fst snd]. ring.
Qed.
(** n airfoils with the two: n - 2 files, the k-th read back is the airfoil k of n - 1 steps on the way *)
Theorem C192_files str dig com title n a b : (2 <= n)%nat ->
  List.length (transition str dig com title n a b) = (n - 2)%nat /\
  forall k, (1 <= k <= n - 2)%nat -> exists f, nth_error (transition str dig com title n a b) (k - 1) = Some f /\
    let z := INR k / INR (n - 1) in 0 < z < 1 /\ surfaces f = Ok (blend z (fst a) (fst b), blend z (snd a) (snd b)).
Proof.
  intro N. split; [unfold transition; now rewrite map_length, seq_length|]. intros k K. unfold transition.
  set (fl := fun k0 : nat => _). exists (fl (k - 1)%nat). split.
  - rewrite nth_error_map. rewrite (nth_error_nth' _ 0%nat) by (rewrite seq_length; lia). rewrite seq_nth by lia. reflexivity.
  - cbn zeta. split.
    + assert (0 < INR (n - 1)) by (apply (lt_INR 0); lia). assert (0 < INR k) by (apply (lt_INR 0); lia). assert (INR k < INR (n - 1)) by (apply lt_INR; lia).
      split; [apply Rdiv_lt_0_compat; assumption|]. apply (Rmult_lt_reg_r (INR (n - 1))); [assumption|]. unfold Rdiv. rewrite Rmult_assoc, Rinv_l by lra. lra.
    + unfold fl. cbn zeta. rewrite C192_round_trip. rewrite linspace_nth by lia. replace (S (k - 1)) with k by lia.
      replace (0 + (1 - 0) * (INR k / INR (n - 1))) with (INR k / INR (n - 1)) by ring. reflexivity.
Qed.
Example C192_case : blend (1 / 2) [(0, 0); (1, 2)] [(0, 2); (1, 4)] = [(0, 1); (1, 3)].
Proof. unfold blend. cbn [map2 fst snd]. replace (1 / 2 * (0 - 0) + 0) with 0 by lra. replace (1 / 2 * (2 - 0) + 0) with 1 by lra. replace (1 / 2 * (1 - 1) + 1) with 1 by lra. replace (1 / 2 * (4 - 2) + 2) with 3 by lra. reflexivity. Qed.

(** ** C193: polars *)
Theorem C193_three n fs : (List.length fs < 3)%nat -> import_polars n fs = Err AttributeError.
Proof. intro L. unfold import_polars. apply Nat.ltb_lt in L. now rewrite L. Qed.
(** the table is the rows after the rule, with the numbers of the header; empty lines may follow it *)
Theorem C193_table h1 re ma h2 t n : (forall l, In l (h1 ++ h2) -> l = POther \/ l = PEmpty) -> t <> [] ->
  polar_table (h1 ++ PHead (Some re) (Some ma) :: h2 ++ PRule :: map row t ++ repeat PEmpty n) = Ok (re, ma, t).
Proof.
  intros H NE. unfold polar_table. set (all := _ ++ _).
  assert (S2 : forall all ls a b, (forall l, In l h2 -> l = POther \/ l = PEmpty) -> scan all (h2 ++ ls) a b = scan all ls a b).
  { clear. induction h2 as [|x h IH]; intros al ls a b H; [reflexivity|]. destruct (H x (or_introl eq_refl)) as [->| ->]; cbn [app scan]; apply IH; intros l I; apply H; now right. }
  assert (S1 : forall all ls a b, (forall l, In l h1 -> l = POther \/ l = PEmpty) -> scan all (h1 ++ ls) a b = scan all ls a b).
  { clear. induction h1 as [|x h IH]; intros al ls a b H; [reflexivity|]. destruct (H x (or_introl eq_refl)) as [->| ->]; cbn [app scan]; apply IH; intros l I; apply H; now right. }
  assert (E : scan all all 0 0 = Head re ma (map row t ++ repeat PEmpty n)).
  { unfold all at 2. rewrite S1 by (intros l I; apply H, in_or_app; now left). cbn [scan]. rewrite S2 by (intros l I; apply H, in_or_app; now right). reflexivity. }
  rewrite E. cbn [p_rows p_re p_mach]. rewrite rev_app_distr, rev_repeat, drop_blanks.
  assert (D : drop_empty (rev (map row t)) = rev (map row t)).
  { rewrite <- map_rev. destruct (rev t) as [|r q]; reflexivity. }
  rewrite D. destruct (rev (map row t)) as [|r q] eqn:ER.
  - exfalso. apply NE. apply (f_equal (@rev _)) in ER. rewrite rev_involutive in ER. now destruct t.
  - rewrite <- ER, rev_involutive, rows_map. reflexivity.
Qed.
(** no row after the rule *)
Theorem C193_no_rows h n : ~ In PRule h -> polar_table (h ++ PRule :: repeat PEmpty n) = Err IndexError.
Proof.
  intro N. unfold polar_table. destruct (scan_rule (h ++ PRule :: repeat PEmpty n) h (repeat PEmpty n) N 0 0) as (re & ma & E). rewrite E. cbn [p_rows p_re p_mach].
  rewrite rev_repeat, <- (app_nil_r (repeat PEmpty n)), drop_blanks. reflexivity.
Qed.
(** every file gets its own table, at the same n angles from -6 to 16 degrees *)
Theorem C193_files n fs ts : (3 <= List.length fs)%nat -> map polar_table fs = map Ok ts ->
  import_polars n fs = Ok (map (fun t => (fst (fst t), snd (fst t), map (polar_at (snd t)) (linspace (-6) 16 n))) ts).
Proof.
  intros L E. unfold import_polars. replace (Nat.ltb (List.length fs) 3) with false by (symmetry; apply Nat.ltb_ge; exact L).
  assert (T : tables fs = Ok ts).
  { clear L. revert ts E. induction fs as [|f fs IH]; intros [|t ts] E; try discriminate; [reflexivity|]. cbn [map] in E. injection E as E1 E2. cbn [tables]. rewrite E1. cbn [bind]. now rewrite (IH _ E2). }
  rewrite T. reflexivity.
Qed.
Lemma angle_nth t k : nth k (map (fun r : R * R * R => fst (fst r)) t) 0 = fst (fst (nth k t (0, 0, 0))).
Proof. exact (map_nth (fun r : R * R * R => fst (fst r)) t (0, 0, 0) k). Qed.
Lemma fst_nth (t : list (R * R)) k : nth k (map fst t) 0 = fst (nth k t (0, 0)).
Proof. exact (map_nth fst t (0, 0) k). Qed.
Lemma interp_data (f : R * R * R -> R) t i : rising (map (fun r => fst (fst r)) t) -> (i < List.length t)%nat ->
  interp (fst (fst (nth i t (0, 0, 0)))) (map (fun r => (fst (fst r), f r)) t) = f (nth i t (0, 0, 0)).
Proof.
  intros RI L. set (pts := map (fun r => (fst (fst r), f r)) t). set (d := (0, f (0, 0, 0))).
  assert (LP : List.length pts = List.length t) by (unfold pts; now rewrite map_length).
  assert (NT : forall k, nth k pts d = (fst (fst (nth k t (0, 0, 0))), f (nth k t (0, 0, 0)))).
  { intro k. unfold pts, d. change (0, f (0, 0, 0)) with ((fun r : R * R * R => (fst (fst r), f r)) (0, 0, 0)). now rewrite map_nth. }
  assert (MO : forall j k, (j < k < List.length t)%nat -> fst (nth j pts d) < fst (nth k pts d)).
  { intros j k JK. rewrite !NT. cbn [fst]. specialize (RI j k). rewrite map_length in RI. specialize (RI JK).
    rewrite !angle_nth in RI. exact RI. }
  destruct (interp_spec (fst (fst (nth i t (0, 0, 0)))) pts d) as (_ & B & C).
  - unfold pts. destruct t; [cbn in L; lia|discriminate].
  - intros k Hk. apply MO. lia.
  - destruct (Nat.eq_dec i (List.length t - 1)) as [->|NL].
    + rewrite LP in B. rewrite B; [now rewrite NT|]. rewrite NT. cbn. lra.
    + destruct C as (k & K & (K1 & K2) & EQ).
      * rewrite NT. cbn [fst]. destruct i as [|i]; [lra|]. specialize (MO 0%nat (S i) ltac:(lia)). rewrite !NT in MO. cbn [fst] in MO. lra.
      * rewrite LP. specialize (MO i (List.length t - 1)%nat ltac:(lia)). rewrite !NT in MO. rewrite NT. exact MO.
      * assert (k = i).
        { rewrite LP in K. destruct (lt_eq_lt_dec k i) as [[H|H]|H]; [|exact H|].
          - exfalso. rewrite NT in K2. cbn [fst] in K2. destruct (Nat.eq_dec (S k) i) as [<-|]; [lra|]. specialize (MO (S k) i ltac:(lia)). rewrite !NT in MO. cbn [fst] in MO. lra.
          - exfalso. specialize (MO i k ltac:(lia)). rewrite !NT in MO. rewrite NT in K1. cbn [fst] in MO, K1. lra. }
        subst k. rewrite EQ, !NT. cbn [fst snd]. unfold Rminus at 3. rewrite Rplus_opp_r. ring.
Qed.
(** at an angle of the table the values are those of the table *)
Theorem C193_at_data t i : rising (map (fun r => fst (fst r)) t) -> (i < List.length t)%nat ->
  polar_at t (fst (fst (nth i t (0, 0, 0)))) = (snd (fst (nth i t (0, 0, 0))), snd (nth i t (0, 0, 0))).
Proof. intros RI L. unfold polar_at. f_equal; [exact (interp_data (fun r => snd (fst r)) t i RI L)|exact (interp_data (fun r => snd r) t i RI L)]. Qed.
Lemma rising_climbing (f : R * R * R -> R) t : rising (map (fun r => fst (fst r)) t) -> climbing (map (fun r => (fst (fst r), f r)) t).
Proof.
  induction t as [|a t IH]; intro H; [exact I|]. destruct t as [|b t]; [exact I|]. split.
  - apply (H 0%nat 1%nat). cbn. lia.
  - apply IH. intros i j IJ. apply (H (S i) (S j)). cbn in *. lia.
Qed.
(** everywhere they stay within the bounds of the table *)
Theorem C193_bounds t a lo hi dlo dhi : t <> [] -> rising (map (fun r => fst (fst r)) t) ->
  (forall r, In r t -> lo <= snd (fst r) <= hi /\ dlo <= snd r <= dhi) ->
  lo <= fst (polar_at t a) <= hi /\ dlo <= snd (polar_at t a) <= dhi.
Proof.
  intros NE RI B. unfold polar_at. cbn [fst snd]. split; apply interp_range.
  - now destruct t.
  - now apply rising_climbing.
  - apply Forall_map, Forall_forall. intros r I. cbn. now apply B.
  - now destruct t.
  - now apply (rising_climbing (fun r => snd r)).
  - apply Forall_map, Forall_forall. intros r I. cbn. now apply B.
Qed.
(** beyond the last angle the last row holds, before the first the first *)
Theorem C193_beyond t a : t <> [] -> rising (map (fun r => fst (fst r)) t) ->
  (a < fst (fst (nth 0 t (0, 0, 0))) -> polar_at t a = (snd (fst (nth 0 t (0, 0, 0))), snd (nth 0 t (0, 0, 0)))) /\
  (fst (fst (nth (List.length t - 1) t (0, 0, 0))) <= a -> polar_at t a = (snd (fst (nth (List.length t - 1) t (0, 0, 0))), snd (nth (List.length t - 1) t (0, 0, 0)))).
Proof.
  intros NE RI.
  assert (G : forall f : R * R * R -> R, (a < fst (fst (nth 0 t (0, 0, 0))) -> interp a (map (fun r => (fst (fst r), f r)) t) = f (nth 0 t (0, 0, 0))) /\
     (fst (fst (nth (List.length t - 1) t (0, 0, 0))) <= a -> interp a (map (fun r => (fst (fst r), f r)) t) = f (nth (List.length t - 1) t (0, 0, 0)))).
  { intro f. set (g := fun r : R * R * R => (fst (fst r), f r)). destruct (interp_spec a (map g t) (g (0, 0, 0))) as (A & B & _).
    - now destruct t.
    - intros i Hi. rewrite !map_nth. cbn [fst g]. rewrite map_length in Hi. specialize (RI i (S i)). rewrite map_length in RI. specialize (RI ltac:(lia)).
      rewrite !angle_nth in RI. exact RI.
    - rewrite map_length, !map_nth in *. cbn [g fst snd] in A, B. split; assumption. }
  unfold polar_at. split; intro H; f_equal.
  - exact (proj1 (G (fun r => snd (fst r))) H).
  - exact (proj1 (G (fun r => snd r)) H).
  - exact (proj2 (G (fun r => snd (fst r))) H).
  - exact (proj2 (G (fun r => snd r)) H).
Qed.
Example C193_case : polar_table [POther; PHead (Some 50000) (Some 0); PRule; PRow (-1) 0 1; PRow 1 2 3; PEmpty] = Ok (50000, 0, [(-1, 0, 1); (1, 2, 3)]).
Proof. exact (C193_table [POther] 50000 0 [] [(-1, 0, 1); (1, 2, 3)] 1 ltac:(intros l [<-|[]]; now left) ltac:(discriminate)). Qed.

(** ** C194: measured values laid over the extended ones *)
(** within the measured angles: the value at a nearest measured angle, the first of two; elsewhere the extended value *)
Theorem C194_overlay t av i : t <> [] -> (i < List.length av)%nat ->
  List.length (overlay t av) = List.length av /\
  let a := fst (nth i av (0, 0)) in let x k := fst (nth k t (0, 0)) in let v := nth i (overlay t av) 0 in
  (x 0%nat <= a <= x (List.length t - 1)%nat -> exists k, (k < List.length t)%nat /\ v = snd (nth k t (0, 0)) /\
     (forall j, (j < List.length t)%nat -> Rabs (a - x k) <= Rabs (a - x j)) /\ (forall j, (j < k)%nat -> Rabs (a - x k) < Rabs (a - x j))) /\
  (a < x 0%nat \/ x (List.length t - 1)%nat < a -> v = snd (nth i av (0, 0))).
Proof.
  intros NE L. split; [unfold overlay; now rewrite map_length|]. cbn zeta. set (a := fst (nth i av (0, 0))).
  assert (V : nth i (overlay t av) 0 = if inside t a then pick a t else snd (nth i av (0, 0))).
  { unfold overlay. set (g := fun p : R * R => if inside t (fst p) then pick (fst p) t else snd p). rewrite (nth_indep _ 0 (g (0, 0))) by (rewrite map_length; exact L). now rewrite map_nth. }
  assert (X0 : first_x t = fst (nth 0 t (0, 0))) by now destruct t.
  assert (XN : last_x t = fst (nth (List.length t - 1) t (0, 0))).
  { unfold last_x. f_equal. destruct (exists_last NE) as (l' & z & ->). rewrite last_last, app_length. cbn [List.length]. rewrite app_nth2 by lia. now replace (List.length l' + 1 - 1 - List.length l')%nat with 0%nat by lia. }
  rewrite V. unfold inside. rewrite X0, XN. split.
  - intros (A & B). replace (Rltb a (fst (nth 0 t (0, 0)))) with false by (symmetry; apply Rltb_false; lra). replace (Rltb (fst (nth (List.length t - 1) t (0, 0))) a) with false by (symmetry; apply Rltb_false; lra).
    cbn [negb andb]. now apply pick_spec.
  - intros [A|B].
    + replace (Rltb a (fst (nth 0 t (0, 0)))) with true by (symmetry; apply Rltb_true; lra). reflexivity.
    + replace (Rltb (fst (nth (List.length t - 1) t (0, 0))) a) with true by (symmetry; apply Rltb_true; lra). now rewrite andb_false_r.
Qed.
(** a measured angle keeps its measured value *)
Theorem C194_at_data t av i k : rising (map fst t) -> (i < List.length av)%nat -> (k < List.length t)%nat -> fst (nth i av (0, 0)) = fst (nth k t (0, 0)) ->
  nth i (overlay t av) 0 = snd (nth k t (0, 0)).
Proof.
  intros RI L K E. assert (NE : t <> []) by (destruct t; [cbn in K; lia|discriminate]).
  assert (MO : forall a b, (a < b < List.length t)%nat -> fst (nth a t (0, 0)) < fst (nth b t (0, 0))).
  { intros a b AB. specialize (RI a b). rewrite map_length in RI. specialize (RI AB). rewrite !fst_nth in RI. exact RI. }
  assert (ML : forall a b, (a <= b < List.length t)%nat -> fst (nth a t (0, 0)) <= fst (nth b t (0, 0))).
  { intros a b AB. destruct (Nat.eq_dec a b) as [->|]; [lra|]. specialize (MO a b ltac:(lia)). lra. }
  destruct (C194_overlay t av i NE L) as (_ & A & _). cbn zeta in A. rewrite E in A. destruct A as (j & J & V & N & _).
  - split; apply ML; lia.
  - rewrite V. specialize (N k K). replace (fst (nth k t (0, 0)) - fst (nth k t (0, 0))) with 0 in N by ring. rewrite Rabs_R0 in N.
    assert (EQ : fst (nth k t (0, 0)) = fst (nth j t (0, 0))). { destruct (Req_dec (fst (nth k t (0, 0)) - fst (nth j t (0, 0))) 0) as [Z|Z]; [lra|]. pose proof (Rabs_pos_lt _ Z). lra. }
    destruct (lt_eq_lt_dec j k) as [[H| ->]|H]; [|reflexivity|]; exfalso; [specialize (MO j k ltac:(lia))|specialize (MO k j ltac:(lia))]; lra.
Qed.
(** the drag: between the ends as laid over, before and after never below the end's *)
Theorem C194_drag cl cd avl avd CL CD : pre_stall_data cl cd avl avd = Ok (CL, CD) ->
  CL = overlay cl avl /\ List.length CD = List.length avd /\
  exists lb ub, let o k := nth k (overlay cd avd) 0 in
    (lb < List.length avd)%nat /\ (ub < List.length avd)%nat /\ o lb = snd (nth 0 cd (0, 0)) /\ o ub = snd (last cd (0, 0)) /\
    (forall j, (j < lb)%nat -> o j <> o lb) /\ (forall j, (ub < j < List.length avd)%nat -> o j <> o ub) /\
    ((lb <= ub)%nat -> forall i, (i < List.length avd)%nat ->
      nth i CD 0 = if Nat.ltb i lb then Rmax (o i) (o lb) else if Nat.ltb i ub then o i else Rmax (o i) (o ub)).
Proof.
  unfold pre_stall_data. set (O := overlay cd avd). assert (LO : List.length O = List.length avd) by (unfold O, overlay; now rewrite map_length).
  destruct (first_of (snd (hd (0, 0) cd)) O) as [lb|] eqn:F; [|discriminate]. destruct (last_of (snd (last cd (0, 0))) O) as [ub|] eqn:G; [|discriminate].
  intro E. injection E as <- <-. split; [reflexivity|]. destruct (first_of_spec _ _ _ F) as (A1 & A2 & A3). destruct (last_of_spec _ _ _ G) as (B1 & B2 & B3).
  unfold raise_ends. set (f1 := fun p : nat * R => if Nat.ltb (fst p) lb then Rmax (snd p) (nth lb O 0) else snd p). set (c1 := map f1 _).
  assert (LC : List.length c1 = List.length O) by (unfold c1; rewrite map_length, combine_length, seq_length; lia).
  split; [rewrite map_length, combine_length, seq_length; lia|]. exists lb, ub. cbn zeta. rewrite <- LO. repeat split; try assumption.
  - rewrite A2. now destruct cd.
  - intros j Hj. rewrite A2. now apply A3.
  - intros j Hj. rewrite B2. now apply B3.
  - intros LU i Hi.
    assert (C1 : forall j, (j < List.length O)%nat -> nth j c1 0 = if Nat.ltb j lb then Rmax (nth j O 0) (nth lb O 0) else nth j O 0).
    { intros j Hj. unfold c1. rewrite (indexed_nth f1 O j 0 Hj). reflexivity. }
    set (f2 := fun p : nat * R => _). rewrite (indexed_nth f2 c1 i 0) by lia. unfold f2. cbn [fst snd].
    rewrite (C1 i Hi), (C1 ub ltac:(lia)). replace (Nat.ltb ub lb) with false by (symmetry; apply Nat.ltb_ge; lia).
    destruct (Nat.ltb_spec i lb).
    + replace (Nat.ltb i ub) with true by (symmetry; apply Nat.ltb_lt; lia). reflexivity.
    + reflexivity.
Qed.
(** it answers exactly when both end values of the measured drag appear among the laid-over values *)
Theorem C194_answers cl cd avl avd : (exists r, pre_stall_data cl cd avl avd = Ok r) <-> In (snd (hd (0, 0) cd)) (overlay cd avd) /\ In (snd (last cd (0, 0))) (overlay cd avd).
Proof.
  unfold pre_stall_data. pose proof (first_of_none (snd (hd (0, 0) cd)) (overlay cd avd)) as F. pose proof (last_of_none (snd (last cd (0, 0))) (overlay cd avd)) as L.
  destruct (in_dec Req_EM_T (snd (hd (0, 0) cd)) (overlay cd avd)) as [I|I]; destruct (in_dec Req_EM_T (snd (last cd (0, 0))) (overlay cd avd)) as [J|J];
  destruct (first_of _ _) eqn:E1; destruct (last_of _ _) eqn:E2; split; intro H; try tauto; try (destruct H; discriminate); try (eexists; reflexivity);
  exfalso; try (apply F; [reflexivity|assumption]); try (apply L; [reflexivity|assumption]);
  try (pose proof (proj2 F I); discriminate); try (pose proof (proj2 L J); discriminate).
Qed.
(** so an angle grid that misses the region next to an end makes the call fail *)
Theorem C194_missed_refuted : exists cl cd avl avd, rising (map fst cd) /\ rising (map fst avd) /\ (2 <= List.length cd)%nat /\ (2 <= List.length avd)%nat /\
  pre_stall_data cl cd avl avd = Err IndexError.
Proof.
  exists [(0, 0); (1, 1)], [(0, 5); (1, 6); (2, 7)], [(0, 0); (1, 1)], [(-1, 9); (1, 9); (3, 9)].
  assert (RI : forall a b c : R, a < b < c -> rising [a; b; c]).
  { intros a b c H i j (IJ & J). destruct i as [|[|[|i]]]; destruct j as [|[|[|j]]]; cbn in *; try lia; lra. }
  split; [cbn; apply RI; lra|]. split; [cbn; apply RI; lra|]. split; [cbn; lia|]. split; [cbn; lia|].
  destruct (pre_stall_data _ _ _ _) as [r|e] eqn:E.
  - exfalso. assert (H : exists r, pre_stall_data [(0, 0); (1, 1)] [(0, 5); (1, 6); (2, 7)] [(0, 0); (1, 1)] [(-1, 9); (1, 9); (3, 9)] = Ok r) by eauto.
    apply C194_answers in H as (I & _). cbn [hd snd] in I.
    assert (P : overlay [(0, 5); (1, 6); (2, 7)] [(-1, 9); (1, 9); (3, 9)] = [9; 6; 9]).
    { unfold overlay, inside, first_x, last_x, pick. cbn [map fst snd hd last nearest].
      replace (Rltb (-1) 0) with true by (symmetry; apply Rltb_true; lra). replace (Rltb 1 0) with false by (symmetry; apply Rltb_false; lra). replace (Rltb 2 1) with false by (symmetry; apply Rltb_false; lra).
      replace (Rltb 2 3) with true by (symmetry; apply Rltb_true; lra). rewrite !andb_false_r. cbn [negb andb].
      replace (1 - 1) with 0 by ring. replace (1 - 0) with 1 by ring. replace (1 - 2) with (- (1)) by ring. rewrite Rabs_Ropp, Rabs_R0, Rabs_R1.
      replace (Rltb 0 1) with true by (symmetry; apply Rltb_true; lra). replace (Rltb 1 0) with false by (symmetry; apply Rltb_false; lra). reflexivity. }
    rewrite P in I. cbn in I. lra.
  - revert E. unfold pre_stall_data. cbv zeta. repeat match goal with |- context[match ?x with Some _ => _ | None => _ end] => destruct x end; intro E; congruence.
Qed.
Example C194_case : exists r, pre_stall_data [(0, 0); (1, 1)] [(0, 5); (1, 6)] [(0, 3); (1, 4)] [(0, 9); (1, 9)] = Ok r.
Proof.
  apply C194_answers. assert (RI : rising (map fst [(0, 5); (1, 6)])). { intros i j (IJ & J). destruct i as [|[|i]]; destruct j as [|[|j]]; cbn in *; try lia; lra. }
  split.
  - pose proof (C194_at_data [(0, 5); (1, 6)] [(0, 9); (1, 9)] 0 0 RI ltac:(cbn; lia) ltac:(cbn; lia) eq_refl) as E. cbn [hd snd]. cbn [nth snd] in E. rewrite <- E at 1. apply nth_In. cbn. lia.
  - pose proof (C194_at_data [(0, 5); (1, 6)] [(0, 9); (1, 9)] 1 1 RI ltac:(cbn; lia) ltac:(cbn; lia) eq_refl) as E. cbn [last snd]. change (nth 1 [(0, 5); (1, 6)] (0, 0)) with (1, 6) in E. cbn [snd] in E. rewrite <- E at 1. apply nth_In. cbn. lia.
Qed.
Print Assumptions C190_blocks.
Print Assumptions C190_one_block.
Print Assumptions C190_empty.
Print Assumptions C190_third_block.
Print Assumptions C190_not_numbers.
Print Assumptions C191_lednicer.
Print Assumptions C191_selig.
Print Assumptions C191_untitled.
Print Assumptions C191_outline.
Print Assumptions C191_lost_refuted.
Print Assumptions C191_text_refuted.
Print Assumptions C191_digit.
Print Assumptions C191_blank.
Print Assumptions C191_trim.
Print Assumptions C191_origin.
Print Assumptions C191_ends.
Print Assumptions C192_round_trip.
Print Assumptions C192_between.
Print Assumptions C192_ends.
Print Assumptions C192_thickness.
Print Assumptions C192_files.
Print Assumptions C193_three.
Print Assumptions C193_table.
Print Assumptions C193_no_rows.
Print Assumptions C193_files.
Print Assumptions C193_at_data.
Print Assumptions C193_bounds.
Print Assumptions C193_beyond.
Print Assumptions C194_overlay.
Print Assumptions C194_at_data.
Print Assumptions C194_drag.
Print Assumptions C194_answers.
Print Assumptions C194_missed_refuted.
