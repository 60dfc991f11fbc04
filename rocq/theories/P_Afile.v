From Coq Require Import Reals List Bool Arith String Lia Lra.
From Verif Require Import PyBase M_Opt P_Opt M_Noise M_Field P_Field P_Noise P_Panel M_Afile S_Afile.
Import ListNotations.
Local Open Scope R_scope.
Local Open Scope list_scope.

(** ** dat files *)
Lemma numbers_ok l vs : map t_val l = map Some vs -> numbers l = Ok vs.
Proof.
  revert vs. induction l as [|t l IH]; intros [|v vs] H; try discriminate; [reflexivity|]. cbn [map] in H. injection H as H1 H2.
  cbn [numbers]. unfold number. rewrite H1. cbn [bind]. now rewrite (IH _ H2).
Qed.
Lemma dat_blanks n ls left cur d : dat_loop (repeat [] n ++ ls) left cur d = match n with O => dat_loop ls left cur d | S _ => dat_loop ls left None d end.
Proof.
  revert cur. induction n as [|n IH]; intro cur; [reflexivity|]. cbn [repeat app dat_loop].
  destruct cur; rewrite IH; destruct n; reflexivity.
Qed.
Definition add_points (s : section) (ps : list (list R)) (d : dat) : dat := match s with Upper => Dat (d_upper d ++ ps) (d_lower d) | Lower => Dat (d_upper d) (d_lower d ++ ps) end.
Lemma dat_block s b ps : Forall2 reads b ps -> forall ls left d, dat_loop (b ++ ls) left (Some s) d = dat_loop ls left (Some s) (add_points s ps d).
Proof.
  induction 1 as [|l p b ps (NE & E) F IH]; intros ls left d.
  - destruct d, s; cbn; now rewrite app_nil_r.
  - destruct l as [|t l]; [destruct p; [congruence|discriminate]|]. cbn [app dat_loop]. rewrite (numbers_ok _ _ E). cbn [bind]. rewrite IH.
    f_equal. destruct d, s; cbn; now rewrite <- app_assoc.
Qed.
Lemma dat_begin s left b ps d ls : b <> [] -> Forall2 reads b ps -> dat_loop (b ++ ls) (s :: left) None d = dat_loop ls left (Some s) (add_points s ps d).
Proof.
  intros NE F. destruct F as [|l p b ps (N & E) F]; [congruence|].
  destruct l as [|t l]; [destruct p; [congruence|discriminate]|]. cbn [app dat_loop]. rewrite (numbers_ok _ _ E). cbn [bind]. rewrite (dat_block _ _ _ F).
  f_equal. destruct d, s; cbn; now rewrite <- app_assoc.
Qed.

(** ** geometry files *)
Lemma shows_xy l p : shows l p -> xy l = Ok p /\ l_toks l <> [].
Proof.
  intros (t & u & r & E & A & B). unfold xy, number. rewrite E, A. cbn [bind]. rewrite B. cbn. split; [now destruct p|discriminate].
Qed.
Lemma lednicer_block b ps : Forall2 shows b ps -> forall up ls, lednicer (b ++ ls) up = bind (lednicer ls up) (fun s => Ok (if up then (ps ++ fst s, snd s) else (fst s, ps ++ snd s))).
Proof.
  induction 1 as [|l p b ps H F IH]; intros up ls.
  - cbn. destruct (lednicer ls up) as [[a c]|e]; cbn; [now destruct up|reflexivity].
  - destruct (shows_xy _ _ H) as (X & N). cbn [app lednicer]. destruct (l_toks l) eqn:E; [congruence|]. rewrite X. cbn [bind]. rewrite IH.
    destruct (lednicer ls up) as [[a c]|e]; cbn; [now destruct up|reflexivity].
Qed.
Lemma lednicer_blanks n ls up : lednicer (repeat (FLine None None []) n ++ ls) up = lednicer ls (match n with O => up | _ => false end).
Proof. revert up. induction n as [|n IH]; intro up; [reflexivity|]. cbn [repeat app lednicer l_toks]. rewrite IH. now destruct n. Qed.
Lemma selig_lower b ps : Forall2 shows b ps -> Forall (fun p => fst p <> 0) ps ->
  forall ls, selig (b ++ ls) false = bind (selig ls false) (fun s => Ok (fst s, ps ++ snd s)).
Proof.
  induction 1 as [|l p b ps H F IH]; intros Z ls.
  - cbn. destruct (selig ls false) as [[a c]|e]; reflexivity.
  - apply Forall_cons_iff in Z as (Z & Z'). destruct (shows_xy _ _ H) as (X & N). cbn [app selig]. rewrite X. cbn [bind]. destruct (Req_EM_T (fst p) 0); [contradiction|].
    rewrite (IH Z'). destruct (selig ls false) as [[a c]|e]; reflexivity.
Qed.
Lemma falling_tl a l : falling (a :: l) -> falling l.
Proof. intros F x y r s E. apply (F x y (a :: r) s). now rewrite E. Qed.
(** reading goes on along the upper surface up to its last line [m] *)
Lemma selig_upper b ps m pm ls : Forall2 shows b ps -> Forall (fun p => fst p <> 0) ps -> shows m pm ->
  (falling (b ++ [m]) \/ (falling b /\ fst pm <= 0)) ->
  selig (b ++ m :: ls) true = bind (selig (m :: ls) true) (fun s => Ok (ps ++ fst s, snd s)).
Proof.
  induction 1 as [|l p b ps H F IH]; intros Z Hm FA.
  - cbn [app]. destruct (selig (m :: ls) true) as [[a c]|e]; reflexivity.
  - apply Forall_cons_iff in Z as (Z & Z'). destruct (shows_xy _ _ H) as (X & N).
    assert (FA' : falling (b ++ [m]) \/ (falling b /\ fst pm <= 0)).
    { destruct FA as [FA|(FA & L)]; [left|right; split; [|exact L]]; exact (falling_tl _ _ FA). }
    specialize (IH Z' Hm FA').
    assert (T : turns l (b ++ m :: ls) = Ok false).
    { unfold turns. destruct (l_toks l) as [|t rt] eqn:El; [congruence|].
      assert (TX : text l = t_text t) by (unfold text; now rewrite El).
      destruct F as [|l' p' b' ps' H' F'].
      - cbn [app]. destruct Hm as (tm & um & rm & Em & A & B). rewrite Em. unfold text_gt.
        destruct FA as [FA|(_ & L)].
        + specialize (FA l m [] [] eq_refl). rewrite TX in FA. unfold text in FA. rewrite Em in FA. now rewrite FA.
        + destruct (String.ltb (t_text t) (t_text tm)); [|reflexivity]. unfold number. rewrite A. cbn [bind]. f_equal. apply Rltb_false. lra.
      - cbn [app]. destruct H' as (tm & um & rm & Em & A & B). rewrite Em. unfold text_gt.
        assert (FB : String.ltb (text l) (text l') = false).
        { destruct FA as [FA|(FA & _)]; [exact (FA l l' [] (b' ++ [m]) eq_refl)|exact (FA l l' [] b' eq_refl)]. }
        rewrite TX in FB. unfold text in FB. rewrite Em in FB. now rewrite FB. }
    change ((l :: b) ++ m :: ls) with (l :: (b ++ m :: ls)). cbn [selig]. rewrite X. cbn [bind]. destruct (Req_EM_T (fst p) 0); [contradiction|].
    rewrite T. cbn [bind negb]. fold selig in IH. rewrite IH. cbn [selig].
    match goal with |- bind (bind ?e _) _ = _ => destruct e as [[a c]|er] end; reflexivity.
Qed.
Lemma existsb_no (x : R) l : ~ In x l -> existsb (fun y => if Req_EM_T x y then true else false) l = false.
Proof. induction l as [|y l IH]; intro H; [reflexivity|]. cbn. destruct (Req_EM_T x y); [subst; exfalso; apply H; now left|]. cbn. apply IH. intro I. apply H. now right. Qed.
Lemma repeated_no l : NoDup l -> repeated l = false.
Proof. induction 1 as [|x l H N IH]; [reflexivity|]. cbn. now rewrite (existsb_no _ _ H). Qed.
Lemma existsb_yes (x : R) l : In x l -> existsb (fun y => if Req_EM_T x y then true else false) l = true.
Proof. intro H. apply existsb_exists. exists x. split; [exact H|]. now destruct (Req_EM_T x x). Qed.
Lemma repeated_yes l : repeated l = false -> NoDup l.
Proof.
  induction l as [|x l IH]; intro H; [constructor|]. cbn in H. apply orb_false_iff in H as (A & B). constructor; [|auto].
  intro I. rewrite (existsb_yes _ _ I) in A. discriminate.
Qed.
Lemma fold_min l : forall x, fold_left Rmin l x <= x /\ (forall y, In y l -> fold_left Rmin l x <= y) /\ In (fold_left Rmin l x) (x :: l).
Proof.
  induction l as [|z l IH]; intro x; cbn [fold_left].
  - split; [lra|]. split; [intros ? []|now left].
  - destruct (IH (Rmin x z)) as (A & B & C). pose proof (Rmin_l x z). pose proof (Rmin_r x z). split; [lra|]. split.
    + intros y [<-|I]; [lra|exact (B y I)].
    + destruct C as [C|C]; [|right; now right]. rewrite <- C. unfold Rmin. destruct (Rle_dec x z); [now left|right; now left].
Qed.
Lemma minimum_spec l : l <> [] -> (forall y, In y l -> minimum l <= y) /\ In (minimum l) l.
Proof. destruct l as [|x l]; [congruence|]. intros _. destruct (fold_min l x) as (A & B & C). split; [intros y [<-|I]; auto|exact C]. Qed.
Lemma argmin_in m ps : In m (map fst ps) -> In (m, argmin_y m ps) ps.
Proof.
  induction ps as [|[a b] ps IH]; intros I; [destruct I|]. cbn. destruct (Req_EM_T a m) as [->|n]; [now left|].
  right. apply IH. destruct I as [E|I]; [cbn in E; contradiction|exact I].
Qed.

(** ** polars *)
Lemma drop_blanks n l : drop_empty (repeat PEmpty n ++ l) = drop_empty l.
Proof. induction n; auto. Qed.
Lemma rev_repeat {A} (x : A) n : rev (repeat x n) = repeat x n.
Proof.
  induction n as [|n IH]; [reflexivity|]. cbn [repeat rev]. rewrite IH. clear IH. induction n as [|n IH]; [reflexivity|]. cbn [repeat app]. now rewrite IH.
Qed.
Definition row (r : R * R * R) : pline := PRow (fst (fst r)) (snd (fst r)) (snd r).
Lemma rows_map t : rows (map row t) = Ok t.
Proof. induction t as [|[[a c] d] t IH]; [reflexivity|]. cbn. now rewrite IH. Qed.
Lemma scan_rule all h r : ~ In PRule h -> forall re ma, exists re' ma', scan all (h ++ PRule :: r) re ma = Head re' ma' r.
Proof.
  induction h as [|l h IH]; intros N re ma; [cbn; eauto|]. assert (N' : ~ In PRule h) by (intro I; apply N; now right).
  destruct l; cbn [app scan]; auto. exfalso. apply N. now left.
Qed.

(** ** the nearest measurement *)
Lemma nearest_spec a : forall t best val,
  (nearest a best val t = val /\ (forall j, (j < List.length t)%nat -> best <= Rabs (a - fst (nth j t (0, 0))))) \/
  (exists i, (i < List.length t)%nat /\ nearest a best val t = snd (nth i t (0, 0)) /\ Rabs (a - fst (nth i t (0, 0))) < best /\
     (forall j, (j < List.length t)%nat -> Rabs (a - fst (nth i t (0, 0))) <= Rabs (a - fst (nth j t (0, 0)))) /\
     (forall j, (j < i)%nat -> Rabs (a - fst (nth i t (0, 0))) < Rabs (a - fst (nth j t (0, 0))))).
Proof.
  induction t as [|[x v] t IH]; intros best val.
  - left. split; [reflexivity|]. cbn. intros; lia.
  - cbn [nearest]. destruct (Rltb (Rabs (a - x)) best) eqn:E; [apply Rltb_true in E|apply Rltb_false in E].
    + right. destruct (IH (Rabs (a - x)) v) as [(EQ & M)|(i & L & EQ & S & M & B)].
      * exists O. cbn [nth fst snd List.length]. repeat split; [lia|exact EQ|exact E| |intros; lia].
        intros [|j] Hj; cbn [nth fst]; [lra|]. apply M. cbn in Hj. lia.
      * exists (Datatypes.S i). cbn [nth fst snd List.length]. repeat split; [lia|exact EQ|lra| |].
        -- intros [|j] Hj; cbn [nth fst]; [lra|]. apply M. cbn in Hj. lia.
        -- intros [|j] Hj; cbn [nth fst]; [lra|]. apply B. lia.
    + destruct (IH best val) as [(EQ & M)|(i & L & EQ & S & M & B)].
      * left. split; [exact EQ|]. intros [|j] Hj; cbn [nth fst]; [exact E|]. apply M. cbn in Hj. lia.
      * right. exists (Datatypes.S i). cbn [nth fst snd List.length]. repeat split; [lia|exact EQ|lra| |].
        -- intros [|j] Hj; cbn [nth fst]; [lra|]. apply M. cbn in Hj. lia.
        -- intros [|j] Hj; cbn [nth fst]; [lra|]. apply B. lia.
Qed.
Lemma pick_spec a t : t <> [] -> exists i, (i < List.length t)%nat /\ pick a t = snd (nth i t (0, 0)) /\
     (forall j, (j < List.length t)%nat -> Rabs (a - fst (nth i t (0, 0))) <= Rabs (a - fst (nth j t (0, 0)))) /\
     (forall j, (j < i)%nat -> Rabs (a - fst (nth i t (0, 0))) < Rabs (a - fst (nth j t (0, 0)))).
Proof.
  destruct t as [|[x v] t]; [congruence|]. intros _. cbn [pick]. destruct (nearest_spec a t (Rabs (a - x)) v) as [(EQ & M)|(i & L & EQ & S & M & B)].
  - exists O. cbn [nth fst snd List.length]. repeat split; [lia|exact EQ| |intros; lia].
    intros [|j] Hj; cbn [nth fst]; [lra|]. apply M. cbn in Hj. lia.
  - exists (Datatypes.S i). cbn [nth fst snd List.length]. repeat split; [lia|exact EQ| |].
    + intros [|j] Hj; cbn [nth fst]; [lra|]. apply M. cbn in Hj. lia.
    + intros [|j] Hj; cbn [nth fst]; [lra|]. apply B. lia.
Qed.
Lemma indexed_nth {A B} (f : nat * A -> B) (l : list A) i d : (i < List.length l)%nat -> forall e, nth i (map f (combine (seq 0 (List.length l)) l)) e = f (i, nth i l d).
Proof.
  intros L e. rewrite (nth_indep _ e (f (O, d))) by (rewrite map_length, combine_length, seq_length; lia).
  rewrite map_nth. rewrite combine_nth by apply seq_length. now rewrite seq_nth by exact L.
Qed.
Lemma first_of_spec v : forall l i, first_of v l = Some i -> (i < List.length l)%nat /\ nth i l 0 = v /\ forall j, (j < i)%nat -> nth j l 0 <> v.
Proof.
  induction l as [|x l IH]; intros i E; [discriminate|]. cbn in E. destruct (Req_EM_T x v).
  - injection E as <-. cbn. repeat split; [lia|assumption|intros; lia].
  - destruct (first_of v l) as [k|] eqn:F; [|discriminate]. injection E as <-. destruct (IH k eq_refl) as (A & B & C). cbn. repeat split; [lia|exact B|].
    intros [|j] Hj; [assumption|]. apply C. lia.
Qed.
Lemma first_of_none v l : first_of v l = None <-> ~ In v l.
Proof.
  induction l as [|x l IH]; cbn; [tauto|]. destruct (Req_EM_T x v) as [->|n]; [split; [discriminate|tauto]|].
  destruct (first_of v l); cbn.
  - split; [discriminate|]. intro H. exfalso. apply H. right. destruct (in_dec Req_EM_T v l) as [I|I]; [exact I|]. destruct IH as (_ & IH). discriminate (IH I).
  - split; [|reflexivity]. intros _ [E|I]; [contradiction|]. now apply IH.
Qed.
Lemma last_of_none v l : last_of v l = None <-> ~ In v l.
Proof.
  induction l as [|x l IH]; cbn; [tauto|]. destruct (last_of v l).
  - split; [discriminate|]. intro H. exfalso. apply H. right. destruct (in_dec Req_EM_T v l) as [I|I]; [exact I|]. destruct IH as (_ & IH). discriminate (IH I).
  - destruct (Req_EM_T x v) as [->|n']; [split; [discriminate|tauto]|]. split; [|reflexivity]. intros _ [E|I]; [contradiction|]. now apply IH.
Qed.
Lemma last_of_spec v : forall l i, last_of v l = Some i -> (i < List.length l)%nat /\ nth i l 0 = v /\ forall j, (i < j < List.length l)%nat -> nth j l 0 <> v.
Proof.
  induction l as [|x l IH]; intros i E; [discriminate|]. cbn in E. destruct (last_of v l) as [k|] eqn:F.
  - injection E as <-. destruct (IH k eq_refl) as (A & B & C). cbn. repeat split; [lia|exact B|]. intros [|j] Hj; [lia|]. apply C. lia.
  - destruct (Req_EM_T x v); [|discriminate]. injection E as <-. cbn. repeat split; [lia|assumption|].
    intros [|j] Hj; [lia|]. apply last_of_none in F. intro G. apply F. rewrite <- G. apply nth_In. lia.
Qed.
