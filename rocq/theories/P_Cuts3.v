(** * Proofs: the cut wing *)
From Coq Require Import Reals List Bool Arith ZArith Lra Lia Sorted Permutation.
From Verif Require Import PyBase M_Opt M_Rot M_Noise M_Evtol M_Field M_Grid M_Cuts S_Grid S_Cuts P_Opt P_Field P_Grid P_Cuts P_Cuts2.
Import ListNotations.
Local Open Scope R_scope.

Lemma place_raw f d l mk loc done acc r : apart l -> gathered done acc -> In (f, d) places -> In r acc ->
  (forall c, In c l -> In (mk c) done /\ b_y (mk c) = loc c /\ f (mk c) = (c_id c, c_cut c)) ->
  (forall b, In b done -> fst (f b) <> (-1)%Z -> exists c, In c l /\ b = mk c) ->
  (forall c c', In c l -> In c' l -> loc c = loc c' -> c = c') ->
  f r = match find (fun c => Reqb (loc c) (b_y r)) l with Some c => (c_id c, c_cut c) | None => ((-1)%Z, d) end.
Proof.
  intros A G F I MK WHO U. pose proof (ga_place _ _ G f d r F I) as P. destruct (find _ l) as [c|] eqn:E.
  - apply List.find_some in E. destruct E as [J E]. apply Reqb_true in E. destruct (MK c J) as (M1 & M2 & M3). pose proof (ap_forward _ A) as FW. rewrite Forall_forall in FW. destruct (FW c J) as [_ ID].
    destruct P as [(P1 & _ & P3)|(P1 & b & B & BY & BE)].
    + specialize (P3 _ M1 ltac:(lra)). rewrite M3 in P3. cbn in P3. lia.
    + rewrite <- BE in P1. destruct (WHO b B P1) as (c' & J' & ->). destruct (MK c' J') as (_ & M2' & M3'). rewrite <- BE, M3'. rewrite (U c' c J' J) by lra. reflexivity.
  - destruct P as [(P1 & P2 & _)|(P1 & b & B & BY & BE)]; [rewrite (surjective_pairing (f r)), P1, P2; reflexivity|].
    rewrite <- BE in P1. destruct (WHO b B P1) as (c' & J' & ->). destruct (MK c' J') as (_ & M2' & M3'). pose proof (find_none _ _ E c' J') as Q. cbv beta in Q. assert (Reqb (loc c') (b_y r) = true) by (apply Reqb_true; lra). congruence.
Qed.
Lemma in_breaks slat l b : In b (breaks_of slat l) <-> exists c, In c l /\ (b = begins slat c \/ b = finishes slat c).
Proof.
  unfold breaks_of. rewrite in_concat. split.
  - intros (x & X & B). apply in_map_iff in X. destruct X as (c & <- & C). exists c. split; [exact C|]. destruct B as [<-|[<-|[]]]; auto.
  - intros (c & C & B). exists [begins slat c; finishes slat c]. split; [apply in_map_iff; exists c; auto|]. destruct B as [->| ->]; [left|right; left]; reflexivity.
Qed.
Definition all_breaks (slats others : list piece) (segments : list (R * shape)) : list break := breaks_of true slats ++ breaks_of false others ++ map of_segment segments.
Lemma in_all slats others segs b : In b (all_breaks slats others segs) <->
  (exists c, In c slats /\ (b = begins true c \/ b = finishes true c)) \/ (exists c, In c others /\ (b = begins false c \/ b = finishes false c)) \/ (exists s, In s segs /\ b = of_segment s).
Proof.
  unfold all_breaks. rewrite !in_app_iff, !in_breaks, in_map_iff. split; (intros [H|[H|H]]; [left; exact H|right; left; exact H|right; right]); destruct H as (s & H1 & H2); exists s; auto.
Qed.
Lemma all_tidy slats others segs : apart slats -> apart others -> Forall tidy (all_breaks slats others segs).
Proof.
  intros A A'. apply Forall_forall. intros b B f d F. apply in_all in B.
  pose proof (ap_forward _ A) as W. pose proof (ap_forward _ A') as W'. rewrite Forall_forall in W, W'.
  destruct F as [F|[F|[F|[F|[]]]]]; injection F as <- <-; cbn [fst snd]; destruct B as [(c & I & [->| ->])|[(c & I & [->| ->])|(s & _ & ->)]]; cbn; intro E; try reflexivity; (apply W in I || apply W' in I); lia.
Qed.
(** the breaks before filling *)
Lemma gathered_raw slats others segs done acc : apart slats -> apart others -> gathered done acc -> (forall b, In b done <-> In b (all_breaks slats others segs)) ->
  forall r, In r acc -> b_le r = raw slats 0 (b_y r) /\ b_te r = raw others 1 (b_y r).
Proof.
  intros A A' G D r I.
  assert (K : forall slat l, (slat = true /\ l = slats) \/ (slat = false /\ l = others) -> apart l /\ forall c, In c l -> In (begins slat c) done /\ In (finishes slat c) done).
  { intros slat l [[-> ->]|[-> ->]]; (split; [assumption|]); intros c C; split; apply D, in_all; [left|left|right; left|right; left]; exists c; auto. }
  destruct (K true slats (or_introl (conj eq_refl eq_refl))) as [_ KS]. destruct (K false others (or_intror (conj eq_refl eq_refl))) as [_ KO]. clear K.
  assert (P1 := place_raw _ _ slats (finishes true) c_end done acc r A G (or_introl eq_refl) I).
  assert (P2 := place_raw _ _ slats (begins true) c_start done acc r A G (or_intror (or_introl eq_refl)) I).
  assert (P3 := place_raw _ _ others (finishes false) c_end done acc r A' G (or_intror (or_intror (or_introl eq_refl))) I).
  assert (P4 := place_raw _ _ others (begins false) c_start done acc r A' G (or_intror (or_intror (or_intror (or_introl eq_refl)))) I).
  assert (E1 : (m_in (b_le r), m_cin (b_le r)) = match find (at_end (b_y r)) slats with Some c => (c_id c, c_cut c) | None => ((-1)%Z, 0) end).
  { apply P1; [intros c C; split; [apply KS, C|split; reflexivity]| |intros c c' C C' Q; apply (same_end slats A c c' C C' Q)].
    intros b B N. apply D, in_all in B. destruct B as [(c & C & [->| ->])|[(c & C & [->| ->])|(s & _ & ->)]]; cbn in N; try congruence. exists c. auto. }
  assert (E2 : (m_out (b_le r), m_cout (b_le r)) = match find (at_start (b_y r)) slats with Some c => (c_id c, c_cut c) | None => ((-1)%Z, 0) end).
  { apply P2; [intros c C; split; [apply KS, C|split; reflexivity]| |intros c c' C C' Q; apply (same_start slats A c c' C C' Q)].
    intros b B N. apply D, in_all in B. destruct B as [(c & C & [->| ->])|[(c & C & [->| ->])|(s & _ & ->)]]; cbn in N; try congruence. exists c. auto. }
  assert (E3 : (m_in (b_te r), m_cin (b_te r)) = match find (at_end (b_y r)) others with Some c => (c_id c, c_cut c) | None => ((-1)%Z, 1) end).
  { apply P3; [intros c C; split; [apply KO, C|split; reflexivity]| |intros c c' C C' Q; apply (same_end others A' c c' C C' Q)].
    intros b B N. apply D, in_all in B. destruct B as [(c & C & [->| ->])|[(c & C & [->| ->])|(s & _ & ->)]]; cbn in N; try congruence. exists c. auto. }
  assert (E4 : (m_out (b_te r), m_cout (b_te r)) = match find (at_start (b_y r)) others with Some c => (c_id c, c_cut c) | None => ((-1)%Z, 1) end).
  { apply P4; [intros c C; split; [apply KO, C|split; reflexivity]| |intros c c' C C' Q; apply (same_start others A' c c' C C' Q)].
    intros b B N. apply D, in_all in B. destruct B as [(c & C & [->| ->])|[(c & C & [->| ->])|(s & _ & ->)]]; cbn in N; try congruence. exists c. auto. }
  clear P1 P2 P3 P4. unfold raw, mark_of. destruct (b_le r) as [a1 a2 a3 a4], (b_te r) as [b1 b2 b3 b4]. cbn [m_in m_out m_cin m_cout] in *.
  split; repeat match goal with |- context [find ?f ?l] => destruct (find f l) end; repeat match goal with H : (_, _) = _ |- _ => injection H; clear H; intros; subst end; reflexivity.
Qed.
Lemma full_edge l d y : apart l -> edge_at l d y (full l d y).
Proof.
  intro A. unfold full. destruct (find (within y) l) as [c|] eqn:E.
  - apply List.find_some in E. destruct E as [I W]. apply within_iff in W. split; left; exists c; cbn; (split; [exact I|]); (split; [lra|auto]).
  - assert (NW : forall c, In c l -> ~ c_start c < y < c_end c).
    { intros c I W. apply within_iff in W. pose proof (find_none _ _ E c I). congruence. }
    split.
    + unfold raw, mark_of. cbn [m_out m_cout]. destruct (find (at_start y) l) as [c|] eqn:ES.
      * apply List.find_some in ES. destruct ES as [I ES]. apply Reqb_true in ES. destruct (forward l A c I). left. exists c. split; [exact I|]. split; [lra|auto].
      * right. split; [|auto]. intros c I H. destruct (Req_dec (c_start c) y) as [Q|Q]; [|apply (NW c I); lra]. pose proof (find_none _ _ ES c I) as Z. unfold at_start in Z. assert (Reqb (c_start c) y = true) by (apply Reqb_true; exact Q). congruence.
    + unfold raw, mark_of. cbn [m_in m_cin]. destruct (find (at_end y) l) as [c|] eqn:ES.
      * apply List.find_some in ES. destruct ES as [I ES]. apply Reqb_true in ES. destruct (forward l A c I). left. exists c. split; [exact I|]. split; [lra|auto].
      * right. split; [|auto]. intros c I H. destruct (Req_dec (c_end c) y) as [Q|Q]; [|apply (NW c I); lra]. pose proof (find_none _ _ ES c I) as Z. unfold at_end in Z. assert (Reqb (c_end c) y = true) by (apply Reqb_true; exact Q). congruence.
Qed.
Lemma fill_raw l d ys : apart l -> StronglySorted Rlt ys -> (forall c, In c l -> In (c_start c) ys /\ In (c_end c) ys) -> fill (length ys) (map (raw l d) ys) = Ok (map (full l d) ys).
Proof.
  intros A SD H. pose proof (fill_ok l d A ys None SD) as F. rewrite (map_ext (partly None l d) (raw l d)) in F by reflexivity. apply F; clear F.
  - discriminate.
  - discriminate.
  - intros c y I Y W. exfalso. destruct ys as [|z ys]; [discriminate|]. injection Y as ->. inversion SD as [|? ? _ FA]; subst. rewrite Forall_forall in FA. destruct (proj1 (H c I)) as [Q|Q]; [lra|]. specialize (FA _ Q). lra.
  - intros c y I Y W. destruct ys as [|z ys]; [discriminate|]. injection Y as ->. destruct (proj2 (H c I)) as [Q|Q]; [lra|exact Q].
  - intros c y I Y W. destruct ys as [|z ys]; [discriminate|]. injection Y as ->. destruct (proj1 (H c I)) as [Q|Q]; [lra|exact Q].
Qed.
Lemma remark_ok : forall l f g, remark l (map f (map b_y l)) (map g (map b_y l)) = map (fun b => Break (b_y b) (f (b_y b)) (g (b_y b)) (b_shape b)) l.
Proof. induction l as [|b l IH]; intros f g; [reflexivity|]. cbn. rewrite IH. reflexivity. Qed.
Lemma sorted_snoc (l : list R) x : StronglySorted Rlt l -> (forall y, In y l -> y < x) -> StronglySorted Rlt (l ++ [x]).
Proof.
  induction l as [|a l IH]; intros SD H; [repeat constructor|]. inversion SD as [|? ? S1 S2]; subst. cbn [app]. constructor.
  - apply IH; [exact S1|]. intros y Y. apply H. right. exact Y.
  - apply Forall_app. split; [exact S2|]. constructor; [apply H; left; reflexivity|constructor].
Qed.
Lemma desc_rev : forall acc, StronglySorted (fun a b => b_y b < b_y a) acc -> StronglySorted Rlt (map b_y (rev acc)).
Proof.
  induction acc as [|b acc IH]; intros SD; [constructor|]. inversion SD as [|? ? S1 S2]; subst. cbn [rev]. rewrite map_app. cbn [map]. apply sorted_snoc; [apply IH, S1|].
  intros y Y. apply in_map_iff in Y. destruct Y as (x & <- & X). apply in_rev in X. rewrite Forall_forall in S2. apply S2, X.
Qed.
Theorem cut_wing_ok slats others segs : apart slats -> apart others ->
  exists l, cut_wing slats others segs = Ok l /\ StronglySorted Rlt (map b_y l) /\
    (forall y, In y (map b_y l) <-> In y (map fst segs) \/ exists c, In c (slats ++ others) /\ (y = c_start c \/ y = c_end c)) /\
    Forall (fun b => edge_at slats 0 (b_y b) (b_le b) /\ edge_at others 1 (b_y b) (b_te b) /\
      (In (b_y b, b_shape b) segs \/ exists c, In c (slats ++ others) /\ ((b_y b = c_start c /\ b_shape b = c_from c) \/ (b_y b = c_end c /\ b_shape b = c_to c)))) l.
Proof.
  intros A A'. unfold cut_wing.
  destruct (merged (S (length (in_order (breaks_of true slats)) + length (in_order (breaks_of false others)) + length (in_order (map of_segment segs)))) (in_order (breaks_of true slats)) (in_order (breaks_of false others)) (in_order (map of_segment segs)) [] ltac:(lia)
     (in_order_sorted _) (in_order_sorted _) (in_order_sorted _)) as (q & PQ & SQ & ->). cbn [bind].
  assert (MEM : forall b, In b (rev q ++ []) <-> In b (all_breaks slats others segs)).
  { intro b. rewrite app_nil_r, <- in_rev.
    assert (PP : Permutation q (all_breaks slats others segs)) by (rewrite PQ; unfold all_breaks; rewrite !in_order_perm; reflexivity).
    split; apply Permutation_in; [exact PP|symmetry; exact PP]. }
  assert (TQ : Forall tidy q).
  { apply Forall_forall. intros b B. pose proof (all_tidy slats others segs A A') as T. rewrite Forall_forall in T. apply T, MEM. rewrite app_nil_r, <- in_rev. exact B. }
  pose proof (gathered_all q [] [] gathered_none TQ SQ ltac:(intros ? ? [])) as G. set (acc := fold_left add_break q []) in *. clearbody acc.
  pose proof (gathered_raw slats others segs _ acc A A' G MEM) as RW. set (l := rev acc).
  assert (RL : forall b, In b l -> b_le b = raw slats 0 (b_y b) /\ b_te b = raw others 1 (b_y b)) by (intros b B; apply RW, in_rev, B).
  assert (SL : StronglySorted Rlt (map b_y l)) by (apply desc_rev, G).
  assert (YS : forall y, In y (map b_y l) <-> In y (map fst segs) \/ exists c, In c (slats ++ others) /\ (y = c_start c \/ y = c_end c)).
  { intro y. rewrite in_map_iff. split.
    - intros (b & <- & B). apply in_rev in B. destruct (ga_from _ _ G b B) as (x & X & <- & _). apply MEM, in_all in X.
      destruct X as [(c & C & [->| ->])|[(c & C & [->| ->])|(s & S1 & ->)]]; [right; exists c; rewrite in_app_iff; auto ..|left; cbn; apply in_map, S1].
    - intros [H|(c & C & H)].
      + apply in_map_iff in H. destruct H as (s & <- & S1). destruct (ga_all _ _ G (of_segment s)) as (r & R & Q); [apply MEM, in_all; right; right; exists s; auto|]. exists r. split; [exact Q|]. apply in_rev. unfold l. rewrite rev_involutive. exact R.
      + assert (X : exists x, In x (all_breaks slats others segs) /\ b_y x = y).
        { apply in_app_iff in C. destruct C as [C|C], H as [->| ->].
          - exists (begins true c). split; [apply in_all; left; exists c; auto|reflexivity].
          - exists (finishes true c). split; [apply in_all; left; exists c; auto|reflexivity].
          - exists (begins false c). split; [apply in_all; right; left; exists c; auto|reflexivity].
          - exists (finishes false c). split; [apply in_all; right; left; exists c; auto|reflexivity]. }
        destruct X as (x & X & <-). destruct (ga_all _ _ G x) as (r & R & Q); [apply MEM, X|]. exists r. split; [exact Q|]. apply in_rev. unfold l. rewrite rev_involutive. exact R. }
  assert (MS : map b_le l = map (raw slats 0) (map b_y l)) by (rewrite map_map; apply map_ext_in; intros b B; apply RL, B).
  assert (MO : map b_te l = map (raw others 1) (map b_y l)) by (rewrite map_map; apply map_ext_in; intros b B; apply RL, B).
  replace (length l) with (length (map b_y l)) by apply map_length.
  rewrite MS, (fill_raw slats 0 _ A SL); [|intros c C; split; apply YS; right; exists c; rewrite in_app_iff; auto]. cbn [bind].
  rewrite MO, (fill_raw others 1 _ A' SL); [|intros c C; split; apply YS; right; exists c; rewrite in_app_iff; auto]. cbn [bind]. rewrite remark_ok.
  eexists. split; [reflexivity|]. rewrite map_map. cbn [b_y]. change (fun x => b_y x) with b_y. split; [exact SL|]. split; [exact YS|].
  apply Forall_forall. intros b B. apply in_map_iff in B. destruct B as (x & <- & X). cbn [b_y b_le b_te b_shape]. split; [apply full_edge, A|]. split; [apply full_edge, A'|].
  apply in_rev in X. destruct (ga_from _ _ G x X) as (z & Z & <- & <-). apply MEM, in_all in Z.
  destruct Z as [(c & C & [->| ->])|[(c & C & [->| ->])|(s & S1 & ->)]]; [right; exists c; rewrite in_app_iff; cbn; auto 6 ..|left; cbn; destruct s; exact S1].
Qed.
