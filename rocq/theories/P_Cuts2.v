(** * Proofs: span breaks *)
From Coq Require Import Reals List Bool Arith ZArith Lra Lia Sorted Permutation.
From Verif Require Import PyBase M_Opt M_Rot M_Noise M_Evtol M_Field M_Grid M_Cuts S_Grid S_Cuts P_Opt P_Field P_Grid P_Cuts.
Import ListNotations.
Local Open Scope R_scope.

(** the four places of a break for a surface, with the plain cut *)
Definition places : list ((break -> Z * R) * R) :=
  [(fun b => (m_in (b_le b), m_cin (b_le b)), 0); (fun b => (m_out (b_le b), m_cout (b_le b)), 0); (fun b => (m_in (b_te b), m_cin (b_te b)), 1); (fun b => (m_out (b_te b), m_cout (b_te b)), 1)].
Lemma joined_place f d p q : In (f, d) places -> f (joined p q) = if Z.eqb (fst (f p)) (-1) then f q else f p.
Proof.
  intros [H|[H|[H|[H|[]]]]]; injection H as <- _; cbn; match goal with |- context [Z.eqb ?x (-1)] => destruct (Z.eqb x (-1)) end; reflexivity.
Qed.
Definition tidy (b : break) : Prop := forall f d, In (f, d) places -> fst (f b) = (-1)%Z -> snd (f b) = d.
Record gathered (done acc : list break) : Prop := {
  ga_desc : StronglySorted (fun a b => b_y b < b_y a) acc;
  ga_all : forall b, In b done -> exists r, In r acc /\ b_y r = b_y b;
  ga_from : forall r, In r acc -> exists b, In b done /\ b_y b = b_y r /\ b_shape b = b_shape r;
  ga_place : forall f d r, In (f, d) places -> In r acc ->
    (fst (f r) = (-1)%Z /\ snd (f r) = d /\ forall b, In b done -> b_y b = b_y r -> fst (f b) = (-1)%Z) \/
    (fst (f r) <> (-1)%Z /\ exists b, In b done /\ b_y b = b_y r /\ f b = f r) }.
Lemma gathered_step done acc b : gathered done acc -> tidy b -> (forall x, In x done -> b_y x <= b_y b) -> gathered (b :: done) (add_break acc b).
Proof.
  intros G TB L. unfold add_break. destruct acc as [|p r].
  - assert (DN : done = []) by (destruct done as [|x d]; [reflexivity|]; destruct (ga_all _ _ G x) as (? & [] & _); left; reflexivity). subst. split.
    + repeat constructor.
    + intros x [<-|[]]. exists b. split; [left|]; reflexivity.
    + intros x [<-|[]]. exists b. split; [left|]; auto.
    + intros f d x F [<-|[]]. destruct (Z.eq_dec (fst (f b)) (-1)) as [E|E]; [left|right].
      * split; [exact E|]. split; [apply TB; assumption|]. intros y [<-|[]] _. exact E.
      * split; [exact E|]. exists b. split; [left; reflexivity|auto].
  - assert (PB : b_y p <= b_y b) by (destruct (ga_from _ _ G p (or_introl eq_refl)) as (x & X & <- & _); apply L, X).
    destruct (Rltb (b_y p) (b_y b)) eqn:E.
    + apply Rltb_true in E.
      assert (HI : forall x, In x (p :: r) -> b_y x < b_y b).
      { intros x [<-|X]; [exact E|]. pose proof (ga_desc _ _ G) as SD. inversion SD as [|? ? _ F]; subst. rewrite Forall_forall in F. specialize (F x X). lra. }
      split.
      * constructor; [apply G|]. apply Forall_forall. exact HI.
      * intros x [<-|X]; [exists b; split; [left|]; reflexivity|]. destruct (ga_all _ _ G x X) as (y & Y & Q). exists y. split; [right; exact Y|exact Q].
      * intros x [<-|X]; [exists b; split; [left|]; auto|]. destruct (ga_from _ _ G x X) as (y & Y & Q). exists y. split; [right; exact Y|exact Q].
      * intros f d x F [<-|X].
        -- destruct (Z.eq_dec (fst (f b)) (-1)) as [EQ|EQ]; [left|right].
           ++ split; [exact EQ|]. split; [apply TB; assumption|]. intros y [<-|Y] YB; [exact EQ|]. destruct (ga_all _ _ G y Y) as (z & Z & Q). specialize (HI z Z). lra.
           ++ split; [exact EQ|]. exists b. split; [left; reflexivity|auto].
        -- destruct (ga_place _ _ G f d x F X) as [(A & B & C)|(A & y & Y & Q)]; [left|right].
           ++ split; [exact A|]. split; [exact B|]. intros y [<-|Y] YB; [specialize (HI x X); lra|apply C; assumption].
           ++ split; [exact A|]. exists y. split; [right; exact Y|exact Q].
    + apply Rltb_false in E. assert (YB : b_y b = b_y p) by lra.
      split.
      * pose proof (ga_desc _ _ G) as SD. inversion SD as [|? ? S1 F]; subst. constructor; [exact S1|]. eapply Forall_impl; [|exact F]. cbn. intros; assumption.
      * intros x [<-|X]; [exists (joined p b); split; [left; reflexivity|cbn; lra]|]. destruct (ga_all _ _ G x X) as (y & [<-|Y] & Q); [exists (joined p b); split; [left; reflexivity|exact Q]|]. exists y. split; [right; exact Y|exact Q].
      * intros x [<-|X].
        -- destruct (ga_from _ _ G p (or_introl eq_refl)) as (y & Y & Q). exists y. split; [right; exact Y|exact Q].
        -- destruct (ga_from _ _ G x (or_intror X)) as (y & Y & Q). exists y. split; [right; exact Y|exact Q].
      * intros f d x F [<-|X].
        -- rewrite (joined_place f d p b F). change (b_y (joined p b)) with (b_y p). destruct (ga_place _ _ G f d p F (or_introl eq_refl)) as [(A & B & C)|(A & y & Y & Q)].
           ++ rewrite A. cbn [Z.eqb Z.opp]. change (Z.eqb (-1) (-1)) with true. cbv iota. destruct (Z.eq_dec (fst (f b)) (-1)) as [EQ|EQ]; [left|right].
              ** split; [exact EQ|]. split; [apply TB; assumption|]. intros y [<-|Y] YE; [exact EQ|apply C; assumption].
              ** split; [exact EQ|]. exists b. split; [left; reflexivity|auto].
           ++ replace (Z.eqb (fst (f p)) (-1)) with false by (symmetry; apply Z.eqb_neq; exact A). right. split; [exact A|]. exists y. split; [right; exact Y|exact Q].
        -- assert (XL : b_y x < b_y p) by (pose proof (ga_desc _ _ G) as SD; inversion SD as [|? ? _ FF]; subst; rewrite Forall_forall in FF; apply FF, X).
           destruct (ga_place _ _ G f d x F (or_intror X)) as [(A & B & C)|(A & y & Y & Q)]; [left|right].
           ++ split; [exact A|]. split; [exact B|]. intros y [<-|Y] YE; [lra|apply C; assumption].
           ++ split; [exact A|]. exists y. split; [right; exact Y|exact Q].
Qed.
Lemma gathered_all : forall q done acc, gathered done acc -> Forall tidy q -> StronglySorted before q -> (forall x b, In x done -> In b q -> b_y x <= b_y b) ->
  gathered (rev q ++ done) (fold_left add_break q acc).
Proof.
  induction q as [|b q IH]; intros done acc G T SD H; [exact G|]. inversion T as [|? ? T1 T2]; subst. inversion SD as [|? ? S1 S2]; subst. cbn [fold_left rev]. rewrite <- app_assoc. cbn [app].
  apply IH; [apply gathered_step; [exact G|exact T1|]|exact T2|exact S1|].
  - intros x X. apply (H x b X (or_introl eq_refl)).
  - intros x y [<-|X] Y; [rewrite Forall_forall in S2; apply S2, Y|apply (H x y X (or_intror Y))].
Qed.
Lemma gathered_none : gathered [] [].
Proof. split; [constructor|intros ? []|intros ? []|intros ? ? ? _ []]. Qed.

(** ** filling *)
Definition at_start (y : R) (c : piece) : bool := Reqb (c_start c) y.
Definition at_end (y : R) (c : piece) : bool := Reqb (c_end c) y.
Definition within (y : R) (c : piece) : bool := Rltb (c_start c) y && Rltb y (c_end c).
Definition mark_of (d : R) (i o : option piece) : mark :=
  Mark (match i with Some c => c_id c | None => -1 end) (match o with Some c => c_id c | None => -1 end)
       (match i with Some c => c_cut c | None => d end) (match o with Some c => c_cut c | None => d end).
Definition raw (l : list piece) (d y : R) : mark := mark_of d (find (at_end y) l) (find (at_start y) l).
Definition full (l : list piece) (d y : R) : mark := match find (within y) l with Some c => mark_of d (Some c) (Some c) | None => raw l d y end.
Definition partly (a : option piece) (l : list piece) (d y : R) : mark :=
  match a with Some c => if within y c then mark_of d (Some c) (Some c) else raw l d y | None => raw l d y end.
Section FillProof.
Context (l : list piece) (d : R) (A : apart l).
Lemma forward c : In c l -> c_start c < c_end c /\ (0 <= c_id c)%Z.
Proof. intro I. pose proof (ap_forward _ A) as F. rewrite Forall_forall in F. apply F, I. Qed.
Lemma same_piece c c' : In c l -> In c' l -> (exists x, c_start c < x < c_end c /\ c_start c' < x < c_end c') -> c = c'.
Proof.
  intros I J (x & X). destruct (forward c I) as [F _], (forward c' J) as [F' _].
  destruct (Z.eq_dec (c_id c) (c_id c')) as [E|E].
  - pose proof (ap_numbers _ A) as N. clear - I J E N. induction l as [|p r IH]; [contradiction|]. cbn in N. inversion N as [|? ? N1 N2]; subst. destruct I as [<-|I], J as [<-|J]; auto.
    + exfalso. apply N1. rewrite E. apply in_map, J.
    + exfalso. apply N1. rewrite <- E. apply in_map, I.
  - assert (NE : c <> c') by congruence. destruct (ap_disjoint _ A c c' I J NE); lra.
Qed.
Lemma same_number c c' : In c l -> In c' l -> c_id c = c_id c' -> c = c'.
Proof.
  intros I J E. pose proof (ap_numbers _ A) as N. clear - I J E N. induction l as [|p r IH]; [contradiction|]. cbn in N. inversion N as [|? ? N1 N2]; subst. destruct I as [<-|I], J as [<-|J]; auto.
  - exfalso. apply N1. rewrite E. apply in_map, J.
  - exfalso. apply N1. rewrite <- E. apply in_map, I.
Qed.
Lemma same_start c c' : In c l -> In c' l -> c_start c = c_start c' -> c = c'.
Proof.
  intros I J E. destruct (forward c I) as [F _], (forward c' J) as [F' _]. apply same_piece; auto. exists ((c_start c + Rmin (c_end c) (c_end c')) / 2).
  pose proof (Rmin_glb_lt (c_end c) (c_end c') (c_start c) F ltac:(lra)). pose proof (Rmin_l (c_end c) (c_end c')). pose proof (Rmin_r (c_end c) (c_end c')). lra.
Qed.
Lemma same_end c c' : In c l -> In c' l -> c_end c = c_end c' -> c = c'.
Proof.
  intros I J E. destruct (forward c I) as [F _], (forward c' J) as [F' _]. apply same_piece; auto. exists ((c_end c + Rmax (c_start c) (c_start c')) / 2).
  pose proof (Rmax_lub_lt (c_start c) (c_start c') (c_end c) F ltac:(lra)). pose proof (Rmax_l (c_start c) (c_start c')). pose proof (Rmax_r (c_start c) (c_start c')). lra.
Qed.
Lemma within_iff y c : within y c = true <-> c_start c < y < c_end c.
Proof. unfold within. rewrite andb_true_iff, !Rltb_true. reflexivity. Qed.
Lemma find_some (f : piece -> bool) c : In c l -> f c = true -> (forall c', In c' l -> f c' = true -> c' = c) -> find f l = Some c.
Proof.
  intros I F U. destruct (find f l) as [c'|] eqn:E; [f_equal; apply find_some in E; apply U; apply E|]. pose proof (find_none _ _ E c I). congruence.
Qed.
Lemma find_end c : In c l -> find (at_end (c_end c)) l = Some c.
Proof. intro I. apply find_some; [exact I|apply Reqb_true; reflexivity|]. intros c' J E. apply Reqb_true in E. apply same_end; assumption. Qed.
Lemma find_start c : In c l -> find (at_start (c_start c)) l = Some c.
Proof. intro I. apply find_some; [exact I|apply Reqb_true; reflexivity|]. intros c' J E. apply Reqb_true in E. apply same_start; assumption. Qed.
Lemma find_within c y : In c l -> c_start c < y < c_end c -> find (within y) l = Some c.
Proof. intros I Y. apply find_some; [exact I|apply within_iff; exact Y|]. intros c' J E. apply within_iff in E. symmetry. apply same_piece; auto. exists y. auto. Qed.
(** inside a piece no other ends or starts *)
Lemma quiet c y : In c l -> c_start c < y < c_end c -> find (at_end y) l = None /\ find (at_start y) l = None.
Proof.
  intros I Y. split.
  - destruct (find (at_end y) l) as [c'|] eqn:E; [|reflexivity]. apply List.find_some in E. destruct E as [J E]. apply Reqb_true in E. destruct (forward c' J) as [F _].
    exfalso. assert (Q : c = c'). { apply same_piece; auto. exists ((y + Rmax (c_start c) (c_start c')) / 2). pose proof (Rmax_lub_lt (c_start c) (c_start c') y ltac:(lra) ltac:(lra)). pose proof (Rmax_l (c_start c) (c_start c')). pose proof (Rmax_r (c_start c) (c_start c')). lra. } subst c'. lra.
  - destruct (find (at_start y) l) as [c'|] eqn:E; [|reflexivity]. apply List.find_some in E. destruct E as [J E]. apply Reqb_true in E. destruct (forward c' J) as [F _].
    exfalso. assert (Q : c = c'). { apply same_piece; auto. exists ((y + Rmin (c_end c) (c_end c')) / 2). pose proof (Rmin_glb_lt (c_end c) (c_end c') y ltac:(lra) ltac:(lra)). pose proof (Rmin_l (c_end c) (c_end c')). pose proof (Rmin_r (c_end c) (c_end c')). lra. } subst c'. lra.
Qed.
Lemma reach_ok c : In c l -> forall ys, StronglySorted Rlt ys -> Forall (fun y => c_start c < y) ys -> In (c_end c) ys ->
  reach (c_id c) (c_cut c) (map (raw l d) ys) = Ok (map (partly (Some c) l d) ys).
Proof.
  intros I ys. induction ys as [|y ys IH]; intros SD F E; [contradiction|]. inversion SD as [|? ? S1 S2]; subst. inversion F as [|? ? F1 F2]; subst. cbn [map reach].
  destruct (forward c I) as [_ ID]. destruct E as [->|E].
  - unfold raw at 1, mark_of at 1. cbn [m_in]. rewrite find_end by exact I. rewrite Z.eqb_refl. f_equal. cbn [map].
    assert (Q : forall z, c_end c <= z -> partly (Some c) l d z = raw l d z).
    { intros z Z. unfold partly. destruct (within z c) eqn:W; [apply within_iff in W; lra|reflexivity]. }
    rewrite (Q (c_end c)) by lra. f_equal. apply map_ext_in. intros z Z. rewrite Forall_forall in S2. specialize (S2 z Z). symmetry. apply Q. lra.
  - assert (YE : y < c_end c) by (rewrite Forall_forall in S2; apply S2, E). destruct (quiet c y I ltac:(lra)) as [Q1 Q2]. unfold raw at 1, mark_of at 1. cbn [m_in]. rewrite Q1.
    replace (Z.eqb (-1) (c_id c)) with false by (symmetry; apply Z.eqb_neq; lia). change (Z.eqb (-1) (-1)) with true. cbv iota. unfold raw at 1. unfold mark_of at 1. cbn [m_in]. rewrite Q1.
    change (Z.eqb (-1) (-1)) with true. cbv iota. rewrite (IH S1 F2 E). cbn [bind]. f_equal. f_equal. unfold partly. replace (within y c) with true by (symmetry; apply within_iff; lra). reflexivity.
Qed.
Lemma fill_ok : forall ys a, StronglySorted Rlt ys -> (forall c, a = Some c -> In c l) -> (forall c y, a = Some c -> hd_error ys = Some y -> c_start c < y) ->
  (forall c y, In c l -> hd_error ys = Some y -> c_start c < y < c_end c -> a = Some c) ->
  (forall c y, In c l -> hd_error ys = Some y -> y < c_end c -> In (c_end c) (tl ys)) ->
  (forall c y, In c l -> hd_error ys = Some y -> y < c_start c -> In (c_start c) (tl ys)) ->
  fill (length ys) (map (partly a l d) ys) = Ok (map (full l d) ys).
Proof.
  induction ys as [|y ys IH]; intros a SD AL AB IN EN ST; [reflexivity|]. inversion SD as [|? ? S1 S2]; subst. rewrite Forall_forall in S2. cbn [length map fill].
  assert (HEAD : partly a l d y = full l d y).
  { unfold partly, full. destruct (find (within y) l) as [c|] eqn:E.
    - apply List.find_some in E. destruct E as [I W]. rewrite (IN c y I eq_refl (proj1 (within_iff y c) W)). rewrite W. reflexivity.
    - destruct a as [c|]; [|reflexivity]. destruct (within y c) eqn:W; [|reflexivity]. pose proof (find_none _ _ E c (AL c eq_refl)). congruence. }
  assert (NEXT : forall a', (forall c, a' = Some c -> In c l /\ c_start c <= y) -> (forall c, In c l -> c_start c <= y < c_end c -> a' = Some c) ->
    fill (length ys) (map (partly a' l d) ys) = Ok (map (full l d) ys)).
  { intros a' AL' H. apply IH; [exact S1|intros c AC; apply AL', AC| | | |].
    - intros c z AC Z. destruct ys as [|z' ys]; [discriminate|]. injection Z as ->. pose proof (S2 z (or_introl eq_refl)). destruct (AL' c AC). lra.
    - intros c z I Z W. apply H; [exact I|]. destruct ys as [|z' ys]; [discriminate|]. injection Z as ->. pose proof (S2 z (or_introl eq_refl)). split; [|lra].
      destruct (Rle_dec (c_start c) y) as [L|L]; [exact L|]. specialize (ST c y I eq_refl ltac:(lra)). cbn [tl] in ST. inversion S1 as [|? ? _ F]; subst. rewrite Forall_forall in F. destruct ST as [->|ST]; [lra|]. specialize (F _ ST). lra.
    - intros c z I Z W. destruct ys as [|z' ys]; [discriminate|]. injection Z as ->. pose proof (S2 z (or_introl eq_refl)). specialize (EN c y I eq_refl ltac:(lra)). cbn [tl] in *. destruct EN as [EN|EN]; [lra|exact EN].
    - intros c z I Z W. destruct ys as [|z' ys]; [discriminate|]. injection Z as ->. pose proof (S2 z (or_introl eq_refl)). specialize (ST c y I eq_refl ltac:(lra)). cbn [tl] in *. destruct ST as [ST|ST]; [lra|exact ST]. }
  rewrite HEAD. unfold full at 1. destruct (find (within y) l) as [c|] eqn:E.
  - (* inside a piece, already marked *)
    apply List.find_some in E. destruct E as [I W]. pose proof (proj1 (within_iff y c) W) as WI. pose proof (IN c y I eq_refl WI) as AC. destruct (forward c I) as [_ ID].
    cbn [mark_of m_out m_cout]. replace (Z.eqb (c_id c) (-1)) with false by (symmetry; apply Z.eqb_neq; lia).
    assert (R : reach (m_out (full l d y)) (m_cout (full l d y)) (map (partly a l d) ys) = Ok (map (partly a l d) ys)).
    { unfold full. rewrite (find_within c y I WI). cbn [mark_of m_out m_cout]. specialize (EN c y I eq_refl ltac:(lra)). cbn [tl] in EN. destruct ys as [|z ys]; [contradiction|]. cbn [map reach].
      assert (Q : m_in (partly a l d z) = c_id c).
      { rewrite AC. unfold partly. destruct (within z c) eqn:WZ; [reflexivity|]. destruct EN as [->|EN]; [unfold raw, mark_of; cbn [m_in]; rewrite find_end by exact I; reflexivity|].
        inversion S1 as [|? ? _ F]; subst. rewrite Forall_forall in F. specialize (F _ EN). pose proof (S2 z (or_introl eq_refl)). assert (within z c = true) by (apply within_iff; lra). congruence. }
      rewrite Q, Z.eqb_refl. reflexivity. }
    rewrite R. cbn [bind]. rewrite (NEXT a); [reflexivity|intros c' AC'; split; [apply AL, AC'|left; apply (AB c' y AC' eq_refl)]|]. intros c' J H. rewrite AC. f_equal. apply same_piece; auto. destruct (forward c' J) as [F' _].
    exists ((y + Rmin (c_end c) (c_end c')) / 2). pose proof (Rmin_glb_lt (c_end c) (c_end c') y ltac:(lra) ltac:(lra)). pose proof (Rmin_l (c_end c) (c_end c')). pose proof (Rmin_r (c_end c) (c_end c')). lra.
  - assert (NW : forall c, In c l -> ~ c_start c < y < c_end c).
    { intros c I W. apply within_iff in W. pose proof (find_none _ _ E c I). congruence. }
    (* what is marked so far beyond y: nothing *)
    assert (RAW : map (partly a l d) ys = map (raw l d) ys).
    { apply map_ext_in. intros z Z. unfold partly. destruct a as [c|]; [|reflexivity]. destruct (within z c) eqn:W; [|reflexivity]. apply within_iff in W. pose proof (AL c eq_refl) as I. pose proof (NW c I) as NWc. specialize (S2 z Z).
      specialize (AB c y eq_refl eq_refl). lra. }
    rewrite RAW. replace (m_out (raw l d y)) with (match find (at_start y) l with Some c => c_id c | None => (-1)%Z end) by reflexivity. destruct (find (at_start y) l) as [c|] eqn:ES.
    + apply List.find_some in ES. destruct ES as [I ES]. apply Reqb_true in ES. destruct (forward c I) as [FC ID]. replace (Z.eqb (c_id c) (-1)) with false by (symmetry; apply Z.eqb_neq; lia).
      assert (Q1 : m_out (full l d y) = c_id c /\ m_cout (full l d y) = c_cut c).
      { unfold full. rewrite E. unfold raw, mark_of. cbn [m_out m_cout]. rewrite <- ES, (find_start c I). auto. }
      destruct Q1 as [-> ->]. rewrite (reach_ok c I ys S1); [|apply Forall_forall; intros z Z; rewrite ES; apply S2, Z|apply (EN c y I eq_refl); lra]. cbn [bind].
      rewrite (NEXT (Some c)); [reflexivity|intros c' Q; injection Q as <-; split; [exact I|lra]|]. intros c' J H. f_equal. destruct (forward c' J) as [F' _]. apply same_piece; auto.
      exists ((y + Rmin (c_end c) (c_end c')) / 2). pose proof (Rmin_glb_lt (c_end c) (c_end c') y ltac:(lra) ltac:(lra)). pose proof (Rmin_l (c_end c) (c_end c')). pose proof (Rmin_r (c_end c) (c_end c')). lra.
    + change (Z.eqb (-1) (-1)) with true. cbv iota. pose proof (NEXT None) as N. rewrite (map_ext (partly None l d) (raw l d)) in N by reflexivity. rewrite N; [reflexivity|discriminate|].
      intros c I H. exfalso. destruct (Req_dec (c_start c) y) as [Q|Q]; [|apply (NW c I); lra]. pose proof (find_none _ _ ES c I) as Z. unfold at_start in Z. assert (Reqb (c_start c) y = true) by (apply Reqb_true; exact Q). congruence.
Qed.
End FillProof.
