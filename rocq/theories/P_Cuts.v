(** * Proofs: control surfaces cut out of wings *)
From Coq Require Import Reals List Bool Arith ZArith Lra Lia Sorted Permutation.
From Verif Require Import PyBase M_Opt M_Rot M_Noise M_Evtol M_Field M_Grid M_Cuts S_Grid S_Cuts P_Opt P_Field P_Grid.
Import ListNotations.
Local Open Scope R_scope.

Lemma Reqb_true x y : Reqb x y = true <-> x = y.
Proof. unfold Reqb. destruct (Req_EM_T x y); split; congruence. Qed.
Lemma Reqb_false x y : Reqb x y = false <-> x <> y.
Proof. unfold Reqb. destruct (Req_EM_T x y); split; congruence. Qed.
(** ** parts of a surface *)
Lemma part_in_spec s e a b : s < e -> a < b -> ~ (s = a /\ b < e) ->
  part_in s e a b = if Rlt_dec (Rmax s a) (Rmin e b) then Some (Rmax s a, Rmin e b) else None.
Proof.
  intros SE AB N. unfold part_in, Rmax, Rmin.
  repeat match goal with
  | |- context [Rltb ?x ?y] => let E := fresh in destruct (Rltb x y) eqn:E; [apply Rltb_true in E|apply Rltb_false in E]
  | |- context [Reqb ?x ?y] => let E := fresh in destruct (Reqb x y) eqn:E; [apply Reqb_true in E|apply Reqb_false in E]
  end; cbn [andb]; repeat (destruct (Rle_dec _ _)); destruct (Rlt_dec _ _); try lra; try reflexivity; try (exfalso; apply N; lra); repeat f_equal; lra.
Qed.
Lemma part_lost s e a b : s = a -> b < e -> a < b -> part_in s e a b = None.
Proof.
  intros -> BE AB. unfold part_in.
  repeat match goal with
  | |- context [Rltb ?x ?y] => let E := fresh in destruct (Rltb x y) eqn:E; [apply Rltb_true in E|apply Rltb_false in E]
  | |- context [Reqb ?x ?y] => let E := fresh in destruct (Reqb x y) eqn:E; [apply Reqb_true in E|apply Reqb_false in E]
  end; cbn [andb]; try lra; reflexivity.
Qed.
Definition longs (l : list (nat * (R * R))) : R := total (map (fun p => snd (snd p) - fst (snd p)) l).
Lemma total_app a b : total (a ++ b) = total a + total b.
Proof. unfold total. induction a as [|x a IH]; cbn [app fold_right]; [ring|]. rewrite IH. ring. Qed.
Lemma parts_cons s e i a b r : parts s e i (a :: b :: r) = match part_in s e a b with Some p => [(S i, p)] | None => [] end ++ parts s e (S i) (b :: r).
Proof. reflexivity. Qed.
(** nothing lost from [x] on *)
Lemma parts_long s e : s < e -> forall l i, StronglySorted Rlt l -> l <> [] -> (forall j, (S j < length l)%nat -> ~ (s = nth j l 0 /\ nth (S j) l 0 < e)) -> e <= last l 0 ->
  longs (parts s e i l) = Rmax 0 (e - Rmax s (hd 0 l)).
Proof.
  intros SE. induction l as [|a r IH]; intros i SD N H E; [congruence|]. destruct r as [|b r].
  - cbn in *. unfold longs, total. cbn. rewrite Rmax_left; [reflexivity|]. unfold Rmax. destruct (Rle_dec s a); lra.
  - rewrite parts_cons. unfold longs. rewrite map_app, total_app. fold (longs (parts s e (S i) (b :: r))). inversion SD as [|? ? S1 S2]; subst. inversion S2 as [|? ? AB _]; subst.
    rewrite IH; [|exact S1|discriminate| |exact E].
    2:{ intros j J. apply (H (S j)). cbn in *. lia. }
    rewrite part_in_spec; [|exact SE|exact AB|exact (H 0%nat ltac:(cbn; lia))]. cbn [hd]. destruct (Rlt_dec (Rmax s a) (Rmin e b)) as [L|L]; cbn [map]; unfold total; cbn [fold_right fst snd];
    unfold Rmax, Rmin in *; repeat match goal with |- context [Rle_dec ?x ?y] => destruct (Rle_dec x y) | Q : context [Rle_dec ?x ?y] |- _ => destruct (Rle_dec x y) end; lra.
Qed.
Lemma parts_in s e : s < e -> forall l i k p, StronglySorted Rlt l -> In (k, p) (parts s e i l) -> (forall j, (S j < length l)%nat -> ~ (s = nth j l 0 /\ nth (S j) l 0 < e)) ->
  (i < k < i + length l)%nat /\ fst p < snd p /\ s <= fst p /\ snd p <= e /\ nth (k - i - 1) l 0 <= fst p /\ snd p <= nth (k - i) l 0 /\
  fst p = Rmax s (nth (k - i - 1) l 0) /\ snd p = Rmin e (nth (k - i) l 0).
Proof.
  intros SE. induction l as [|a r IH]; intros i k p SD I H; [contradiction|]. destruct r as [|b r]; [contradiction|]. rewrite parts_cons in I. inversion SD as [|? ? S1 S2]; subst. inversion S2 as [|? ? AB _]; subst.
  apply in_app_or in I. destruct I as [I|I].
  - rewrite part_in_spec in I; [|exact SE|exact AB|exact (H 0%nat ltac:(cbn; lia))]. destruct (Rlt_dec (Rmax s a) (Rmin e b)) as [L|L]; [|contradiction]. destruct I as [I|[]]. injection I as <- <-. cbn [fst snd length].
    replace (S i - i - 1)%nat with 0%nat by lia. replace (S i - i)%nat with 1%nat by lia. cbn [nth]. split; [lia|]. split; [exact L|].
    pose proof (Rmax_l s a). pose proof (Rmax_r s a). pose proof (Rmin_l e b). pose proof (Rmin_r e b). repeat split; try lra.
  - destruct (IH (S i) k p S1 I) as (K & Q); [intros j J; apply (H (S j)); cbn in *; lia|]. cbn [length] in *. split; [lia|].
    replace (k - i - 1)%nat with (S (k - S i - 1)) by lia. replace (k - i)%nat with (S (k - S i)) by lia. cbn [nth] in *. exact Q.
Qed.
(** every place of the surface is in a part *)
Lemma parts_cover s e y : s < e -> s <= y <= e -> forall l i, StronglySorted Rlt l -> l <> [] -> (forall j, (S j < length l)%nat -> ~ (s = nth j l 0 /\ nth (S j) l 0 < e)) ->
  Rmax s (hd 0 l) <= y -> y < last l 0 -> y < e -> exists k p, In (k, p) (parts s e i l) /\ fst p <= y < snd p.
Proof.
  intros SE Y. induction l as [|a r IH]; intros i SD N H B L LE; [congruence|]. destruct r as [|b r].
  - cbn in *. pose proof (Rmax_r s a). lra.
  - inversion SD as [|? ? S1 S2]; subst. inversion S2 as [|? ? AB _]; subst. rewrite parts_cons. destruct (Rlt_dec y b) as [YB|YB].
    + exists (S i), (Rmax s a, Rmin e b). split.
      * apply in_or_app. left. rewrite part_in_spec; [|exact SE|exact AB|exact (H 0%nat ltac:(cbn; lia))]. cbn [hd] in B. destruct (Rlt_dec (Rmax s a) (Rmin e b)) as [Q|Q]; [left; reflexivity|].
        exfalso. apply Q. apply Rle_lt_trans with y; [exact B|]. apply Rmin_glb_lt; assumption.
      * cbn [fst snd hd] in *. split; [exact B|apply Rmin_glb_lt; assumption].
    + destruct (IH (S i) S1) as (k & p & I & P); [discriminate|intros j J; apply (H (S j)); cbn in *; lia| |exact L|exact LE|].
      * cbn [hd]. apply Rmax_lub; lra.
      * exists k, p. split; [apply in_or_app; right; exact I|exact P].
Qed.

(** ** merging *)
Definition ylist (l : list break) : list R := map b_y l.
Lemma place_perm x : forall l, Permutation (place x l) (x :: l).
Proof. induction l as [|y l IH]; cbn [place]; [reflexivity|]. destruct (Rltb _ _); [|reflexivity]. rewrite IH. apply perm_swap. Qed.
Lemma in_order_perm : forall l, Permutation (in_order l) l.
Proof. induction l as [|x l IH]; cbn [in_order]; [reflexivity|]. rewrite place_perm, IH. reflexivity. Qed.
Definition before (a b : break) : Prop := b_y a <= b_y b.
Lemma place_sorted x : forall l, StronglySorted before l -> StronglySorted before (place x l).
Proof.
  induction l as [|y l IH]; intro H; cbn [place]; [repeat constructor|]. inversion H as [|? ? H1 H2]; subst. destruct (Rltb (b_y y) (b_y x)) eqn:E.
  - apply Rltb_true in E. constructor; [apply IH; exact H1|]. rewrite (Permutation_Forall (P := before y) (Permutation_sym (place_perm x l))) || idtac. apply Forall_forall. intros z Z.
    apply (Permutation_in _ (place_perm x l)) in Z. destruct Z as [<-|Z]; [unfold before; lra|]. rewrite Forall_forall in H2. apply H2, Z.
  - apply Rltb_false in E. constructor; [exact H|]. constructor; [unfold before; lra|]. eapply Forall_impl; [|exact H2]. unfold before. intros; lra.
Qed.
Lemma in_order_sorted : forall l, StronglySorted before (in_order l).
Proof. induction l as [|x l IH]; cbn [in_order]; [constructor|]. apply place_sorted, IH. Qed.
Lemma sorted_head b l : StronglySorted before (b :: l) -> forall x, In x (b :: l) -> b_y b <= b_y x.
Proof. intros H x [<-|I]; [lra|]. inversion H as [|? ? _ F]; subst. rewrite Forall_forall in F. apply F, I. Qed.
Lemma merged : forall n le te seg acc, (length le + length te + length seg < n)%nat -> StronglySorted before le -> StronglySorted before te -> StronglySorted before seg ->
  exists q, Permutation q (le ++ te ++ seg) /\ StronglySorted before q /\ merge n le te seg acc = Ok (rev (fold_left add_break q acc)).
Proof.
  induction n as [|n IH]; intros le te seg acc N L T SD; [lia|]. cbn [merge].
  assert (TL : forall x l, StronglySorted before (x :: l) -> StronglySorted before l) by (intros x l H; inversion H; assumption).
  assert (K : forall b l t s acc', StronglySorted before l -> StronglySorted before t -> StronglySorted before s -> (length l + length t + length s < n)%nat ->
    (forall x, In x (l ++ t ++ s) -> b_y b <= b_y x) -> forall whole, Permutation (b :: l ++ t ++ s) whole ->
    exists q, Permutation q whole /\ StronglySorted before q /\ merge n l t s (add_break acc' b) = Ok (rev (fold_left add_break q acc'))).
  { intros b l t s acc' A B C D E whole W. destruct (IH l t s (add_break acc' b) D A B C) as (q & P & Q & M). exists (b :: q). split; [rewrite P; exact W|]. split; [|exact M].
    constructor; [exact Q|]. apply Forall_forall. intros x X. apply E. apply (Permutation_in _ P X). }
  assert (UP : forall b l c, StronglySorted before (c :: l) -> upto (Some (b_y b)) (first_y (c :: l)) = true -> forall x, In x (c :: l) -> b_y b <= b_y x).
  { intros b l c H U x X. cbn in U. apply negb_true_iff, Rltb_false in U. pose proof (sorted_head _ _ H x X). lra. }
  destruct le as [|b le].
  - destruct te as [|b te].
    + destruct seg as [|b seg]; [exists []; repeat split; [reflexivity|constructor]|]. cbn [first_y upto andb].
      apply (K b [] [] seg acc); auto; [eapply TL; exact SD|cbn in *; lia|intros x X; apply (sorted_head _ _ SD); right; exact X].
    + destruct seg as [|c seg].
      * cbn [first_y upto andb]. apply (K b [] te [] acc); auto; [eapply TL; exact T|cbn in *; lia|].
        intros x X. cbn in X. rewrite app_nil_r in X. apply (sorted_head _ _ T); right; exact X.
      * change (upto (first_y []) (first_y (b :: te))) with false. cbn [andb]. change (upto (first_y (b :: te)) (first_y [])) with true. cbn [andb].
        destruct (upto (first_y (b :: te)) (first_y (c :: seg))) eqn:U.
        -- apply (K b [] te (c :: seg) acc); auto; [eapply TL; exact T|cbn in *; lia|]. intros x X. cbn in X. apply in_app_or in X. destruct X as [X|X]; [apply (sorted_head _ _ T); right; exact X|apply (UP b seg c SD U x X)].
        -- change (upto (first_y (c :: seg)) (first_y [])) with true. cbn [andb].
           assert (V : upto (first_y (c :: seg)) (first_y (b :: te)) = true).
           { cbn in *. apply negb_false_iff, Rltb_true in U. apply negb_true_iff, Rltb_false. lra. }
           rewrite V. apply (K c [] (b :: te) seg acc); auto; [eapply TL; exact SD|cbn in *; lia| |].
           ++ intros x X. change ([] ++ (b :: te) ++ seg) with ((b :: te) ++ seg) in X. apply in_app_or in X. destruct X as [X|X]; [apply (UP c te b T V x X)|apply (sorted_head _ _ SD); right; exact X].
           ++ cbn [app]. apply (Permutation_middle (b :: te) seg c).
  - destruct (upto (first_y (b :: le)) (first_y te)) eqn:U1; cbn [andb].
    + destruct (upto (first_y (b :: le)) (first_y seg)) eqn:U2.
      * apply (K b le te seg acc); auto; [eapply TL; exact L|cbn in *; lia|]. intros x X. apply in_app_or in X. destruct X as [X|X]; [apply (sorted_head _ _ L); right; exact X|].
        apply in_app_or in X. destruct X as [X|X]; [destruct te as [|t te]; [contradiction|]; apply (UP b te t T U1 x X)|destruct seg as [|c seg]; [contradiction|]; apply (UP b seg c SD U2 x X)].
      * destruct seg as [|c seg]; [discriminate|].
        assert (V : b_y c < b_y b) by (cbn in U2; apply negb_false_iff, Rltb_true in U2; exact U2).
        assert (W : upto (first_y te) (first_y (c :: seg)) = false \/ upto (first_y te) (first_y (b :: le)) = false).
        { destruct te as [|t te]; [left; reflexivity|]. left. cbn in *. apply negb_true_iff, Rltb_false in U1. apply negb_false_iff, Rltb_true. lra. }
        replace (upto (first_y te) (first_y (b :: le)) && upto (first_y te) (first_y (c :: seg))) with false by (destruct W as [-> | ->]; rewrite ?andb_false_r; reflexivity).
        assert (X1 : upto (first_y (c :: seg)) (first_y (b :: le)) = true) by (cbn; apply negb_true_iff, Rltb_false; lra).
        assert (X2 : upto (first_y (c :: seg)) (first_y te) = true).
        { destruct te as [|t te]; [reflexivity|]. cbn in *. apply negb_true_iff, Rltb_false in U1. apply negb_true_iff, Rltb_false. lra. }
        rewrite X1, X2. cbn [andb]. apply (K c (b :: le) te seg acc); auto; [eapply TL; exact SD|cbn in *; lia| |].
        -- intros x X. apply in_app_or in X. destruct X as [X|X]; [apply (UP c le b L X1 x X)|]. apply in_app_or in X. destruct X as [X|X]; [destruct te as [|t te]; [contradiction|]; apply (UP c te t T X2 x X)|apply (sorted_head _ _ SD); right; exact X].
        -- rewrite !app_assoc. apply Permutation_middle.
    + destruct te as [|t te]; [discriminate|]. assert (V : b_y t < b_y b) by (cbn in U1; apply negb_false_iff, Rltb_true in U1; exact U1).
      assert (X1 : upto (first_y (t :: te)) (first_y (b :: le)) = true) by (cbn; apply negb_true_iff, Rltb_false; lra). rewrite X1. cbn [andb].
      destruct (upto (first_y (t :: te)) (first_y seg)) eqn:U2.
      * apply (K t (b :: le) te seg acc); auto; [eapply TL; exact T|cbn in *; lia| |].
        -- intros x X. apply in_app_or in X. destruct X as [X|X]; [apply (UP t le b L X1 x X)|]. apply in_app_or in X. destruct X as [X|X]; [apply (sorted_head _ _ T); right; exact X|]. destruct seg as [|c seg]; [contradiction|]; apply (UP t seg c SD U2 x X).
        -- change ((b :: le) ++ (t :: te) ++ seg) with ((b :: le) ++ t :: (te ++ seg)). apply Permutation_middle.
      * destruct seg as [|c seg]; [discriminate|]. assert (V2 : b_y c < b_y t) by (cbn in U2; apply negb_false_iff, Rltb_true in U2; exact U2).
        assert (Y1 : upto (first_y (c :: seg)) (first_y (b :: le)) = true) by (cbn; apply negb_true_iff, Rltb_false; lra).
        assert (Y2 : upto (first_y (c :: seg)) (first_y (t :: te)) = true) by (cbn; apply negb_true_iff, Rltb_false; lra). rewrite Y1, Y2. cbn [andb].
        apply (K c (b :: le) (t :: te) seg acc); auto; [eapply TL; exact SD|cbn in *; lia| |].
        -- intros x X. apply in_app_or in X. destruct X as [X|X]; [apply (UP c le b L Y1 x X)|]. apply in_app_or in X. destruct X as [X|X]; [apply (UP c te t T Y2 x X)|apply (sorted_head _ _ SD); right; exact X].
        -- rewrite !app_assoc. apply Permutation_middle.
Qed.
