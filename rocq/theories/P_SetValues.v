(** * Proofs about set_values and get_values *)
From Coq Require Import String Ascii List Bool Arith Lia.
From Verif Require Import PyBase M_Data S_Data P_Dict P_Data P_Append M_SetValues S_SetValues.
Import ListNotations.
Local Open Scope string_scope.
Local Open Scope list_scope.

Lemma has_no_char c s : has_char c s = false <-> no_char c s = true.
Proof.
  induction s as [|x s IH]; simpl; [tauto|].
  rewrite orb_false_iff, andb_true_iff, negb_true_iff, IH. reflexivity.
Qed.
Lemma has_char_app c a b : has_char c (a ++ b)%string = has_char c a || has_char c b.
Proof. induction a as [|x a IH]; simpl; [reflexivity|]. rewrite IH, orb_assoc. reflexivity. Qed.
Lemma join_cons2 c a b r : join_with c (a :: b :: r) = (a ++ String c (join_with c (b :: r)))%string.
Proof. reflexivity. Qed.
Lemma join_app c (a b : list string) : a <> [] -> b <> [] ->
  join_with c (a ++ b) = (join_with c a ++ String c (join_with c b))%string.
Proof.
  intros Ha Hb. induction a as [|x a IH]; [congruence|]. destruct a as [|y a].
  - destruct b as [|z b]; [congruence|]. reflexivity.
  - change ((x :: y :: a) ++ b) with (x :: y :: (a ++ b)). rewrite !join_cons2.
    change (y :: a ++ b) with ((y :: a) ++ b). rewrite IH by discriminate.
    generalize (join_with c (y :: a)). intros s. clear.
    induction x as [|ch x IHx]; simpl; [reflexivity|]. f_equal. exact IHx.
Qed.
Lemma split_join' (l : list string) : l <> [] -> Forall (fun k => has_char "." k = false) l ->
  split_on "." (join_with "." l) = l.
Proof.
  intros Hne H. apply split_join; [exact Hne|]. apply forallb_forall. intros x Hx.
  rewrite Forall_forall in H. apply has_no_char. auto.
Qed.
Lemma join_no_star (l : list string) : Forall (fun k => has_char "*" k = false) l ->
  has_char "*" (join_with "." l) = false.
Proof.
  induction 1 as [|x l Hx Hl IH]; [reflexivity|]. destruct l as [|y l]; [exact Hx|].
  rewrite join_cons2, has_char_app, Hx. exact IH.
Qed.
Lemma join_star (l : list string) : In "*" l -> has_char "*" (join_with "." l) = true.
Proof.
  induction l as [|x l IH]; intros H; [destruct H|]. destruct l as [|y l].
  - destruct H as [->|[]]. reflexivity.
  - rewrite join_cons2, has_char_app. apply orb_true_iff. destruct H as [->|H]; [left; reflexivity|].
    right. exact (IH H).
Qed.
Lemma good_dot (l : list string) : Forall good_name l -> Forall (fun k => has_char "." k = false) l.
Proof. apply Forall_impl. intros k H. apply H. Qed.
Lemma good_star (l : list string) : Forall good_name l -> Forall (fun k => has_char "*" k = false) l.
Proof. apply Forall_impl. intros k H. apply H. Qed.

Section SetValues.
  Context {A : Type}.
  Notation tree := (tree A).

  Lemma attr_path_at (t : tree) p x : at_path t p = Some x -> attr_path t p = Ok x.
  Proof.
    revert t. induction p as [|k p IH]; intros t H; simpl in *; [inversion H; reflexivity|].
    destruct t as [| |d]; try discriminate. destruct (dget k d); [auto|discriminate].
  Qed.

  Lemma star_scan_free (d : tree) parts : Forall (fun k => has_char "*" k = false) parts ->
    forall done acc, star_scan d parts done (Ok acc) = Ok acc.
  Proof.
    induction 1 as [|p parts Hp Hl IH]; intros done acc; [reflexivity|].
    cbn [star_scan bind]. rewrite Hp. apply IH.
  Qed.
  Lemma star_scan_pre (d : tree) pre rest : Forall (fun k => has_char "*" k = false) pre ->
    forall done acc, star_scan d (pre ++ rest) done (Ok acc) = star_scan d rest (done ++ pre) (Ok acc).
  Proof.
    induction 1 as [|p parts Hp Hl IH]; intros done acc; cbn [app]; [rewrite app_nil_r; reflexivity|].
    cbn [star_scan bind]. rewrite Hp, IH, <- app_assoc. reflexivity.
  Qed.

  Lemma find_star_spec (t : tree) pre post d : pre <> [] -> post <> [] ->
    Forall good_name pre -> Forall good_name post -> at_path t pre = Some (Node d) ->
    find_a_star t (render (Each pre post)) = Ok (map (fun k => join_with "." (pre ++ k :: post)) (dkeys d)).
  Proof.
    intros Hpre Hpost Gpre Gpost Hat. unfold find_a_star. cbn [render].
    assert (Hs : split_on "." (join_with "." (pre ++ "*" :: post)) = pre ++ "*" :: post).
    { apply split_join'; [destruct pre; discriminate|]. apply Forall_app. split; [apply good_dot; exact Gpre|].
      constructor; [reflexivity|apply good_dot; exact Gpost]. }
    rewrite Hs. rewrite (star_scan_pre t pre ("*" :: post) (good_star _ Gpre) [] None).
    cbn [app star_scan bind]. replace (has_char "*" "*") with true by reflexivity.
    destruct pre as [|p0 pre'] eqn:Epre; [congruence|]. rewrite <- Epre in *.
    assert (Hno : existsb (has_char "*") pre = false).
    { pose proof (good_star _ Gpre) as G. clear -G. induction G as [|x l Hx _ IH]; [reflexivity|]. simpl. rewrite Hx. exact IH. }
    rewrite Hno, (attr_path_at t pre (Node d) Hat). cbn [bind].
    rewrite (star_scan_free t post (good_star _ Gpost)). cbn [bind].
    f_equal. apply map_ext. intros k.
    rewrite firstn_app, firstn_all, Nat.sub_diag. cbn [firstn]. rewrite app_nil_r.
    replace (skipn (S (List.length pre)) (pre ++ "*" :: post)) with post.
    2:{ clear. induction pre as [|x pre IH]; [reflexivity|]. cbn [List.length app skipn]. exact IH. }
    rewrite (join_app "." pre (k :: post)) by (subst; discriminate).
    destruct post as [|q post]; [congruence|]. rewrite join_cons2. reflexivity.
  Qed.

  (** one dotted name at a time *)
  Fixpoint write_all (t : tree) (ps : list (list string)) (v : tree) : result tree :=
    match ps with
    | [] => Ok t
    | p :: r => bind (deep_set t p v) (fun t' => write_all t' r v)
    end.
  Lemma set_each_paths (ps : list (list string)) v :
    Forall (fun p => p <> [] /\ Forall (fun k => has_char "." k = false) p) ps ->
    forall t : tree, set_each t (map (join_with ".") ps) v = write_all t ps v.
  Proof.
    induction 1 as [|p ps [Hne Hp] _ IH]; intros t; [reflexivity|].
    cbn [map set_each write_all]. unfold deep_set_str.
    rewrite (split_join' p Hne Hp). rewrite (split_join' p Hne Hp).
    destruct (deep_set t p v); [apply IH|reflexivity].
  Qed.
  Lemma set_one_spec (t : tree) pl v : good_place pl -> resolves t pl ->
    set_one t (render pl) v = write_all t (targets t pl) v.
  Proof.
    intros Hg Hr. unfold set_one. destruct pl as [p|pre post].
    - destruct Hg as [Hne Hg]. cbn [render targets]. rewrite join_no_star by (apply good_star; exact Hg).
      apply (set_each_paths [p]). constructor; [split; [exact Hne|apply good_dot; exact Hg]|constructor].
    - destruct Hg as (H1 & H2 & G1 & G2). destruct Hr as (d & Hd & Hk).
      assert (Hs : has_char "*" (render (Each pre post)) = true).
      { apply join_star. apply in_or_app. right. left. reflexivity. }
      rewrite Hs, (find_star_spec t pre post d H1 H2 G1 G2 Hd). cbn [bind targets]. rewrite Hd.
      rewrite <- (map_map (fun k => pre ++ k :: post) (join_with ".")).
      apply set_each_paths. apply Forall_forall. intros p Hp. apply in_map_iff in Hp as (k & <- & Hin).
      split; [destruct pre; discriminate|]. apply Forall_app. split; [apply good_dot; exact G1|].
      constructor; [rewrite Forall_forall in Hk; auto|apply good_dot; exact G2].
  Qed.

  (** ** writes to places that hold a value keep the skeleton *)
  Definition skeleton (t t' : tree) : Prop := forall q,
    match at_path t q, at_path t' q with
    | Some (Node a), Some (Node b) => dkeys a = dkeys b
    | Some x, Some y => is_node x = false /\ is_node y = false
    | None, None => True
    | _, _ => False
    end.
  Lemma skeleton_refl t : skeleton t t.
  Proof. intros q. destruct (at_path t q) as [[| |]|]; simpl; auto. Qed.
  Lemma skeleton_trans a b c : skeleton a b -> skeleton b c -> skeleton a c.
  Proof.
    intros H1 H2 q. specialize (H1 q). specialize (H2 q).
    destruct (at_path a q) as [[| |]|], (at_path b q) as [[| |]|], (at_path c q) as [[| |]|]; simpl in *; try tauto; try congruence;
      destruct H1; destruct H2; try discriminate; auto.
  Qed.
  Lemma skeleton_holds t t' p : skeleton t t' -> holds_value t p -> holds_value t' p.
  Proof.
    intros H (x & Hx & Hn). specialize (H p). rewrite Hx in H. unfold holds_value.
    destruct x as [| |]; try discriminate; destruct (at_path t' p) as [[| |]|]; try tauto; try (destruct H; discriminate);
      eexists; split; try reflexivity.
  Qed.
  Lemma skeleton_targets t t' pl : skeleton t t' -> targets t' pl = targets t pl.
  Proof.
    intros H. destruct pl as [p|pre post]; [reflexivity|]. simpl. specialize (H pre).
    destruct (at_path t pre) as [[| |]|], (at_path t' pre) as [[| |]|]; try tauto; try reflexivity;
      try (destruct H; discriminate). rewrite H. reflexivity.
  Qed.
  Lemma skeleton_resolves t t' pl : skeleton t t' -> resolves t pl -> resolves t' pl.
  Proof.
    intros H Hr. destruct pl as [p|pre post]; [exact I|]. destruct Hr as (d & Hd & Hk). specialize (H pre). rewrite Hd in H.
    unfold resolves. destruct (at_path t' pre) as [[| |d']|]; try tauto; try (destruct H; discriminate).
    exists d'. rewrite <- H. auto.
  Qed.

  Lemma deep_set_skeleton ks k (v : tree) : plain_key k = true -> is_node v = false -> forall t,
    holds_value t (ks ++ [k]) -> exists t', deep_set t (ks ++ [k]) v = Ok t' /\ skeleton t t'.
  Proof.
    intros Hk Hv. induction ks as [|k0 r IH]; intros t (x & Hx & Hn).
    - cbn [app at_path] in Hx. destruct t as [| |d]; try discriminate.
      destruct (dget k d) as [y|] eqn:Ed; [|discriminate]. inversion Hx; subst y.
      exists (Node (dset k v d)). split.
      + cbn [app deep_set]. unfold set_last. unfold plain_key in Hk. destruct (last_char k) as [c|]; [|discriminate].
        apply negb_true_iff in Hk. rewrite Hk. reflexivity.
      + intros q. destruct q as [|k1 q].
        * cbn [at_path]. symmetry. apply dkeys_dset_in. apply (dget_Some_key k x); exact Ed.
        * cbn [at_path]. destruct (string_dec k1 k) as [->|Hne].
          -- rewrite Ed, dget_dset_eq. destruct q as [|k2 q].
             ++ cbn [at_path]. destruct x; try discriminate; destruct v; try discriminate; auto.
             ++ cbn [at_path]. destruct x; try discriminate; destruct v; try discriminate; auto.
          -- rewrite dget_dset_ne by exact Hne. destruct (dget k1 d) as [y|]; [|exact I].
             destruct (at_path y q) as [[| |]|]; simpl; auto.
    - change ((k0 :: r) ++ [k]) with (k0 :: (r ++ [k])) in Hx. cbn [at_path] in Hx.
      destruct t as [| |d]; try discriminate. destruct (dget k0 d) as [sub|] eqn:Ed; [|discriminate].
      destruct (IH sub) as (sub' & Es & Hs); [exists x; auto|].
      exists (Node (dset k0 sub' d)). split.
      + rewrite deep_set_app. unfold getitem. rewrite Ed. cbn [bind]. rewrite Es. reflexivity.
      + intros q. destruct q as [|k1 q].
        * cbn [at_path]. symmetry. apply dkeys_dset_in. apply (dget_Some_key k0 sub); exact Ed.
        * cbn [at_path]. destruct (string_dec k1 k0) as [->|Hne].
          -- rewrite Ed, dget_dset_eq. apply Hs.
          -- rewrite dget_dset_ne by exact Hne. destruct (dget k1 d) as [y|]; [|exact I].
             destruct (at_path y q) as [[| |]|]; simpl; auto.
  Qed.

  Lemma at_path_app (t : tree) p q : at_path t (p ++ q) = match at_path t p with Some x => at_path x q | None => None end.
  Proof.
    revert t. induction p as [|k p IH]; intros t; cbn [app at_path]; [reflexivity|].
    destruct t as [| |d]; try reflexivity. destruct (dget k d); [apply IH|reflexivity].
  Qed.
  Lemma is_prefix_app p q : is_prefix p q = true -> exists r, q = p ++ r.
  Proof.
    revert q. induction p as [|a p IH]; intros q H; [exists q; reflexivity|].
    destruct q as [|b q]; [discriminate|]. cbn [is_prefix] in H. apply andb_prop in H as [H1 H2].
    apply String.eqb_eq in H1. subst b. destruct (IH q H2) as [r ->]. exists r. reflexivity.
  Qed.
  (** two places that hold values do not contain each other *)
  Lemma holds_unrelated (t : tree) p q : holds_value t p -> holds_value t q -> p <> q -> is_prefix p q = false.
  Proof.
    intros (x & Hx & Nx) (y & Hy & Ny) Hne. destruct (is_prefix p q) eqn:E; [|reflexivity].
    apply is_prefix_app in E as [r ->]. rewrite at_path_app, Hx in Hy.
    destruct r as [|k r]; [rewrite app_nil_r in Hne; congruence|]. cbn [at_path] in Hy.
    destruct x; try discriminate.
  Qed.

  Definition plain_path (p : list string) : Prop := exists ks k, p = ks ++ [k] /\ plain_key k = true.
  Definition free_of (q : list string) (p : list string) : Prop := is_prefix q p = false /\ is_prefix p q = false.

  (** a sequence of assignments *)
  Fixpoint assign (t : tree) (W : list (list string * tree)) : result tree :=
    match W with
    | [] => Ok t
    | (p, v) :: r => bind (deep_set t p v) (fun t' => assign t' r)
    end.
  Lemma assign_app t W1 W2 : assign t (W1 ++ W2) = bind (assign t W1) (fun t' => assign t' W2).
  Proof.
    revert t. induction W1 as [|[p v] W IH]; intros t; cbn [app assign bind]; [reflexivity|].
    destruct (deep_set t p v); [apply IH|reflexivity].
  Qed.
  Lemma write_all_assign t ps v : write_all t ps v = assign t (map (fun p => (p, v)) ps).
  Proof.
    revert t. induction ps as [|p ps IH]; intros t; [reflexivity|]. cbn [write_all map assign].
    destruct (deep_set t p v); [apply IH|reflexivity].
  Qed.

  Lemma assign_spec (W : list (list string * tree)) : forall t,
    Forall (fun pv => plain_path (fst pv) /\ holds_value t (fst pv) /\ is_node (snd pv) = false) W ->
    exists t', assign t W = Ok t' /\ skeleton t t' /\
      (forall p v, In (p, v) W -> (forall v', In (p, v') W -> v' = v) -> at_path t' p = Some v) /\
      (forall q, (forall p v, In (p, v) W -> free_of q p) -> at_path t' q = at_path t q) /\
      (forall p, holds_value t p -> ~ In p (map fst W) -> at_path t' p = at_path t p).
  Proof.
    induction W as [|[p v] W IH]; intros t H.
    - exists t. split; [reflexivity|]. split; [apply skeleton_refl|]. split; [intros p v []|]. auto.
    - inversion H as [|? ? [Hp [Hh Hv]] H']; subst. cbn [fst snd] in *.
      destruct Hp as (ks & k & -> & Hk).
      destruct (deep_set_skeleton ks k v Hk Hv t Hh) as (t1 & E1 & S1).
      destruct (IH t1) as (t2 & E2 & S2 & G1 & G2 & G3).
      { eapply Forall_impl; [|exact H']. intros [p' v'] (Q1 & Q2 & Q3). cbn [fst snd] in *.
        repeat split; auto. eapply skeleton_holds; eauto. }
      pose proof (deep_set_get ks k t t1 v Hk E1) as Hget.
      exists t2. split; [cbn [assign]; rewrite E1; exact E2|]. split; [eapply skeleton_trans; eauto|].
      split; [|split].
      + intros p' v' Hin Hf. destruct (in_dec (list_eq_dec string_dec) p' (map fst W)) as [Hw|Hw].
        * apply in_map_iff in Hw as ([p2 v2] & Ep & Hin2). cbn [fst] in Ep. subst p2.
          assert (v2 = v') by (apply Hf; right; exact Hin2). subst v2.
          apply G1; [exact Hin2|]. intros w Hw2. apply Hf. right. exact Hw2.
        * destruct Hin as [Hin|Hin]; [|exfalso; apply Hw; apply (in_map fst) in Hin; exact Hin].
          inversion Hin; subst. rewrite G3; [exact Hget| |exact Hw].
          exists v'. split; [exact Hget|exact Hv].
      + intros q Hq. rewrite G2.
        * destruct (Hq (ks ++ [k]) v (or_introl eq_refl)) as [F1 F2].
          eapply deep_set_frame; eauto.
        * intros p' v' Hin. apply (Hq p' v'). right. exact Hin.
      + intros p' Hp' Hn. cbn [map In fst] in Hn.
        assert (Hd : p' <> ks ++ [k]) by (intros ->; apply Hn; left; reflexivity).
        assert (E : at_path t1 p' = at_path t p').
        { eapply deep_set_frame; [exact Hk|exact E1| |].
          - apply (holds_unrelated t); auto.
          - apply (holds_unrelated t); auto. }
        rewrite G3; [exact E| |intros Hi; apply Hn; right; exact Hi].
        destruct Hp' as (x & Hx & Hnx). exists x. rewrite E. auto.
  Qed.

  Lemma all_targets_skeleton t t' pls : skeleton t t' -> all_targets t' pls = all_targets t pls.
  Proof.
    intros H. unfold all_targets. induction pls as [|pl pls IH]; cbn [flat_map]; [reflexivity|].
    rewrite (skeleton_targets t t' pl H), IH. reflexivity.
  Qed.
  Lemma set_many_spec (pls : list place) v : forall t,
    Forall good_place pls -> Forall (resolves t) pls -> is_node v = false ->
    Forall (fun p => plain_path p /\ holds_value t p) (all_targets t pls) ->
    set_many t (map render pls) v = assign t (map (fun p => (p, v)) (all_targets t pls)).
  Proof.
    induction pls as [|pl pls IH]; intros t Hg Hr Hv Hh; [reflexivity|].
    inversion Hg as [|? ? Hg1 Hg2]; subst. inversion Hr as [|? ? Hr1 Hr2]; subst.
    unfold all_targets in *. cbn [flat_map] in *. apply Forall_app in Hh as [Hh1 Hh2].
    cbn [map set_many]. rewrite map_app, assign_app, (set_one_spec t pl v Hg1 Hr1), write_all_assign.
    destruct (assign_spec (map (fun p => (p, v)) (targets t pl)) t) as (t1 & E1 & S1 & _).
    { apply Forall_forall. intros [p w] Hin. apply in_map_iff in Hin as (p' & Ep & Hin). inversion Ep; subst.
      cbn [fst snd]. rewrite Forall_forall in Hh1. destruct (Hh1 p Hin). auto. }
    rewrite E1. cbn [bind]. fold (all_targets t pls) in *.
    rewrite <- (all_targets_skeleton t t1 pls S1). apply IH; auto.
    - eapply Forall_impl; [|exact Hr2]. intros pl'. apply skeleton_resolves; exact S1.
    - fold (all_targets t1 pls). rewrite (all_targets_skeleton t t1 pls S1). eapply Forall_impl; [|exact Hh2].
      intros p [Q1 Q2]. split; [exact Q1|]. eapply skeleton_holds; eauto.
  Qed.

  Lemma set_pointers_spec (ps : list pointer) (plss : list (list place)) : Forall2 points_to ps plss ->
    forall vals t, List.length vals = List.length ps ->
    Forall (Forall good_place) plss -> Forall (Forall (resolves t)) plss ->
    Forall (fun v => is_node v = false) vals ->
    Forall (fun pv => plain_path (fst pv) /\ holds_value t (fst pv)) (assignments t plss vals) ->
    set_pointers t ps vals = assign t (assignments t plss vals).
  Proof.
    induction 1 as [|p pls ps plss Hp Hps IH]; intros vals t Hl Hg Hr Hv Hh.
    - reflexivity.
    - destruct vals as [|v vals]; [discriminate|]. inversion Hg as [|? ? Hg1 Hg2]; subst.
      inversion Hr as [|? ? Hr1 Hr2]; subst. inversion Hv as [|? ? Hv1 Hv2]; subst.
      unfold assignments in *. cbn [combine flat_map] in *. apply Forall_app in Hh as [Hh1 Hh2].
      assert (Hh1' : Forall (fun p => plain_path p /\ holds_value t p) (all_targets t pls)).
      { apply Forall_forall. intros q Hq. rewrite Forall_forall in Hh1.
        apply (Hh1 (q, v)). apply in_map_iff. exists q. auto. }
      assert (E : match p with PStr s => set_one t s v | PList l => set_many t l v end =
                  assign t (map (fun p => (p, v)) (all_targets t pls))).
      { destruct p as [s|l]; cbn [points_to] in Hp.
        - destruct Hp as (pl & -> & ->). rewrite <- (set_many_spec [pl] v t Hg1 Hr1 Hv1 Hh1').
          cbn [map set_many]. destruct (set_one t (render pl) v); reflexivity.
        - subst l. apply set_many_spec; auto. }
      cbn [set_pointers]. rewrite E, assign_app.
      destruct (assign_spec (map (fun p => (p, v)) (all_targets t pls)) t) as (t1 & E1 & S1 & _).
      { apply Forall_forall. intros [q w] Hin. apply in_map_iff in Hin as (p' & Ep & Hin). inversion Ep; subst.
        cbn [fst snd]. rewrite Forall_forall in Hh1'. destruct (Hh1' q Hin). auto. }
      rewrite E1. cbn [bind].
      assert (EA : flat_map (fun '(pl, v) => map (fun p => (p, v)) (all_targets t pl)) (combine plss vals)
                 = flat_map (fun '(pl, v) => map (fun p => (p, v)) (all_targets t1 pl)) (combine plss vals)).
      { clear -S1. generalize (combine plss vals). intros l. induction l as [|[pl w] l IHl]; [reflexivity|].
        cbn [flat_map]. rewrite (all_targets_skeleton t t1 pl S1), IHl. reflexivity. }
      rewrite EA. apply IH; auto.
      + eapply Forall_impl; [|exact Hr2]. intros pl'. apply Forall_impl. intros pl2. apply skeleton_resolves; exact S1.
      + rewrite <- EA. eapply Forall_impl; [|exact Hh2].
        intros q [Q1 Q2]. split; [exact Q1|]. eapply skeleton_holds; eauto.
  Qed.

  Lemma pointers_of_one names aliases ps : one_alias names aliases ps -> pointers_of names aliases = ps.
  Proof.
    induction 1 as [|n p names ps Hp Hps IH]; [reflexivity|]. unfold pointers_of in *. cbn [flat_map].
    rewrite Hp. cbn [map snd app]. f_equal. exact IH.
  Qed.

  Lemma good_targets (t : tree) pl p : good_place pl -> In p (targets t pl) -> plain_path p.
  Proof.
    intros Hg Hin. destruct pl as [q|pre post].
    - destruct Hg as [Hne Hg]. destruct Hin as [<-|[]].
      destruct (exists_last Hne) as (ks & k & E). exists ks, k. split; [exact E|].
      rewrite Forall_forall in Hg. apply (Hg k). rewrite E. apply in_or_app. right. left. reflexivity.
    - destruct Hg as (H1 & H2 & G1 & G2). simpl in Hin. destruct (at_path t pre) as [[| |d]|]; try destruct Hin.
      apply in_map_iff in Hin as (k & <- & _). destruct (exists_last H2) as (ks & k' & E).
      exists (pre ++ k :: ks), k'. split; [rewrite <- app_assoc; cbn [app]; rewrite E; reflexivity|].
      rewrite Forall_forall in G2. apply (G2 k'). rewrite E. apply in_or_app. right. left. reflexivity.
  Qed.

  Lemma set_values_spec (t : tree) names vals aliases ps plss :
    one_alias names aliases ps -> Forall2 points_to ps plss -> List.length vals = List.length names ->
    Forall (Forall good_place) plss -> Forall (Forall (resolves t)) plss ->
    Forall (fun v => is_node v = false) vals ->
    Forall (fun pv => holds_value t (fst pv)) (assignments t plss vals) ->
    exists t', set_values t names vals aliases = Ok t' /\
      (forall p v, In (p, v) (assignments t plss vals) ->
         (forall v', In (p, v') (assignments t plss vals) -> v' = v) -> at_path t' p = Some v) /\
      (forall q, (forall p v, In (p, v) (assignments t plss vals) ->
         is_prefix q p = false /\ is_prefix p q = false) -> at_path t' q = at_path t q).
  Proof.
    intros H1 H2 Hl Hg Hr Hv Hh.
    assert (Hl' : List.length vals = List.length ps).
    { rewrite Hl. clear -H1. induction H1; simpl; congruence. }
    assert (Hin : forall p v, In (p, v) (assignments t plss vals) ->
              exists pls, In (pls, v) (combine plss vals) /\ In p (all_targets t pls)).
    { intros p v Hin. unfold assignments in Hin. apply in_flat_map in Hin as ([pls w] & Hc & Hin).
      apply in_map_iff in Hin as (p' & Ep & Hin). inversion Ep; subst. eauto. }
    assert (Hh' : Forall (fun pv => plain_path (fst pv) /\ holds_value t (fst pv)) (assignments t plss vals)).
    { apply Forall_forall. intros [p v] Hpv. cbn [fst]. rewrite Forall_forall in Hh. split; [|apply (Hh _ Hpv)].
      destruct (Hin p v Hpv) as (pls & Hc & Ht). apply in_combine_l in Hc.
      unfold all_targets in Ht. apply in_flat_map in Ht as (pl & Hpl & Ht).
      rewrite Forall_forall in Hg. pose proof (Hg pls Hc) as Hg'. rewrite Forall_forall in Hg'.
      eapply good_targets; eauto. }
    unfold set_values. rewrite (pointers_of_one names aliases ps H1).
    rewrite (set_pointers_spec ps plss H2 vals t Hl' Hg Hr Hv Hh').
    destruct (assign_spec (assignments t plss vals) t) as (t' & E & _ & G1 & G2 & _).
    - apply Forall_forall. intros [p v] Hpv. cbn [fst snd]. rewrite Forall_forall in Hh'.
      destruct (Hh' _ Hpv) as [Q1 Q2]. cbn [fst] in *. repeat split; auto.
      destruct (Hin p v Hpv) as (pls & Hc & _). apply in_combine_r in Hc. rewrite Forall_forall in Hv. auto.
    - exists t'. split; [exact E|]. split; [exact G1|]. intros q Hq. apply G2. intros p v Hpv. exact (Hq p v Hpv).
  Qed.

  (** reading *)
  Lemma get_each_spec (t : tree) (paths : list (list string)) vs :
    Forall (fun p => p <> [] /\ Forall good_name p) paths ->
    Forall2 (fun p v => at_path t p = Some v) paths vs ->
    get_each t (List.length paths) (map (fun p => PStr (render (Here p))) paths) = Ok vs.
  Proof.
    intros Hg H. revert Hg. induction H as [|p v paths vs Hp _ IH]; intros Hg; [reflexivity|].
    inversion Hg as [|? ? [Hne Hgp] Hg']; subst. cbn [List.length map get_each]. change (render (Here p)) with (join_with "." p).
    rewrite join_no_star by (apply good_star; exact Hgp). rewrite split_join' by (try exact Hne; apply good_dot; exact Hgp).
    rewrite (attr_path_at t p v Hp). cbn [bind]. rewrite IH by exact Hg'. reflexivity.
  Qed.
  Lemma get_values_spec (t : tree) names aliases paths vs :
    one_alias names aliases (map (fun p => PStr (render (Here p))) paths) ->
    Forall (fun p => p <> [] /\ Forall good_name p) paths ->
    Forall2 (fun p v => at_path t p = Some v) paths vs ->
    get_values t names aliases = Ok vs.
  Proof.
    intros H1 H2 H3. unfold get_values. rewrite (pointers_of_one names aliases _ H1).
    assert (L : List.length names = List.length paths).
    { clear -H1. remember (map (fun p => PStr (render (Here p))) paths) as ps eqn:E.
      revert paths E. induction H1; intros paths E; destruct paths; try discriminate; [reflexivity|].
      inversion E; subst. simpl. f_equal. auto. }
    rewrite L. apply get_each_spec; auto.
  Qed.
End SetValues.
