(** * Proofs about configurations *)
From Coq Require Import String List Bool Permutation.
From Verif Require Import PyBase M_Data S_Data P_Dict P_Data M_Diffed S_Diffed.
Import ListNotations.
Local Open Scope list_scope.

Section Diffed.
  Context {A : Type}.
  Notation tree := (tree A).
  Notation data := (dict tree).
  Variable none : A.
  Variable same : tree -> tree -> bool.
  Variable set_order : list string -> list string.
  Hypothesis Hord : enumerates set_order.
  Hypothesis Hsame : detects same.
  Notation diff := (diff none same set_order).
  Local Arguments update_by : simpl never.
  Local Arguments wf : simpl never.
  Local Ltac wfd := match goal with E : dget ?k ?d = Some ?v |- wf ?v => apply (wf_dget k v d); [assumption|exact E] end.

  Lemma In_union k a b : In k (key_union a b) <-> In k a \/ In k b.
  Proof.
    unfold key_union. rewrite in_app_iff, filter_In. split; [tauto|].
    intros [H|H]; [tauto|]. destruct (existsb (String.eqb k) a) eqn:E.
    - apply existsb_exists in E as (x & Hx & E). apply String.eqb_eq in E. subst; tauto.
    - right. auto.
  Qed.
  Lemma NoDup_app_disj {X} (a b : list X) : NoDup a -> NoDup b -> (forall x, In x a -> ~ In x b) -> NoDup (a ++ b).
  Proof.
    intros Ha Hb. induction Ha as [|x a Hx Ha IH]; simpl; intros H; [exact Hb|].
    constructor.
    - rewrite in_app_iff. intros [H1|H1]; [auto|]. apply (H x); auto.
    - apply IH. intros y Hy. apply H; auto.
  Qed.
  Lemma NoDup_union a b : NoDup a -> NoDup b -> NoDup (key_union a b).
  Proof.
    intros Ha Hb. apply NoDup_app_disj; [exact Ha|apply NoDup_filter; exact Hb|].
    intros x Hx Hf. apply filter_In in Hf as [_ Hf]. apply negb_true_iff in Hf.
    assert (existsb (String.eqb x) a = true); [|congruence].
    apply existsb_exists. exists x. split; [exact Hx|apply String.eqb_refl].
  Qed.

  Lemma collect_keys (f : string -> option tree) ks k : In k (dkeys (collect f ks)) -> In k ks.
  Proof.
    induction ks as [|x ks IH]; simpl; [tauto|]. unfold dkeys in *. rewrite map_app, in_app_iff.
    intros [H|H]; [|auto]. destruct (f x); simpl in H; [tauto|contradiction].
  Qed.
  Lemma collect_lookup (f : string -> option tree) ks k : NoDup ks ->
    dget k (collect f ks) = if existsb (String.eqb k) ks then f k else None.
  Proof.
    induction 1 as [|x ks Hx Hnd IH]; simpl; [reflexivity|].
    rewrite dget_app, IH. destruct (String.eqb_spec k x) as [->|Hne]; simpl.
    - destruct (f x); simpl; [rewrite String.eqb_refl; reflexivity|].
      destruct (existsb (String.eqb x) ks); reflexivity.
    - destruct (f x); simpl; [|reflexivity]. destruct (String.eqb_spec k x); [congruence|reflexivity].
  Qed.
  Lemma NoDup_collect (f : string -> option tree) ks : NoDup ks -> NoDup (dkeys (collect f ks)).
  Proof.
    induction 1 as [|x ks Hx Hnd IH]; simpl; [constructor|].
    destruct (f x); simpl; [|exact IH]. constructor; [|exact IH].
    intro H. apply collect_keys in H. auto.
  Qed.

  (** the rows computed inside [diff] *)
  Definition row (b : data) (k : string) (va : tree) : option tree :=
    match va, get_none none k b with
    | Node _, Node sb => match diff va sb with [] => None | sd => Some (Node sd) end
    | _, vb => leaf_entry same va vb
    end.
  Fixpoint rows (da b : data) : dict (option tree) :=
    match da with [] => [] | (k, va) :: r => (k, row b k va) :: rows r b end.
  Lemma diff_Node (da b : data) :
    diff (Node da) b =
    collect (fun k => match dget k (rows da b) with
                      | Some e => e
                      | None => leaf_entry same (Leaf none) (get_none none k b)
                      end) (set_order (key_union (dkeys da) (dkeys b))).
  Proof.
    cbn [M_Diffed.diff]. f_equal.
    match goal with |- (fun k => match dget k ?X with _ => _ end) = _ => replace X with (rows da b); [reflexivity|] end.
    induction da as [|[k va] r IH]; [reflexivity|]. cbn [rows]. rewrite IH. reflexivity.
  Qed.
  Local Arguments M_Diffed.diff : simpl never.
  Lemma dget_rows (da b : data) k : dget k (rows da b) = option_map (row b k) (dget k da).
  Proof.
    induction da as [|[k0 v0] r IH]; [reflexivity|]. cbn [rows dget].
    destruct (String.eqb_spec k k0) as [->|]; [reflexivity|exact IH].
  Qed.

  Lemma diff_lookup (da b : data) k : NoDup (dkeys da) -> NoDup (dkeys b) ->
    dget k (diff (Node da) b) =
    match dget k da with
    | Some va => row b k va
    | None => match dget k b with
              | Some vb => leaf_entry same (Leaf none) vb
              | None => None
              end
    end.
  Proof.
    intros Ha Hb. rewrite diff_Node.
    pose proof (NoDup_union _ _ Ha Hb) as Hu. pose proof (Hord _ Hu) as Hp.
    rewrite collect_lookup by (eapply Permutation_NoDup; eauto).
    rewrite dget_rows.
    destruct (existsb (String.eqb k) (set_order (key_union (dkeys da) (dkeys b)))) eqn:E.
    - destruct (dget k da) as [va|] eqn:Ea; [reflexivity|]. simpl. unfold get_none.
      destruct (dget k b) as [vb|] eqn:Eb; [reflexivity|].
      apply existsb_exists in E as (x & Hx & E). apply String.eqb_eq in E. subst x.
      apply (Permutation_in _ (Permutation_sym Hp)) in Hx. apply In_union in Hx.
      apply dget_None_iff in Ea, Eb. tauto.
    - assert (Hn : ~ In k (key_union (dkeys da) (dkeys b))).
      { intro H. apply (Permutation_in _ Hp) in H.
        assert (existsb (String.eqb k) (set_order (key_union (dkeys da) (dkeys b))) = true); [|congruence].
        apply existsb_exists. exists k. split; [exact H|apply String.eqb_refl]. }
      rewrite In_union in Hn.
      rewrite (proj2 (dget_None_iff k da)) by tauto. rewrite (proj2 (dget_None_iff k b)) by tauto. reflexivity.
  Qed.
  Lemma NoDup_diff (da b : data) : NoDup (dkeys da) -> NoDup (dkeys b) -> NoDup (dkeys (diff (Node da) b)).
  Proof.
    intros Ha Hb. rewrite diff_Node. apply NoDup_collect.
    eapply Permutation_NoDup; [apply Hord|]; apply NoDup_union; auto.
  Qed.
  Lemma diff_keys (da b : data) k : NoDup (dkeys da) -> NoDup (dkeys b) ->
    In k (dkeys (diff (Node da) b)) -> In k (dkeys da) \/ In k (dkeys b).
  Proof.
    intros Ha Hb H. rewrite diff_Node in H. apply collect_keys in H. apply In_union.
    eapply Permutation_in; [apply Permutation_sym; apply Hord; apply NoDup_union|]; eauto.
  Qed.

  Lemma wf_diff (a : tree) : wf a -> forall b : data, wf (Node b) -> wf (Node (diff a b)).
  Proof.
    induction a as [x|l IH|da IH] using tree_ind'; intros Ha b Hb.
    - apply wf_Node. split; constructor.
    - apply wf_Node. split; constructor.
    - pose proof Ha as Ha0. pose proof Hb as Hb0. apply wf_Node in Ha as [Na Fa]. apply wf_Node in Hb as [Nb Fb].
      apply wf_Node. split; [apply NoDup_diff; auto|].
      apply Forall_forall. intros [k v] Hin. simpl.
      apply In_dget in Hin; [|apply NoDup_diff; auto].
      rewrite diff_lookup in Hin by auto.
      assert (Hle : forall va vb w, wf va -> leaf_entry same va vb = Some w -> wf w).
      { intros va vb w Hw. unfold leaf_entry. destruct va, vb; try destruct (same _ _); intros H; inversion H; subst; auto. }
      destruct (dget k da) as [va|] eqn:Ea.
      + assert (Hva : wf va) by (wfd).
        unfold row in Hin. destruct va as [x|l|sa]; try (eapply Hle; eauto; fail).
        unfold get_none in Hin. destruct (dget k b) as [[x|l|sb]|] eqn:Eb; try (eapply Hle; eauto; fail).
        rewrite Forall_forall in IH. specialize (IH (k, Node sa)). simpl in IH.
        assert (Hw : wf (Node (diff (Node sa) sb))).
        { apply IH; [apply dget_Some_In; exact Ea|exact Hva|eapply wf_dget; [exact Hb0|exact Eb]]. }
        destruct (diff (Node sa) sb) eqn:Ed; inversion Hin; subst. exact Hw.
      + destruct (dget k b) as [vb|]; [|discriminate]. apply (Hle (Leaf none) vb); [exact I|exact Hin].
  Qed.

  Lemma no_removal_sub (a b : data) k sa sb : no_removal a b -> private k = false ->
    dget k a = Some (Node sa) -> dget k b = Some (Node sb) -> no_removal sa sb.
  Proof.
    intros H Hk Ea Eb p y Hp Hy.
    destruct (H (k :: p) y) as (x & Hx & Hn).
    - unfold public_path in *. simpl. rewrite Hk. exact Hp.
    - cbn [at_path]. rewrite Eb. exact Hy.
    - cbn [at_path] in Hx. rewrite Ea in Hx. eauto.
  Qed.
  Lemma no_removal_key (a b : data) k vb : no_removal a b -> private k = false ->
    dget k b = Some vb -> exists va, dget k a = Some va /\ is_node va = is_node vb.
  Proof.
    intros H Hk Eb. destruct (H [k] vb) as (x & Hx & Hn).
    - unfold public_path. simpl. rewrite Hk. reflexivity.
    - simpl. rewrite Eb. reflexivity.
    - simpl in Hx. destruct (dget k a) as [va|]; [|discriminate]. inversion Hx; subst. eauto.
  Qed.

  Lemma filter_none {X} (f : X -> bool) l : (forall x, In x l -> f x = false) -> filter f l = [].
  Proof.
    induction l as [|x l IH]; simpl; intros H; [reflexivity|].
    rewrite (H x) by auto. apply IH; auto.
  Qed.

  Lemma restore (t : tree) : wf t -> forall b : data, wf (Node b) ->
    match t with
    | Node a => no_removal a b -> update_by (Node (diff (Node a) b)) (update_by (Node b) a) = a
    | _ => True
    end.
  Proof.
    induction t as [x|l IH|a IH] using tree_ind'; intros Ha b Hb; auto. intros Hnr.
    pose proof Ha as Ha0. pose proof Hb as Hb0. apply wf_Node in Ha as [Na Fa]. apply wf_Node in Hb as [Nb Fb].
    assert (Nd : NoDup (dkeys (diff (Node a) b))) by (apply NoDup_diff; auto).
    assert (Ku : dkeys (update_by (Node b) a) = dkeys a).
    { rewrite update_keys by exact Nb. rewrite filter_none; [apply app_nil_r|].
      intros k Hk. destruct (private k) eqn:Ep; [reflexivity|]. simpl. apply negb_false_iff.
      apply dhas_true_iff in Hk. unfold dhas in Hk. destruct (dget k b) as [vb|] eqn:Eb; [|discriminate].
      destruct (no_removal_key a b k vb Hnr Ep Eb) as (va & Ea & _).
      apply dhas_true_iff. eapply dget_Some_key; eauto. }
    assert (Kr : dkeys (update_by (Node (diff (Node a) b)) (update_by (Node b) a)) = dkeys a).
    { rewrite update_keys by exact Nd. rewrite Ku, filter_none; [apply app_nil_r|].
      intros k Hk. destruct (private k) eqn:Ep; [reflexivity|]. simpl. apply negb_false_iff.
      apply dhas_true_iff. rewrite Ku. apply diff_keys in Hk; auto. destruct Hk as [Hk|Hk]; [exact Hk|].
      apply dhas_true_iff in Hk. unfold dhas in Hk. destruct (dget k b) as [vb|] eqn:Eb; [|discriminate].
      destruct (no_removal_key a b k vb Hnr Ep Eb) as (va & Ea & _). eapply dget_Some_key; eauto. }
    apply dict_ext; [rewrite Kr; exact Na|exact Kr|]. intros k.
    rewrite update_lookup by exact Nd. rewrite update_lookup by exact Nb.
    destruct (private k) eqn:Ep; [reflexivity|].
    rewrite diff_lookup by auto.
    destruct (dget k a) as [va|] eqn:Ea.
    - assert (Hwa : wf va) by (wfd).
      unfold row, get_none. destruct (dget k b) as [vb|] eqn:Eb.
      + destruct (no_removal_key a b k vb Hnr Ep Eb) as (va' & Ea' & Hn).
        rewrite Ea in Ea'. inversion Ea'; subst va'.
        destruct va as [x|l|sa].
        * destruct vb as [y|l'|sb]; try discriminate; unfold leaf_entry.
          -- destruct (same (Leaf x) (Leaf y)) eqn:Es; [|reflexivity]. apply Hsame in Es; auto. rewrite Es. reflexivity.
          -- destruct (same (Leaf x) (Seq l')) eqn:Es; [|reflexivity]. apply Hsame in Es; auto. rewrite Es. reflexivity.
        * destruct vb as [y|l'|sb]; try discriminate; unfold leaf_entry.
          -- destruct (same (Seq l) (Leaf y)) eqn:Es; [|reflexivity]. apply Hsame in Es; auto. rewrite Es. reflexivity.
          -- destruct (same (Seq l) (Seq l')) eqn:Es; [|reflexivity]. apply Hsame in Es; auto. rewrite Es. reflexivity.
        * destruct vb as [y|l'|sb]; try discriminate. cbn [merge_val].
          rewrite Forall_forall in IH.
          pose proof (IH (k, Node sa) (dget_Some_In _ _ _ Ea) Hwa sb) as R. simpl in R.
          specialize (R (wf_dget k _ b Hb0 Eb) (no_removal_sub a b k sa sb Hnr Ep Ea Eb)).
          destruct (diff (Node sa) sb) as [|e sd] eqn:Ed.
          -- f_equal. f_equal. rewrite <- R at 2. reflexivity.
          -- cbn [merge_val]. rewrite R. reflexivity.
      + destruct va as [x|l|sa].
        * unfold leaf_entry. destruct (same (Leaf x) (Leaf none)); reflexivity.
        * unfold leaf_entry. destruct (same (Seq l) (Leaf none)); reflexivity.
        * unfold leaf_entry. cbn [merge_val]. pose proof (update_self (Node sa) Hwa) as U. simpl in U.
          rewrite U. reflexivity.
    - destruct (dget k b) as [vb|] eqn:Eb; [|reflexivity].
      destruct (no_removal_key a b k vb Hnr Ep Eb) as (va' & Ea' & _). congruence.
  Qed.

  (** *** paths through the stored differences *)
  Lemma diff_path_override p : p <> [] -> forall (a b : data) x,
    wf (Node a) -> wf (Node b) ->
    at_path (Node a) p = Some x -> is_node x = false ->
    match at_path (Node b) p with
    | None => same x (Leaf none) = false
    | Some y => is_node y = true \/ same x y = false
    end ->
    at_path (Node (diff (Node a) b)) p = Some x.
  Proof.
    induction p as [|k r IH]; [congruence|]. intros _ a b x Ha Hb Hx Hn Hc.
    pose proof (proj1 (proj1 (wf_Node a) Ha)) as Na. pose proof (proj1 (proj1 (wf_Node b) Hb)) as Nb.
    cbn [at_path] in *. rewrite diff_lookup by auto.
    destruct (dget k a) as [va|] eqn:Ea; [|discriminate].
    destruct r as [|k2 r].
    - cbn [at_path] in *. inversion Hx; subst va. unfold row, get_none.
      assert (L : leaf_entry same x (match dget k b with Some v => v | None => Leaf none end) = Some x).
      { destruct (dget k b) as [y|]; unfold leaf_entry.
        - destruct Hc as [Hc|Hc]; destruct x, y; try discriminate; try rewrite Hc; try reflexivity.
        - destruct x; try discriminate; rewrite Hc; reflexivity. }
      destruct x as [x|l|d]; [| |discriminate]; rewrite L; reflexivity.
    - destruct va as [x0|l0|sa]; try discriminate.
      unfold row, get_none. destruct (dget k b) as [[y|l'|sb]|] eqn:Eb;
        try (unfold leaf_entry; exact Hx).
      assert (P : at_path (Node (diff (Node sa) sb)) (k2 :: r) = Some x).
      { apply IH; auto; [discriminate| |]; wfd. }
      destruct (diff (Node sa) sb) eqn:Ed; [discriminate P|exact P].
  Qed.

  (** along a path on which both are Data, the differences are Data or nothing *)
  Lemma diff_path_node p : forall (a b sa sb : data),
    wf (Node a) -> wf (Node b) ->
    at_path (Node a) p = Some (Node sa) -> at_path (Node b) p = Some (Node sb) ->
    (at_path (Node (diff (Node a) b)) p = Some (Node (diff (Node sa) sb)) \/
     diff (Node sa) sb = [] /\ at_path (Node (diff (Node a) b)) p = None) /\
    (forall q y, is_prefix q p = true -> at_path (Node (diff (Node a) b)) q = Some y -> is_node y = true).
  Proof.
    induction p as [|k r IH]; intros a b sa sb Ha Hb Pa Pb.
    - cbn [at_path] in *. inversion Pa; inversion Pb; subst. split; [left; reflexivity|].
      intros q y Hq. destruct q; [|discriminate]. simpl. intros H; inversion H; reflexivity.
    - pose proof (proj1 (proj1 (wf_Node a) Ha)) as Na. pose proof (proj1 (proj1 (wf_Node b) Hb)) as Nb.
      cbn [at_path] in Pa, Pb.
      destruct (dget k a) as [va|] eqn:Ea; [|discriminate]. destruct (dget k b) as [vb|] eqn:Eb; [|discriminate].
      assert (exists a1, va = Node a1) as [a1 ->].
      { destruct va; eauto; destruct r; simpl in Pa; congruence. }
      assert (exists b1, vb = Node b1) as [b1 ->].
      { destruct vb; eauto; destruct r; simpl in Pb; congruence. }
      destruct (IH a1 b1 sa sb) as [H1 H2]; auto; try (wfd; fail).
      assert (L : dget k (diff (Node a) b) = match diff (Node a1) b1 with [] => None | sd => Some (Node sd) end).
      { rewrite diff_lookup by auto. rewrite Ea. unfold row, get_none. rewrite Eb. reflexivity. }
      split.
      + cbn [at_path]. rewrite L. destruct (diff (Node a1) b1) as [|e sd] eqn:Ed; [|exact H1].
        right. split; [|reflexivity]. destruct H1 as [H1|[H1 _]]; [|exact H1].
        destruct r as [|k2 r]; simpl in H1; [inversion H1; reflexivity|discriminate].
      + intros q y Hq Hy. destruct q as [|k' q]; [inversion Hy; reflexivity|].
        simpl in Hq. apply andb_true_iff in Hq as [Hk Hq]. apply String.eqb_eq in Hk. subst k'.
        cbn [at_path] in Hy. rewrite L in Hy. destruct (diff (Node a1) b1) as [|e sd] eqn:Ed; [discriminate|].
        apply (H2 q y); auto.
  Qed.

  Lemma prefix_snoc (q p : list string) k : is_prefix q (p ++ [k]) = true -> is_prefix q p = true \/ q = p ++ [k].
  Proof.
    revert q. induction p as [|x p IH]; intros q H; simpl in *.
    - destruct q as [|y q]; [auto|]. simpl in H. apply andb_true_iff in H as [H1 H2].
      apply String.eqb_eq in H1. destruct q; [subst; auto|discriminate].
    - destruct q as [|y q]; [auto|]. simpl in *. apply andb_true_iff in H as [H1 H2]. rewrite H1. simpl.
      apply String.eqb_eq in H1. subst. destruct (IH q H2) as [H| ->]; auto.
  Qed.
  Lemma at_path_snoc (t : tree) p k : at_path t (p ++ [k]) =
    match at_path t p with Some (Node d) => dget k d | _ => None end.
  Proof.
    revert t. induction p as [|x p IH]; intros t; simpl.
    - destruct t; auto. destruct (dget k d); reflexivity.
    - destruct t; auto. destruct (dget x d); [apply IH|reflexivity].
  Qed.

  (** the entry of the differences at the end of such a path *)
  Lemma diff_path_last p k (a b sa sb : data) :
    wf (Node a) -> wf (Node b) ->
    at_path (Node a) p = Some (Node sa) -> at_path (Node b) p = Some (Node sb) ->
    at_path (Node (diff (Node a) b)) (p ++ [k]) = dget k (diff (Node sa) sb).
  Proof.
    intros Ha Hb Pa Pb. destruct (diff_path_node p a b sa sb Ha Hb Pa Pb) as [[H|[H1 H2]] _].
    - rewrite at_path_snoc, H. reflexivity.
    - rewrite at_path_snoc, H1, H2. reflexivity.
  Qed.

  Lemma wf_at_path p : forall (t x : tree), wf t -> at_path t p = Some x -> wf x.
  Proof.
    induction p as [|k p IH]; intros t x Ht H; simpl in H; [inversion H; subst; exact Ht|].
    destruct t as [| |d]; try discriminate. destruct (dget k d) as [v|] eqn:E; [|discriminate].
    eapply IH; [|exact H]. wfd.
  Qed.

  (** *** the configuration after the base was edited *)
  Section Pull.
    Variables (self base base2 : data).
    Hypotheses (Hs : wf (Node self)) (Hb : wf (Node base)) (Hb2 : wf (Node base2)).
    Let pulled := update_by (Node (diff (Node self) base)) (update_by (Node base2) self).

    Lemma pulled_override p x : public_path p -> p <> [] ->
      at_path (Node self) p = Some x -> is_node x = false ->
      match at_path (Node base) p with
      | None => same x (Leaf none) = false
      | Some y => is_node y = true \/ same x y = false
      end ->
      at_path (Node pulled) p = Some x.
    Proof.
      intros Hp Hne Hx Hn Hc. unfold pulled.
      apply update_path_override; auto.
      - apply wf_diff; auto.
      - apply diff_path_override; auto.
    Qed.

    Lemma pulled_base p k sa sb v : public_path (p ++ [k]) ->
      at_path (Node self) p = Some (Node sa) -> at_path (Node base) p = Some (Node sb) ->
      dget k (diff (Node sa) sb) = None ->
      at_path (Node base2) (p ++ [k]) = Some v -> is_node v = false ->
      at_path (Node pulled) (p ++ [k]) = Some v.
    Proof.
      intros Hp Pa Pb Hd Hv Hn. unfold pulled.
      pose proof (diff_path_last p k self base sa sb Hs Hb Pa Pb) as HL. rewrite Hd in HL.
      apply update_path_frame; auto.
      - apply wf_diff; auto.
      - apply update_path_override; auto.
      - intros q y Hq Hy. apply prefix_snoc in Hq as [Hq| ->]; [|congruence].
        destruct (diff_path_node p self base sa sb Hs Hb Pa Pb) as [_ H]. eapply H; eauto.
    Qed.

    Lemma pulled_agree p k x y v : public_path (p ++ [k]) ->
      at_path (Node self) (p ++ [k]) = Some x -> at_path (Node base) (p ++ [k]) = Some y ->
      is_node x = false -> is_node y = false -> same x y = true ->
      at_path (Node base2) (p ++ [k]) = Some v -> is_node v = false ->
      at_path (Node pulled) (p ++ [k]) = Some v.
    Proof.
      intros Hp Px Py Nx Ny Hxy Hv Nv. rewrite at_path_snoc in Px, Py.
      destruct (at_path (Node self) p) as [[| |sa]|] eqn:Pa; try discriminate.
      destruct (at_path (Node base) p) as [[| |sb]|] eqn:Pb; try discriminate.
      apply (pulled_base p k sa sb v); auto.
      assert (NoDup (dkeys sa)) by (apply wf_at_path in Pa; [apply wf_Node in Pa; tauto|exact Hs]).
      assert (NoDup (dkeys sb)) by (apply wf_at_path in Pb; [apply wf_Node in Pb; tauto|exact Hb]).
      rewrite diff_lookup by auto. rewrite Px. unfold row, get_none. rewrite Py.
      assert (L : leaf_entry same x y = None).
      { unfold leaf_entry. destruct x, y; try discriminate; rewrite Hxy; reflexivity. }
      destruct x; try discriminate; exact L.
    Qed.
    Lemma pulled_new p k sa sb v : public_path (p ++ [k]) ->
      at_path (Node self) p = Some (Node sa) -> at_path (Node base) p = Some (Node sb) ->
      dget k sa = None -> dget k sb = None ->
      at_path (Node base2) (p ++ [k]) = Some v -> is_node v = false ->
      at_path (Node pulled) (p ++ [k]) = Some v.
    Proof.
      intros Hp Pa Pb Ea Eb Hv Nv. apply (pulled_base p k sa sb v); auto.
      assert (NoDup (dkeys sa)) by (apply wf_at_path in Pa; [apply wf_Node in Pa; tauto|exact Hs]).
      assert (NoDup (dkeys sb)) by (apply wf_at_path in Pb; [apply wf_Node in Pb; tauto|exact Hb]).
      rewrite diff_lookup by auto. rewrite Ea, Eb. reflexivity.
    Qed.
    Lemma pulled_deleted p k sa sb vb : public_path (p ++ [k]) ->
      at_path (Node self) p = Some (Node sa) -> at_path (Node base) p = Some (Node sb) ->
      dget k sa = None -> dget k sb = Some vb ->
      is_node vb = true \/ same (Leaf none) vb = false ->
      at_path (Node pulled) (p ++ [k]) = Some (Leaf none).
    Proof.
      intros Hp Pa Pb Ea Eb Hv. unfold pulled. apply update_path_override; auto.
      - apply wf_diff; auto.
      - rewrite (diff_path_last p k self base sa sb Hs Hb Pa Pb).
        assert (NoDup (dkeys sa)) by (apply wf_at_path in Pa; [apply wf_Node in Pa; tauto|exact Hs]).
        assert (NoDup (dkeys sb)) by (apply wf_at_path in Pb; [apply wf_Node in Pb; tauto|exact Hb]).
        rewrite diff_lookup by auto. rewrite Ea, Eb. unfold leaf_entry.
        destruct Hv as [Hv|Hv]; destruct vb; try discriminate; try rewrite Hv; reflexivity.
    Qed.
  End Pull.

  (** *** chains of configurations *)
  Notation stored := (stored none same set_order).
  Lemma stored_wf c : stored c -> wf (Node (content c)).
  Proof. destruct 1; auto. Qed.
  Lemma chain_stable c : stored c -> pull_base c = c.
  Proof.
    induction 1 as [d Hd|self base dif Hs Hb IH Hn Hd]; [reflexivity|].
    cbn [store_diff] in Hd. inversion Hd; subst dif.
    cbn [pull_base]. rewrite IH. f_equal.
    exact (restore (Node self) Hs (content base) (stored_wf base Hb) Hn).
  Qed.
End Diffed.
