(** * Proofs about Data.update, append, deep_get/deep_set *)
From Coq Require Import String Ascii List Bool Arith ZArith Lia.
From Verif Require Import PyBase M_Data S_Data P_Dict.
Import ListNotations.
Local Open Scope string_scope.
Local Open Scope list_scope.

Section Tree.
  Context {A : Type}.
  Notation tree := (tree A).
  Notation data := (dict tree).

  Lemma tree_ind' (P : tree -> Prop) :
    (forall a, P (Leaf a)) ->
    (forall l, Forall P l -> P (Seq l)) ->
    (forall d, Forall (fun kv => P (snd kv)) d -> P (Node d)) ->
    forall t, P t.
  Proof.
    intros HL HS HN. fix IH 1. intros [a|l|d].
    - apply HL.
    - apply HS. induction l as [|x r IHl]; constructor; [apply IH|exact IHl].
    - apply HN. induction d as [|[k x] r IHd]; constructor; [apply IH|exact IHd].
  Qed.

  Lemma wf_Node (d : data) : wf (Node d) <-> NoDup (dkeys d) /\ Forall (fun kv => wf (snd kv)) d.
  Proof.
    simpl. unfold dkeys. split; intros [H1 H2]; (split; [exact H1|]).
    - clear H1. induction d as [|[k x] r IH]; [constructor|].
      destruct H2 as [Hx Hr]. constructor; [exact Hx|exact (IH Hr)].
    - clear H1. induction d as [|[k x] r IH]; simpl; [exact I|].
      inversion H2; subst. split; [assumption|apply IH; assumption].
  Qed.
  Local Arguments wf : simpl never.
  Lemma wf_dget k v (d : data) : wf (Node d) -> dget k d = Some v -> wf v.
  Proof.
    intros H Hg. apply wf_Node in H as [_ H]. apply dget_Some_In in Hg.
    rewrite Forall_forall in H. apply (H _ Hg).
  Qed.
  Lemma wf_dset k v (d : data) : wf (Node d) -> wf v -> wf (Node (dset k v d)).
  Proof.
    intros H Hv. apply wf_Node in H as [H1 H2]. apply wf_Node. split.
    - apply NoDup_dset; auto.
    - clear H1. induction d as [|[k' v'] r IH]; simpl.
      + constructor; auto.
      + inversion H2; subst. destruct (String.eqb k k'); constructor; auto.
  Qed.

  Definition upd_step (self : data) (kv : string * tree) : data :=
    let '(k, v) := kv in
    if private k then self
    else match dget k self, v with
         | Some (Node sub), Node _ => dset k (Node (update_by v sub)) self
         | _, _ => dset k v self
         end.

  Lemma update_by_fold (items : data) (self : data) :
    update_by (Node items) self = fold_left upd_step items self.
  Proof.
    simpl. revert self. induction items as [|[k v] r IH]; intros self; simpl; [reflexivity|].
    rewrite IH. reflexivity.
  Qed.

  Local Arguments update_by : simpl never.
  Definition merge_val (old : option tree) (new : tree) : tree :=
    match old, new with
    | Some (Node sub), Node _ => Node (update_by new sub)
    | _, _ => new
    end.

  Lemma upd_step_eq self k v :
    upd_step self (k, v) = if private k then self else dset k (merge_val (dget k self) v) self.
  Proof.
    unfold upd_step, merge_val. destruct (private k); [reflexivity|].
    destruct (dget k self) as [[a|l|d]|]; try reflexivity. destruct v; reflexivity.
  Qed.

  Lemma fold_upd_not_in k (items self : data) :
    ~ In k (dkeys items) -> dget k (fold_left upd_step items self) = dget k self.
  Proof.
    revert self. induction items as [|[k0 v0] r IH]; intros self Hk; [reflexivity|].
    cbn [fold_left]. rewrite IH by (simpl in Hk; tauto).
    rewrite upd_step_eq. destruct (private k0); [reflexivity|].
    apply dget_dset_ne. simpl in Hk. intros ->; tauto.
  Qed.

  Lemma update_lookup (a b : data) k : NoDup (dkeys b) ->
    dget k (update_by (Node b) a) =
      if private k then dget k a
      else match dget k b with
           | None => dget k a
           | Some v => Some (merge_val (dget k a) v)
           end.
  Proof.
    rewrite update_by_fold. revert a. induction b as [|[k0 v0] r IH]; intros a Hnd.
    - simpl. destruct (private k); reflexivity.
    - simpl in Hnd. inversion Hnd; subst. cbn [fold_left].
      destruct (String.eqb_spec k k0) as [->|Hne].
      + rewrite fold_upd_not_in by exact H1. rewrite upd_step_eq. simpl.
        rewrite String.eqb_refl. destruct (private k0); [reflexivity|].
        apply dget_dset_eq.
      + rewrite IH by exact H2. rewrite upd_step_eq. simpl.
        destruct (String.eqb_spec k k0); [congruence|].
        destruct (private k) eqn:Hpk.
        * destruct (private k0); [reflexivity|]. apply dget_dset_ne; auto.
        * assert (E : dget k (if private k0 then a
                       else dset k0 (merge_val (dget k0 a) v0) a) = dget k a).
          { destruct (private k0); [reflexivity|]. apply dget_dset_ne; auto. }
          rewrite E. reflexivity.
  Qed.

  Lemma update_keys (a b : data) : NoDup (dkeys b) ->
    dkeys (update_by (Node b) a) =
      dkeys a ++ filter (fun k => negb (private k) && negb (dhas k a)) (dkeys b).
  Proof.
    rewrite update_by_fold. revert a. induction b as [|[k0 v0] r IH]; intros a Hnd.
    - simpl. rewrite app_nil_r. reflexivity.
    - simpl in Hnd. inversion Hnd; subst. cbn [fold_left].
      rewrite IH by exact H2. rewrite upd_step_eq.
      simpl. destruct (private k0) eqn:Hp; simpl; [reflexivity|].
      rewrite dkeys_dset.
      assert (E : filter (fun k => negb (private k) &&
                    negb (dhas k (dset k0 (merge_val (dget k0 a) v0) a))) (dkeys r) =
                  filter (fun k => negb (private k) && negb (dhas k a)) (dkeys r)).
      { apply filter_ext_in. intros k Hk. f_equal. f_equal.
        unfold dhas. rewrite dget_dset. destruct (String.eqb_spec k k0); [|reflexivity].
        subst. tauto. }
      rewrite E. destruct (dhas k0 a); simpl; [reflexivity|].
      rewrite <- app_assoc. reflexivity.
  Qed.

  Lemma NoDup_update (a b : data) : NoDup (dkeys b) -> NoDup (dkeys a) ->
    NoDup (dkeys (update_by (Node b) a)).
  Proof.
    intros Hb Ha. rewrite update_by_fold. clear Hb. revert a Ha.
    induction b as [|[k v] r IH]; intros a Ha; [exact Ha|]. cbn [fold_left].
    apply IH. rewrite upd_step_eq. destruct (private k); [exact Ha|]. apply NoDup_dset; exact Ha.
  Qed.

  Lemma wf_update (b : tree) : wf b -> forall a : data, wf (Node a) -> wf (Node (update_by b a)).
  Proof.
    induction b as [x|l IH|d IH] using tree_ind'; intros Hb a Ha; try exact Ha.
    rewrite update_by_fold. apply wf_Node in Hb as [_ Hb]. revert a Ha.
    induction d as [|[k v] r IHr]; intros a Ha; [exact Ha|].
    inversion IH; subst. inversion Hb; subst. cbn [fold_left]. apply IHr; auto.
    rewrite upd_step_eq. destruct (private k); [exact Ha|].
    apply wf_dset; [exact Ha|]. simpl in *.
    destruct (dget k a) as [[y|l|sub]|] eqn:E; try assumption.
    destruct v as [z|l|d0]; try assumption. cbn [merge_val].
    apply H1; [assumption|]. eapply wf_dget; [exact Ha|exact E].
  Qed.

  (** updating a dictionary by itself changes nothing *)
  Lemma update_self (t : tree) : wf t ->
    match t with Node d => update_by (Node d) d = d | _ => True end.
  Proof.
    induction t as [x|l IH|d IH] using tree_ind'; intros Hwf; auto.
    apply wf_Node in Hwf as [Hnd Hall].
    apply dict_ext.
    - apply NoDup_update; auto.
    - rewrite update_keys by auto.
      assert (E : filter (fun k => negb (private k) && negb (dhas k d)) (dkeys d) = []).
      { assert (Hf : forall k, In k (dkeys d) -> (negb (private k) && negb (dhas k d)) = false).
        { intros k Hk. apply dhas_true_iff in Hk. rewrite Hk. apply andb_false_r. }
        revert Hf. generalize (dkeys d). intros l. induction l as [|y l IHl]; intros Hf; simpl; [reflexivity|].
        rewrite Hf by (simpl; auto). apply IHl. intros; apply Hf; simpl; auto. }
      rewrite E, app_nil_r; reflexivity.
    - intros k. rewrite update_lookup by auto.
      destruct (private k); [reflexivity|].
      destruct (dget k d) as [v|] eqn:E; [|reflexivity].
      f_equal. pose proof (dget_Some_In _ _ _ E) as Hin.
      rewrite Forall_forall in IH, Hall.
      specialize (IH _ Hin (Hall _ Hin)). simpl in IH.
      destruct v as [x|l|sub]; simpl; auto. f_equal. exact IH.
  Qed.

  Lemma update_idem (b : tree) : wf b -> forall a : data, wf (Node a) ->
    update_by b (update_by b a) = update_by b a.
  Proof.
    induction b as [x|l IH|d IH] using tree_ind'; intros Hb a Ha; try reflexivity.
    pose proof Hb as Hb0. apply wf_Node in Hb as [Hnd Hall].
    pose proof Ha as Ha0. apply wf_Node in Ha as [Hnda _].
    apply dict_ext.
    - apply NoDup_update; auto. apply NoDup_update; auto.
    - rewrite update_keys by auto.
      assert (E : filter (fun k => negb (private k) && negb (dhas k (update_by (Node d) a))) (dkeys d) = []).
      { assert (Hf : forall k, In k (dkeys d) ->
            (negb (private k) && negb (dhas k (update_by (Node d) a))) = false).
        { intros k Hk. unfold dhas. rewrite update_lookup by auto.
          destruct (private k); [reflexivity|].
          destruct (dget k d) eqn:E; [reflexivity|]. apply dget_None_iff in E; tauto. }
        revert Hf. generalize (dkeys d). intros l. induction l as [|y l IHl]; intros Hf; simpl; [reflexivity|].
        rewrite Hf by (simpl; auto). apply IHl. intros; apply Hf; simpl; auto. }
      rewrite E, app_nil_r; reflexivity.
    - intros k. rewrite update_lookup by auto.
      destruct (private k) eqn:Hp; [reflexivity|].
      rewrite update_lookup by auto. rewrite Hp.
      destruct (dget k d) as [v|] eqn:E; [|reflexivity].
      f_equal. pose proof (dget_Some_In _ _ _ E) as Hin.
      rewrite Forall_forall in IH, Hall.
      pose proof (IH _ Hin (Hall _ Hin)) as IHv. simpl in IHv.
      pose proof (Hall _ Hin) as Hwv. simpl in Hwv.
      destruct v as [x|l|sub]; simpl; auto; try (destruct (dget k a) as [[]|]; reflexivity).
      destruct (dget k a) as [[x|l|suba]|] eqn:Ea.
      + cbn [merge_val]. f_equal. exact (update_self (Node sub) Hwv).
      + cbn [merge_val]. f_equal. exact (update_self (Node sub) Hwv).
      + cbn [merge_val]. f_equal. apply IHv. eapply wf_dget; [exact Ha0|exact Ea].
      + cbn [merge_val]. f_equal. exact (update_self (Node sub) Hwv).
  Qed.

  (** the empty object updated by [d] holds exactly the public part of [d] *)
  Lemma init_lookup (d : data) k : NoDup (dkeys d) ->
    dget k (data_init d) = if private k then None else dget k d.
  Proof.
    intros H. unfold data_init. rewrite update_lookup by exact H.
    destruct (private k); [reflexivity|]. simpl. destruct (dget k d); reflexivity.
  Qed.

  (** ** path view of update *)
  Lemma update_path_override (d : data) : wf (Node d) -> forall p (a : data) x,
    forallb (fun k => negb (private k)) p = true ->
    at_path (Node d) p = Some x -> is_node x = false ->
    at_path (Node (update_by (Node d) a)) p = Some x.
  Proof.
    intros Hb p. revert d Hb. induction p as [|k r IHp]; intros d Hb a x Hp Hat Hx.
    - simpl in Hat. inversion Hat; subst; discriminate.
    - simpl in Hp. apply andb_prop in Hp as [Hpk Hpr]. apply negb_true_iff in Hpk.
      pose proof Hb as Hb0. apply wf_Node in Hb as [Hnd _].
      cbn [at_path] in *. rewrite update_lookup by exact Hnd. rewrite Hpk.
      destruct (dget k d) as [v|] eqn:E; [|discriminate].
      pose proof (wf_dget _ _ _ Hb0 E) as Hwv.
      destruct v as [y|l|sub].
      + destruct (dget k a) as [[]|]; simpl; exact Hat.
      + destruct (dget k a) as [[]|]; simpl; exact Hat.
      + destruct (dget k a) as [[z|l|suba]|]; try (simpl; exact Hat).
        unfold merge_val. apply IHp; auto.
  Qed.

  (** a path of [a] that [b] does not mention -- and along which [b] puts no
      non-dictionary -- keeps its value *)
  Lemma update_path_frame p : forall (d : data), wf (Node d) -> forall (a : data) x,
    at_path (Node a) p = Some x ->
    at_path (Node d) p = None ->
    (forall q y, is_prefix q p = true -> at_path (Node d) q = Some y -> is_node y = true) ->
    at_path (Node (update_by (Node d) a)) p = Some x.
  Proof.
    induction p as [|k r IHp]; intros d Hb a x Ha Hd Hpre; [discriminate|].
    pose proof Hb as Hb0. apply wf_Node in Hb as [Hnd _].
    cbn [at_path] in *. rewrite update_lookup by exact Hnd.
    destruct (private k); [exact Ha|].
    destruct (dget k d) as [v|] eqn:E; [|exact Ha].
    assert (Hv : is_node v = true).
    { apply (Hpre [k]); cbn [is_prefix at_path].
      - rewrite String.eqb_refl; reflexivity.
      - rewrite E; reflexivity. }
    destruct v as [y|l|sub]; try discriminate.
    destruct (dget k a) as [va|] eqn:Ea; [|discriminate].
    destruct va as [z|l|suba].
    - destruct r; [discriminate Hd|discriminate Ha].
    - destruct r; [discriminate Hd|discriminate Ha].
    - unfold merge_val. apply IHp; auto.
      + eapply wf_dget; eauto.
      + intros q y Hq Hy. apply (Hpre (k :: q)).
        * simpl. rewrite String.eqb_refl; exact Hq.
        * cbn [at_path]. rewrite E; exact Hy.
  Qed.
End Tree.
