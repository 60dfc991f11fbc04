(** * Facts about insertion-ordered dictionaries, translation and python strings *)
From Coq Require Import String Ascii List Bool Arith ZArith Lia.
From Coq Require Import Numbers.DecimalString Numbers.DecimalNat.
From Verif Require Import PyBase M_Data.
Import ListNotations.
Local Open Scope string_scope.

Lemma eqb_sym_str a b : String.eqb a b = String.eqb b a.
Proof. destruct (String.eqb_spec a b), (String.eqb_spec b a); congruence. Qed.

Section DictFacts.
  Context {V : Type}.
  Implicit Types d : dict V.

  Lemma dget_None_iff k d : dget k d = None <-> ~ In k (dkeys d).
  Proof.
    induction d as [|[k' v'] r IH]; simpl; [tauto|].
    destruct (String.eqb_spec k k') as [->|Hne].
    - split; [discriminate|]. intros H; exfalso; apply H; auto.
    - rewrite IH. split.
      + intros H [H'|H']; [congruence|auto].
      + intros H H'; apply H; auto.
  Qed.

  Lemma dget_Some_In k v d : dget k d = Some v -> In (k, v) d.
  Proof.
    induction d as [|[k' v'] r IH]; simpl; [discriminate|].
    destruct (String.eqb_spec k k') as [->|Hne]; intros H.
    - inversion H; auto.
    - right; auto.
  Qed.

  Lemma dget_Some_key k v d : dget k d = Some v -> In k (dkeys d).
  Proof. intros H. apply dget_Some_In in H. apply (in_map fst) in H. exact H. Qed.

  Lemma In_dget k v d : NoDup (dkeys d) -> In (k, v) d -> dget k d = Some v.
  Proof.
    induction d as [|[k' v'] r IH]; simpl; [tauto|].
    intros Hnd [H|H].
    - inversion H; subst. rewrite String.eqb_refl; reflexivity.
    - inversion Hnd; subst. destruct (String.eqb_spec k k') as [->|Hne].
      + exfalso. apply H2. apply (in_map fst) in H. exact H.
      + apply IH; auto.
  Qed.

  Lemma dhas_true_iff k d : dhas k d = true <-> In k (dkeys d).
  Proof.
    unfold dhas. destruct (dget k d) eqn:E.
    - split; auto. intros _. eapply dget_Some_key; eauto.
    - split; [discriminate|]. intros H. apply dget_None_iff in E. tauto.
  Qed.
  Lemma dhas_false_iff k d : dhas k d = false <-> ~ In k (dkeys d).
  Proof. rewrite <- dhas_true_iff. destruct (dhas k d); split; congruence. Qed.

  Lemma dget_dset k k' v d :
    dget k (dset k' v d) = if String.eqb k k' then Some v else dget k d.
  Proof.
    induction d as [|[k0 v0] r IH]; simpl.
    - reflexivity.
    - destruct (String.eqb_spec k' k0) as [->|Hne]; simpl.
      + destruct (String.eqb k k0); reflexivity.
      + rewrite IH. destruct (String.eqb_spec k k0) as [->|Hne2]; auto.
        destruct (String.eqb_spec k0 k'); congruence.
  Qed.
  Lemma dget_dset_eq k v d : dget k (dset k v d) = Some v.
  Proof. rewrite dget_dset, String.eqb_refl; reflexivity. Qed.
  Lemma dget_dset_ne k k' v d : k <> k' -> dget k (dset k' v d) = dget k d.
  Proof. intros H. rewrite dget_dset. destruct (String.eqb_spec k k'); congruence. Qed.

  Lemma dkeys_dset k v d :
    dkeys (dset k v d) = if dhas k d then dkeys d else (dkeys d ++ [k])%list.
  Proof.
    induction d as [|[k0 v0] r IH]; simpl; [reflexivity|].
    unfold dhas; simpl. destruct (String.eqb_spec k k0) as [->|Hne]; simpl; [reflexivity|].
    rewrite IH. unfold dhas. destruct (dget k r); reflexivity.
  Qed.
  Lemma dkeys_dset_in k v d : In k (dkeys d) -> dkeys (dset k v d) = dkeys d.
  Proof. intros H. rewrite dkeys_dset. apply dhas_true_iff in H. rewrite H. reflexivity. Qed.
  Lemma dset_new k v d : ~ In k (dkeys d) -> dset k v d = (d ++ [(k, v)])%list.
  Proof.
    induction d as [|[k0 v0] r IH]; simpl; [reflexivity|].
    intros H. destruct (String.eqb_spec k k0) as [->|Hne]; [exfalso; auto|].
    rewrite IH; auto.
  Qed.
  Lemma dset_same k v d : dget k d = Some v -> dset k v d = d.
  Proof.
    induction d as [|[k0 v0] r IH]; simpl; [discriminate|].
    destruct (String.eqb_spec k k0) as [->|Hne]; intros H.
    - inversion H; reflexivity.
    - rewrite IH; auto.
  Qed.
  Lemma dset_dset k v w d : dset k v (dset k w d) = dset k v d.
  Proof.
    induction d as [|[k0 v0] r IH]; simpl.
    - rewrite String.eqb_refl; reflexivity.
    - destruct (String.eqb_spec k k0) as [->|Hne]; simpl.
      + rewrite String.eqb_refl; reflexivity.
      + destruct (String.eqb_spec k k0); [congruence|]. rewrite IH; reflexivity.
  Qed.

  Lemma NoDup_app_single (l : list string) k : NoDup l -> ~ In k l -> NoDup (l ++ [k])%list.
  Proof.
    induction l as [|x l IH]; simpl; intros Hnd Hk.
    - constructor; [simpl; tauto | constructor].
    - inversion Hnd; subst. constructor.
      + rewrite in_app_iff. simpl. intros [H|[H|[]]]; [auto | subst; auto].
      + apply IH; auto.
  Qed.
  Lemma NoDup_dset k v d : NoDup (dkeys d) -> NoDup (dkeys (dset k v d)).
  Proof.
    intros H. rewrite dkeys_dset. destruct (dhas k d) eqn:E; auto.
    apply NoDup_app_single; auto. apply dhas_false_iff; auto.
  Qed.

  Lemma dget_app k d1 d2 :
    dget k (d1 ++ d2)%list = match dget k d1 with Some v => Some v | None => dget k d2 end.
  Proof.
    induction d1 as [|[k0 v0] r IH]; simpl; [reflexivity|].
    destruct (String.eqb k k0); auto.
  Qed.

  Lemma dkeys_app d1 d2 : dkeys (d1 ++ d2)%list = (dkeys d1 ++ dkeys d2)%list.
  Proof. unfold dkeys; apply map_app. Qed.

  (** two dictionaries with the same key order and the same lookups are equal *)
  Lemma dict_ext d1 d2 :
    NoDup (dkeys d1) -> dkeys d1 = dkeys d2 ->
    (forall k, dget k d1 = dget k d2) -> d1 = d2.
  Proof.
    revert d2. induction d1 as [|[k v] r IH]; intros [|[k2 v2] r2] Hnd Hk Hg;
      simpl in *; try discriminate; [reflexivity|].
    inversion Hk; subst. inversion Hnd; subst.
    assert (v = v2).
    { specialize (Hg k2). rewrite !String.eqb_refl in Hg. congruence. }
    subst. f_equal. apply IH; auto.
    intros k. destruct (String.eqb_spec k k2) as [->|Hne].
    - transitivity (@None V).
      + apply dget_None_iff; auto.
      + symmetry. apply dget_None_iff. rewrite <- H1; auto.
    - specialize (Hg k). destruct (String.eqb_spec k k2); [congruence|]. exact Hg.
  Qed.

  Lemma dget_ddel k k' d : NoDup (dkeys d) ->
    dget k (ddel k' d) = if String.eqb k k' then None else dget k d.
  Proof.
    induction d as [|[k0 v0] r IH]; simpl; intros Hnd.
    - destruct (String.eqb k k'); reflexivity.
    - inversion Hnd; subst. destruct (String.eqb_spec k' k0) as [->|Hne]; simpl.
      + destruct (String.eqb_spec k k0) as [->|Hne2]; auto.
        apply dget_None_iff; auto.
      + rewrite IH; auto. destruct (String.eqb_spec k k0) as [->|Hne2]; auto.
        destruct (String.eqb_spec k0 k'); congruence.
  Qed.

  Lemma dkeys_ddel k d : NoDup (dkeys d) ->
    dkeys (ddel k d) = filter (fun k' => negb (String.eqb k k')) (dkeys d).
  Proof.
    induction d as [|[k0 v0] r IH]; simpl; intros Hnd; [reflexivity|].
    inversion Hnd; subst. destruct (String.eqb_spec k k0) as [->|Hne]; simpl.
    - clear IH Hnd H2. induction r as [|[k1 v1] r IH]; simpl in *; [reflexivity|].
      destruct (String.eqb_spec k0 k1) as [->|Hne]; [exfalso; auto|]. simpl.
      f_equal; apply IH. intros H; apply H1; auto.
    - f_equal; auto.
  Qed.
End DictFacts.

(** ** translation *)
Lemma t_char_idem c : t_char (t_char c) = t_char c.
Proof. destruct c as [[] [] [] [] [] [] [] []]; reflexivity. Qed.
Lemma lower_t_char c : lower_char (t_char c) = t_char c.
Proof. destruct c as [[] [] [] [] [] [] [] []]; reflexivity. Qed.
Lemma translate_idem s : translate (translate s) = translate s.
Proof. induction s as [|c s IH]; simpl; [reflexivity|]. rewrite t_char_idem, IH; reflexivity. Qed.
Lemma lower_translate s : str_lower (translate s) = translate s.
Proof. induction s as [|c s IH]; simpl; [reflexivity|]. rewrite lower_t_char, IH; reflexivity. Qed.
Lemma translate_app a b : translate (a ++ b) = translate a ++ translate b.
Proof. induction a as [|c a IH]; simpl; [reflexivity|]. rewrite IH; reflexivity. Qed.

Lemma translate_uint u : translate (NilEmpty.string_of_uint u) = NilEmpty.string_of_uint u.
Proof. induction u; simpl; try rewrite IHu; reflexivity. Qed.
Lemma translate_str_of_nat n : translate (str_of_nat n) = str_of_nat n.
Proof. apply translate_uint. Qed.

Lemma str_of_nat_inj n m : str_of_nat n = str_of_nat m -> n = m.
Proof.
  unfold str_of_nat. intros H.
  assert (Hu : Nat.to_uint n = Nat.to_uint m).
  { assert (E : NilEmpty.uint_of_string (NilEmpty.string_of_uint (Nat.to_uint n))
              = NilEmpty.uint_of_string (NilEmpty.string_of_uint (Nat.to_uint m)))
      by (rewrite H; reflexivity).
    rewrite !NilEmpty.usu in E. congruence. }
  apply (f_equal Nat.of_uint) in Hu. rewrite !DecimalNat.Unsigned.of_to in Hu. exact Hu.
Qed.

Lemma str_app_inv_l a b c : a ++ b = a ++ c -> b = c.
Proof. induction a as [|x a IH]; simpl; intros H; [exact H|]. inversion H; auto. Qed.

(** ** split and join *)
Lemma split_on_not_nil c s : split_on c s <> [].
Proof.
  destruct s as [|a r]; simpl; [discriminate|].
  destruct (Ascii.eqb a c); [discriminate|].
  destruct (split_on c r); discriminate.
Qed.

(** a key that contains no separator *)
Fixpoint no_char (c : ascii) (s : string) : bool :=
  match s with
  | EmptyString => true
  | String a r => negb (Ascii.eqb a c) && no_char c r
  end.

Lemma split_on_no_char c s : no_char c s = true -> split_on c s = [s].
Proof.
  induction s as [|a r IH]; simpl; [reflexivity|].
  intros H. apply andb_prop in H as [H1 H2]. apply negb_true_iff in H1. rewrite H1, IH; auto.
Qed.

Lemma split_on_app_sep c a b : no_char c a = true ->
  split_on c (a ++ String c b) = a :: split_on c b.
Proof.
  induction a as [|x a IH]; simpl; intros H.
  - rewrite Ascii.eqb_refl. reflexivity.
  - apply andb_prop in H as [H1 H2]. apply negb_true_iff in H1. rewrite H1.
    rewrite IH; auto.
Qed.

Lemma split_join c (l : list string) :
  l <> [] -> forallb (no_char c) l = true -> split_on c (join_with c l) = l.
Proof.
  induction l as [|s [|s2 r] IH]; intros Hne H.
  - congruence.
  - simpl in *. rewrite andb_true_r in H. apply split_on_no_char; auto.
  - change (join_with c (s :: s2 :: r)) with (s ++ String c (join_with c (s2 :: r))).
    simpl in H. apply andb_prop in H as [H1 H2].
    rewrite split_on_app_sep by exact H1. f_equal. apply IH; [discriminate|exact H2].
Qed.
