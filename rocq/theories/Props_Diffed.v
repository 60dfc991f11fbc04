(** * C10: configurations that differ from a base *)
From Coq Require Import String List Bool ZArith Permutation.
From Verif Require Import PyBase M_Data S_Data P_Data M_Diffed S_Diffed P_Diffed.
Import ListNotations.
Local Open Scope string_scope.
Local Open Scope list_scope.

Section Props.
  Context {A : Type}.
  Notation tree := (tree A).
  Notation data := (dict tree).
  Variable none : A.
  Variable same : tree -> tree -> bool.
  Variable set_order : list string -> list string.
  Notation store_diff := (store_diff none same set_order).

  (** C10: store_diff, then pull_base against the unchanged base, restores the
      configuration exactly -- also its key order, and through any chain of bases *)
  Theorem C10_restore : enumerates set_order -> detects same ->
    forall (self base d0 : data), wf (Node self) -> wf (Node base) -> no_removal self base ->
    content (pull_base (store_diff (Diffed self (Plain base) d0))) = self.
  Proof. exact (fun Ho Hs self base d0 H1 H2 H3 => restore none same set_order Ho Hs (Node self) H1 base H2 H3). Qed.

  Theorem C10_chain : enumerates set_order -> detects same ->
    forall c, stored none same set_order c -> pull_base c = c.
  Proof. exact (chain_stable none same set_order). Qed.

  (** C10: after the base was edited, an override still wins *)
  Theorem C10_override_kept : enumerates set_order ->
    forall (self base base2 d0 dif : data), wf (Node self) -> wf (Node base) -> wf (Node base2) ->
    store_diff (Diffed self (Plain base) d0) = Diffed self (Plain base) dif ->
    forall p x, public_path p -> p <> [] ->
    at_path (Node self) p = Some x -> is_node x = false ->
    match at_path (Node base) p with
    | None => same x (Leaf none) = false
    | Some y => is_node y = true \/ same x y = false
    end ->
    at_path (Node (content (pull_base (Diffed self (Plain base2) dif)))) p = Some x.
  Proof.
    intros Ho self base base2 d0 dif H1 H2 H3 Hd p x. inversion Hd; subst dif.
    exact (pulled_override none same set_order Ho self base base2 H1 H2 p x).
  Qed.

  (** C10: where the configuration agreed with the base, the base's new value arrives *)
  Theorem C10_base_propagates : enumerates set_order ->
    forall (self base base2 d0 dif : data), wf (Node self) -> wf (Node base) -> wf (Node base2) ->
    store_diff (Diffed self (Plain base) d0) = Diffed self (Plain base) dif ->
    forall p k x y v, public_path (p ++ [k]) ->
    at_path (Node self) (p ++ [k]) = Some x -> at_path (Node base) (p ++ [k]) = Some y ->
    is_node x = false -> is_node y = false -> same x y = true ->
    at_path (Node base2) (p ++ [k]) = Some v -> is_node v = false ->
    at_path (Node (content (pull_base (Diffed self (Plain base2) dif)))) (p ++ [k]) = Some v.
  Proof.
    intros Ho self base base2 d0 dif H1 H2 H3 Hd. inversion Hd; subst dif.
    exact (pulled_agree none same set_order Ho self base base2 H1 H2 H3).
  Qed.

  (** C10: entries added to the base arrive too *)
  Theorem C10_new_base_entry : enumerates set_order ->
    forall (self base base2 d0 dif : data), wf (Node self) -> wf (Node base) -> wf (Node base2) ->
    store_diff (Diffed self (Plain base) d0) = Diffed self (Plain base) dif ->
    forall p k sa sb v, public_path (p ++ [k]) ->
    at_path (Node self) p = Some (Node sa) -> at_path (Node base) p = Some (Node sb) ->
    dget k sa = None -> dget k sb = None ->
    at_path (Node base2) (p ++ [k]) = Some v -> is_node v = false ->
    at_path (Node (content (pull_base (Diffed self (Plain base2) dif)))) (p ++ [k]) = Some v.
  Proof.
    intros Ho self base base2 d0 dif H1 H2 H3 Hd. inversion Hd; subst dif.
    exact (pulled_new none same set_order Ho self base base2 H1 H2 H3).
  Qed.

  (** C10, negative part: an entry deleted from the configuration comes back as None *)
  Theorem C10_deleted_becomes_none : enumerates set_order ->
    forall (self base base2 d0 dif : data), wf (Node self) -> wf (Node base) -> wf (Node base2) ->
    store_diff (Diffed self (Plain base) d0) = Diffed self (Plain base) dif ->
    forall p k sa sb vb, public_path (p ++ [k]) ->
    at_path (Node self) p = Some (Node sa) -> at_path (Node base) p = Some (Node sb) ->
    dget k sa = None -> dget k sb = Some vb ->
    is_node vb = true \/ same (Leaf none) vb = false ->
    at_path (Node (content (pull_base (Diffed self (Plain base2) dif)))) (p ++ [k]) = Some (Leaf none).
  Proof.
    intros Ho self base base2 d0 dif H1 H2 H3 Hd. inversion Hd; subst dif.
    exact (pulled_deleted none same set_order Ho self base base2 H1 H2).
  Qed.
End Props.

(** A numpy-like value: None or a one-dimensional array; comparison broadcasts an array
    of length one, so it does not [detect] every difference. *)
Inductive npv := NoneV | Arr (l : list Z).
Definition np_all_eq (x y : tree npv) : bool :=
  match x, y with
  | Leaf (Arr [a]), Leaf (Arr l) => forallb (Z.eqb a) l
  | Leaf (Arr l), Leaf (Arr [b]) => forallb (Z.eqb b) l
  | Leaf (Arr l), Leaf (Arr m) => Nat.eqb (List.length l) (List.length m) &&
                                  forallb (fun p => Z.eqb (fst p) (snd p)) (combine l m)
  | Leaf NoneV, Leaf NoneV => true
  | _, _ => false
  end.
(** C10, negative part: a difference in shape only is not stored, so pull_base undoes it *)
Theorem C10_broadcast_refuted : exists (self base : dict (tree npv)),
  wf (Node self) /\ wf (Node base) /\ no_removal self base /\
  content (pull_base (store_diff NoneV np_all_eq (fun l => l) (Diffed self (Plain base) []))) <> self.
Proof.
  exists [("x", Leaf (Arr [1%Z; 1%Z]))], [("x", Leaf (Arr [1%Z]))].
  repeat split; try (repeat constructor; simpl; tauto).
  - intros [|k [|k2 p]] y _; cbn [at_path dget].
    + intros H; inversion H. eexists; split; reflexivity.
    + destruct (String.eqb k "x"); [|discriminate]. intros H; inversion H. eexists; split; reflexivity.
    + destruct (String.eqb k "x"); discriminate.
  - discriminate.
Qed.

(** a configuration with an override, an addition in a sub-Data, and an edited base *)
Definition zeq (x y : tree Z) : bool :=
  match x, y with Leaf a, Leaf b => Z.eqb a b | _, _ => false end.
Definition base1 : dict (tree Z) := [("mass", Leaf 10%Z); ("wing", Node [("span", Leaf 30%Z); ("flap", Leaf 0%Z)])].
Definition conf1 : dict (tree Z) := [("mass", Leaf 10%Z); ("wing", Node [("span", Leaf 30%Z); ("flap", Leaf 20%Z); ("slat", Leaf 5%Z)])].
Definition base2 : dict (tree Z) := [("mass", Leaf 12%Z); ("wing", Node [("span", Leaf 33%Z); ("flap", Leaf 1%Z)]); ("gear", Leaf 3%Z)].
Example C10_ex :
  enumerates (fun l => l) /\ detects zeq /\ wf (Node conf1) /\ wf (Node base1) /\ wf (Node base2) /\
  store_diff (-1)%Z zeq (fun l => l) (Diffed conf1 (Plain base1) []) =
    Diffed conf1 (Plain base1) [("wing", Node [("flap", Leaf 20%Z); ("slat", Leaf 5%Z)])] /\
  content (pull_base (Diffed conf1 (Plain base2) [("wing", Node [("flap", Leaf 20%Z); ("slat", Leaf 5%Z)])])) =
    [("mass", Leaf 12%Z); ("wing", Node [("span", Leaf 33%Z); ("flap", Leaf 20%Z); ("slat", Leaf 5%Z)]); ("gear", Leaf 3%Z)].
Proof.
  split; [intros l _; apply Permutation_refl|]. split.
  - intros [a|l|d] [b|m|e]; simpl; try discriminate. intros _ _ H. apply Z.eqb_eq in H. subst; reflexivity.
  - repeat split; repeat constructor; simpl; intuition discriminate.
Qed.
(** and the hypothesis of C10_restore holds of it *)
Example C10_ex_no_removal : no_removal conf1 base1.
Proof.
  intros p y Hp Hy. destruct p as [|k p]; [inversion Hy; eexists; split; reflexivity|].
  simpl in Hy. destruct (String.eqb_spec k "mass") as [->|].
  - destruct p; inversion Hy; subst. eexists; split; reflexivity.
  - destruct (String.eqb_spec k "wing") as [->|]; [|discriminate].
    destruct p as [|k2 p]; [inversion Hy; eexists; split; reflexivity|].
    simpl in Hy. destruct (String.eqb_spec k2 "span") as [->|].
    + destruct p; inversion Hy; subst. eexists; split; reflexivity.
    + destruct (String.eqb_spec k2 "flap") as [->|]; [|discriminate].
      destruct p; inversion Hy; subst. eexists; split; reflexivity.
Qed.

Print Assumptions C10_restore.
Print Assumptions C10_chain.
Print Assumptions C10_override_kept.
Print Assumptions C10_base_propagates.
Print Assumptions C10_new_base_entry.
Print Assumptions C10_deleted_becomes_none.
Print Assumptions C10_broadcast_refuted.
