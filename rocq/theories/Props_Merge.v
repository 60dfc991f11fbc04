(** * C11: merging the histories of several segments *)
From Coq Require Import String List Bool Arith Lia.
From Verif Require Import PyBase M_Data S_Data M_Merge S_Diffed S_Merge P_Merge.
Import ListNotations.
Local Open Scope string_scope.
Local Open Scope list_scope.

Section Props.
  Context {T F : Type}.
  Notation adict := (dict (tree (aval T F))).

  (** C11: merging any number of segments whose arrays have compatible row shapes succeeds, and
      every array entry present in all of them becomes the concatenation of their rows in
      segment order *)
  Theorem C11_concatenation : forall sh (segs : list adict) p,
    segs <> [] -> Forall (fun s => wf (Node s)) segs -> Forall (conforms sh) segs -> public_path p ->
    exists r, merged segs = Ok r /\
      forall vs, Forall2 (fun s v => array_at s p v) segs vs ->
        exists vr, array_at r p vr /\ rows_of vr = concat (map rows_of vs).
  Proof.
    intros sh segs p H1 H2 H3 H4. destruct (merged_rows sh segs p H1 H2 H3 H4) as (r & E & _ & _ & S).
    exists r. split; [exact E|exact S].
  Qed.

  (** C11: the number of rows is the sum, and row [k] of segment [i] sits at the offset of
      that segment plus [k] *)
  Theorem C11_row_offsets : forall sh (segs : list adict) p vs r,
    segs <> [] -> Forall (fun s => wf (Node s)) segs -> Forall (conforms sh) segs -> public_path p ->
    Forall2 (fun s v => array_at s p v) segs vs -> merged segs = Ok r ->
    exists vr, array_at r p vr /\
      List.length (rows_of vr) = list_sum (map (fun v => List.length (rows_of v)) vs) /\
      forall i k v, nth_error vs i = Some v -> (k < List.length (rows_of v))%nat ->
        nth_error (rows_of vr) (list_sum (map (fun v => List.length (rows_of v)) (firstn i vs)) + k)
          = nth_error (rows_of v) k.
  Proof. exact merged_rows_of_segment. Qed.

  (** C11: an entry that first appears in a later segment is taken from there as it is *)
  Theorem C11_new_entry : forall sh (a b : adict),
    wf (Node a) -> wf (Node b) -> conforms sh a -> conforms sh b ->
    exists r, append_or_update (Node b) a = Ok r /\
      forall p vb, public_path p -> p <> [] -> array_at b p vb ->
        (forall q, q <> [] -> is_prefix q p = true -> at_path (Node a) q = None) ->
        array_at r p vb.
  Proof.
    intros sh a b Ha Hb Ca Cb. destruct (aou_main (Node b) Hb sh a Ha Ca Cb) as (r & E & _ & _ & _ & S).
    exists r. split; [exact E|exact S].
  Qed.

  (** C11: private keys and keys the later segments lack stay as the first segment has them *)
  Theorem C11_private_skipped : forall (segs : list adict) s r k, Forall (fun s => wf (Node s)) segs ->
    merged (s :: segs) = Ok r -> private k = true -> dget k r = dget k s.
  Proof. exact merged_private. Qed.
  Theorem C11_absent_kept : forall (a b : adict) r k, wf (Node b) ->
    append_or_update (Node b) a = Ok r -> dget k b = None -> dget k r = dget k a.
  Proof. exact aou_only_left. Qed.
End Props.

(** two climbs and a cruise with different numbers of control points *)
Definition seg (t : nat) (rows : list (list nat)) : dict (tree (aval nat bool)) :=
  [("_size", Leaf (NonArray true));
   ("frames", Node [("time", Leaf (AN [1] (map (fun _ => [t]) rows))); ("r", Leaf (AN [2] rows))])].
Definition three := [seg 1 [[1;2];[3;4]]; seg 2 [[5;6]]; seg 3 [[7;8];[9;10]]].
Example C11_concatenation_case :
  merged three = Ok [("_size", Leaf (NonArray true));
   ("frames", Node [("time", Leaf (AN [1] [[1];[1];[2];[3];[3]]));
                    ("r", Leaf (AN [2] [[1;2];[3;4];[5;6];[7;8];[9;10]]))])].
Proof. reflexivity. Qed.
Definition three_shape (p : list string) : list nat :=
  match p with [_; "time"] => [1] | _ => [2] end.
Ltac solve_wf := cbn; repeat match goal with
  | |- True => exact I
  | |- _ /\ _ => split
  | |- NoDup nil => apply NoDup_nil
  | |- NoDup (_ :: _) => apply NoDup_cons
  | |- ~ _ => cbn; intuition discriminate
  end.
Lemma seg_ok t rows : wf (Node (seg t rows)) /\ conforms three_shape (seg t rows).
Proof.
  split.
  - cbn. repeat constructor; cbn; intuition discriminate.
  - intros p v _ [H1 H2].
    destruct p as [|k p]; [discriminate|]. cbn in H1.
    destruct (String.eqb_spec k "_size") as [->|_].
    { destruct p; [|discriminate]. inversion H1; subst. discriminate. }
    destruct (String.eqb_spec k "frames") as [->|_]; [|discriminate].
    destruct p as [|k2 p]; [discriminate|]. cbn in H1.
    destruct (String.eqb_spec k2 "time") as [->|Ht].
    { destruct p; [|discriminate]. inversion H1; subst. reflexivity. }
    destruct (String.eqb_spec k2 "r") as [->|_]; [|discriminate].
    destruct p; [|discriminate]. inversion H1; subst. reflexivity.
Qed.
Example C11_hypotheses_met :
  Forall (fun s => wf (Node s)) three /\ Forall (conforms three_shape) three /\
  Forall2 (fun s v => array_at s ["frames"; "r"] v) three
    [AN [2] [[1;2];[3;4]]; AN [2] [[5;6]]; AN [2] [[7;8];[9;10]]].
Proof.
  split; [|split].
  - repeat apply Forall_cons; try apply seg_ok. apply Forall_nil.
  - repeat apply Forall_cons; try apply seg_ok. apply Forall_nil.
  - repeat (apply Forall2_cons; [split; reflexivity|]). apply Forall2_nil.
Qed.

(** C11: outside the compatible shapes the claim fails: when one array of a nested Data has
    another number of columns, the exception is swallowed one level up and the accumulated
    history of the whole nested Data is replaced by the last segment's *)
Theorem C11_mismatch_discards_history_refuted : exists (a b r : dict (tree (aval nat bool))) va vb,
  wf (Node a) /\ wf (Node b) /\ append_or_update (Node b) a = Ok r /\
  array_at a ["frames"; "time"] va /\ array_at b ["frames"; "time"] vb /\
  row_shape va = row_shape vb /\ array_at r ["frames"; "time"] vb /\ rows_of va <> [].
Proof.
  exists [("frames", Node [("time", Leaf (AN [1] [[0];[1]])); ("r", Leaf (AN [2] [[0;0];[0;0]]))])].
  exists [("frames", Node [("time", Leaf (AN [1] [[2]])); ("r", Leaf (AN [3] [[0;0;0]]))])].
  eexists; exists (AN [1] [[0];[1]]), (AN [1] [[2]]).
  split; [solve_wf|].
  split; [solve_wf|].
  split; [reflexivity|]. repeat split; discriminate.
Qed.
(** ... and an array over an entry that is not one leaves None *)
Theorem C11_array_over_scalar_refuted : exists (a b : dict (tree (aval nat bool))) v,
  array_at b ["x"] v /\ at_path (Node a) ["x"] = Some (Leaf (NonArray true)) /\
  append_or_update (Node b) a = Ok [("x", Leaf NoneV)].
Proof.
  exists [("x", Leaf (NonArray true))], [("x", Leaf (A1 [1;2]))], (A1 [1;2]). repeat split.
Qed.

Print Assumptions C11_concatenation.
Print Assumptions C11_row_offsets.
Print Assumptions C11_new_entry.
Print Assumptions C11_private_skipped.
Print Assumptions C11_absent_kept.
Print Assumptions C11_mismatch_discards_history_refuted.
Print Assumptions C11_array_over_scalar_refuted.
