(** * C12: row expansion; C21: distributing a mission's unknowns over its segments *)
From Coq Require Import String List Bool Arith Lia.
From Verif Require Import PyBase M_Data M_Rows S_Rows P_Rows.
Import ListNotations.
Local Open Scope string_scope.
Local Open Scope list_scope.

Section Props.
  Context {T F : Type}.
  Variable zero : T.
  Notation cval := (cval T F).

  (** C12: an array with at most one row, or any array when override is set, ends up with [n]
      rows which are copies of its own rows in turn, and as many columns as before *)
  Theorem C12_expanded : forall n override (d d' : dict cval) p cols rows, shaped (CCond d) ->
    conditions_expand_rows zero n override d = Ok d' -> ~ In "_size" p ->
    cond_at (CCond d) p = Some (CMat cols rows) -> List.length rows <= 1 \/ override = true ->
    exists rows', cond_at (CCond d') p = Some (CMat cols rows') /\ cyclic_copies zero cols n rows rows'.
  Proof.
    intros n ov d d' p c rows Hs H Hp Hat Hov. unfold conditions_expand_rows in H.
    destruct (expand_val zero n ov (CCond d)) as [v'|] eqn:E; [|discriminate].
    destruct v' as [|d1| | |]; try discriminate. inversion H; subst d1.
    pose proof (expand_at zero n ov p Hp _ _ E) as G. rewrite Hat in G. destruct G as (x' & Ex & Hx').
    unfold expand_val in Ex.
    assert (B : (Nat.leb (List.length rows) 1 || ov)%bool = true).
    { apply orb_true_iff. destruct Hov as [Hl| ->]; [left; apply Nat.leb_le; exact Hl|right; reflexivity]. }
    rewrite B in Ex. inversion Ex; subst x'. eexists. split; [exact Hx'|].
    apply resize_cyclic. exact (shaped_at _ _ _ Hs Hat).
  Qed.

  (** C12: an array that already has several rows keeps them unless override is set *)
  Theorem C12_kept : forall n (d d' : dict cval) p cols rows,
    conditions_expand_rows zero n false d = Ok d' -> ~ In "_size" p ->
    cond_at (CCond d) p = Some (CMat cols rows) -> 1 < List.length rows ->
    cond_at (CCond d') p = Some (CMat cols rows).
  Proof.
    intros n d d' p c rows H Hp Hat Hl. unfold conditions_expand_rows in H.
    destruct (expand_val zero n false (CCond d)) as [v'|] eqn:E; [|discriminate].
    destruct v' as [|d1| | |]; try discriminate. inversion H; subst d1.
    pose proof (expand_at zero n false p Hp _ _ E) as G. rewrite Hat in G. destruct G as (x' & Ex & Hx').
    unfold expand_val in Ex. destruct (Nat.leb_spec (List.length rows) 1); [lia|]. cbn [orb] in Ex.
    inversion Ex; subst. exact Hx'.
  Qed.

  (** C12: everything that is not an array stays; nothing appears or disappears except [_size] *)
  Theorem C12_others_untouched : forall n override (d d' : dict cval) p f,
    conditions_expand_rows zero n override d = Ok d' -> ~ In "_size" p ->
    (cond_at (CCond d) p = Some (COther f) <-> cond_at (CCond d') p = Some (COther f)) /\
    (cond_at (CCond d) p = None <-> cond_at (CCond d') p = None).
  Proof.
    intros n ov d d' p f H Hp. unfold conditions_expand_rows in H.
    destruct (expand_val zero n ov (CCond d)) as [v'|] eqn:E; [|discriminate].
    destruct v' as [|d1| | |]; try discriminate. inversion H; subst d1.
    pose proof (expand_at zero n ov p Hp _ _ E) as G.
    destruct (cond_at (CCond d) p) as [x|].
    - destruct G as (x' & Ex & Hx'). rewrite Hx'. split; [|split; discriminate].
      split; intros Hq; inversion Hq; subst.
      + inversion Ex; reflexivity.
      + destruct x as [c rs|dd|a y|m|g].
        * unfold expand_val in Ex. destruct (_ || _); discriminate.
        * rewrite expand_Cond in Ex. destruct (expand_items zero n ov dd); discriminate.
        * unfold expand_val, exp_resize in Ex. destruct (Nat.ltb n a); discriminate.
        * discriminate.
        * inversion Ex; reflexivity.
    - destruct G as [_ G]. rewrite G. split; split; auto; discriminate.
  Qed.

  (** C12: placeholders made by ones_row_m1/m2 become a column with that many rows fewer *)
  Theorem C12_placeholder : forall n override (d d' : dict cval) p adj x,
    conditions_expand_rows zero n override d = Ok d' -> ~ In "_size" p ->
    cond_at (CCond d) p = Some (CExp adj x) ->
    adj <= n /\ cond_at (CCond d') p = Some (CMat 1 (repeat [x] (n - adj))).
  Proof.
    intros n ov d d' p a x H Hp Hat. unfold conditions_expand_rows in H.
    destruct (expand_val zero n ov (CCond d)) as [v'|] eqn:E; [|discriminate].
    destruct v' as [|d1| | |]; try discriminate. inversion H; subst d1.
    pose proof (expand_at zero n ov p Hp _ _ E) as G. rewrite Hat in G. destruct G as (x' & Ex & Hx').
    unfold expand_val, exp_resize in Ex. destruct (Nat.ltb_spec n a); [discriminate|].
    inversion Ex; subst. rewrite resize_one in Hx'. auto.
  Qed.

  (** C12: it succeeds as soon as no placeholder needs more rows than requested *)
  Theorem C12_succeeds : forall n override (d : dict cval), shaped (CCond d) ->
    (forall p adj x, cond_at (CCond d) p = Some (CExp adj x) -> adj <= n) ->
    exists d', conditions_expand_rows zero n override d = Ok d'.
  Proof.
    intros n ov d Hs H. unfold conditions_expand_rows.
    destruct (expand_success zero n ov (CCond d) H Hs) as [v' E]. rewrite E.
    rewrite expand_Cond in E. destruct (expand_items zero n ov d) as [d1|]; [|discriminate].
    inversion E; subst. eauto.
  Qed.

  (** C12: expanding again to the same number of rows changes nothing, as long as any
      placeholder keeps at least two rows and override is off *)
  Theorem C12_idempotent : forall n override (d d' : dict cval), shaped (CCond d) ->
    (forall p adj x, cond_at (CCond d) p = Some (CExp adj x) -> override = false /\ adj + 2 <= n) ->
    conditions_expand_rows zero n override d = Ok d' ->
    conditions_expand_rows zero n override d' = Ok d'.
  Proof.
    intros n ov d d' Hs Hx H. unfold conditions_expand_rows in *.
    destruct (expand_val zero n ov (CCond d)) as [v'|] eqn:E; [|discriminate].
    destruct v' as [|d1| | |]; try discriminate. inversion H; subst d1.
    rewrite (expand_idem zero n ov (CCond d) Hs Hx _ E). reflexivity.
  Qed.

  (** C12: a State skips its initials and numerics and resizes its own arrays in any case *)
  Theorem C12_state : forall n override (d d' : dict cval), shaped (CCond d) ->
    state_expand_rows zero n override d = Ok d' ->
    dget "initials" d' = dget "initials" d /\ dget "numerics" d' = dget "numerics" d /\
    (forall k cols rows, k <> "_size" -> k <> "initials" -> k <> "numerics" ->
       dget k d = Some (CMat cols rows) ->
       exists rows', dget k d' = Some (CMat cols rows') /\ cyclic_copies zero cols n rows rows') /\
    (forall k c, k <> "_size" -> k <> "initials" -> k <> "numerics" ->
       dget k d = Some (CCond c) ->
       exists c', conditions_expand_rows zero n override c = Ok c' /\ dget k d' = Some (CCond c')).
  Proof.
    intros n ov d d' Hs H. split; [|split; [|split]].
    - pose proof (state_get zero n ov d d' "initials" H ltac:(discriminate)) as G.
      destruct (dget "initials" d); [|exact G]. destruct G as (x' & E & ->). inversion E; reflexivity.
    - pose proof (state_get zero n ov d d' "numerics" H ltac:(discriminate)) as G.
      destruct (dget "numerics" d); [|exact G]. destruct G as (x' & E & ->). inversion E; reflexivity.
    - intros k c rows H1 H2 H3 Hk. pose proof (state_get zero n ov d d' k H H1) as G. rewrite Hk in G.
      destruct G as (x' & E & ->). unfold state_expand_entry in E.
      destruct (String.eqb_spec k "initials"); [congruence|]. destruct (String.eqb_spec k "numerics"); [congruence|].
      cbn [orb] in E. inversion E; subst. eexists. split; [reflexivity|]. apply resize_cyclic.
      exact (shaped_dget d k _ Hs Hk).
    - intros k c H1 H2 H3 Hk. pose proof (state_get zero n ov d d' k H H1) as G. rewrite Hk in G.
      destruct G as (x' & E & ->). unfold state_expand_entry in E.
      destruct (String.eqb_spec k "initials"); [congruence|]. destruct (String.eqb_spec k "numerics"); [congruence|].
      cbn [orb] in E. unfold conditions_expand_rows. rewrite E. rewrite expand_Cond in E.
      destruct (expand_items zero n ov c); [|discriminate]. inversion E; subst. eauto.
  Qed.

  (** C21: when the mission vector has as many rows as the segments together, the segments
      receive consecutive pieces of their own length which together are the whole vector *)
  Theorem C21_partition : forall (U : dict (arr2 T)) segs segs' k u,
    k <> "tag" -> dget k U = Some u -> Forall (fun s => NoDup (dkeys s)) segs -> Forall single_columns segs ->
    unpack_subsegments U segs = Ok segs' ->
    List.length (arows u) = list_sum (map (@List.length _) (column_of k segs)) ->
    map dkeys segs' = map dkeys segs /\ concat (column_of k segs') = arows u /\
    map (@List.length _) (column_of k segs') = map (@List.length _) (column_of k segs).
  Proof. exact unpack_partition. Qed.

  (** C21: unpacking the vector that was merged from the segments gives each its own values *)
  Theorem C21_merge_then_unpack : forall (U : dict (arr2 T)) segs segs' k u,
    k <> "tag" -> dget k U = Some u -> Forall (fun s => NoDup (dkeys s)) segs -> Forall single_columns segs ->
    unpack_subsegments U segs = Ok segs' ->
    arows u = concat (column_of k segs) -> column_of k segs' = column_of k segs.
  Proof. exact unpack_own. Qed.

  (** C21: it succeeds when the mission has every unknown its segments have *)
  Theorem C21_succeeds : forall (U : dict (arr2 T)) segs,
    Forall (fun s => forall k, In k (dkeys s) -> k <> "tag" -> In k (dkeys U)) segs ->
    exists segs', unpack_subsegments U segs = Ok segs'.
  Proof. exact unpack_ok. Qed.
End Props.

(** C12: with a placeholder the second expansion can give another result *)
Theorem C12_idempotent_refuted : exists (d d' d'' : dict (cval nat unit)), shaped (CCond d) /\
  conditions_expand_rows 0 2 false d = Ok d' /\ conditions_expand_rows 0 2 false d' = Ok d'' /\ d' <> d''.
Proof.
  exists [("lift", CExp 1 7)]. eexists; eexists. split.
  { cbn. repeat split. constructor; [intros []|constructor]. }
  split; [reflexivity|]. split; [reflexivity|]. discriminate.
Qed.

(** C21: an unknown with two columns is cut into the wrong pieces: [size] counts its elements,
    the slice counts rows *)
Theorem C21_two_columns_refuted : exists (U : dict (arr2 nat)) segs segs' u,
  dget "x" U = Some u /\ Forall (fun s => NoDup (dkeys s)) segs /\
  unpack_subsegments U segs = Ok segs' /\ arows u = concat (column_of "x" segs) /\
  column_of "x" segs' <> column_of "x" segs.
Proof.
  exists [("x", {| ncols := 2; arows := [[1;2];[3;4]] |})].
  exists [[("x", {| ncols := 2; arows := [[1;2]] |})]; [("x", {| ncols := 2; arows := [[3;4]] |})]].
  eexists; eexists. split; [reflexivity|]. split.
  { repeat constructor; intros []. }
  split; [reflexivity|]. split; [reflexivity|]. discriminate.
Qed.

Definition conds1 : dict (cval nat string) :=
  [("freestream", CCond [("v", CMat 3 [[1;2;3]]); ("t", CMat 1 [[1];[2]]); ("none", CMat 2 []); ("tag", COther "fs")]);
   ("m1", CExp 1 9)].
Example C12_case : shaped (CCond conds1) /\
  conditions_expand_rows 0 3 false conds1 = Ok
   [("freestream", CCond [("v", CMat 3 [[1;2;3];[1;2;3];[1;2;3]]); ("t", CMat 1 [[1];[2]]);
                          ("none", CMat 2 [[0;0];[0;0];[0;0]]); ("tag", COther "fs"); ("_size", CInt 3)]);
    ("m1", CMat 1 [[9];[9]]); ("_size", CInt 3)] /\
  (forall p adj x, cond_at (CCond conds1) p = Some (CExp adj x) -> adj + 2 <= 3).
Proof.
  split; [|split; [reflexivity|]].
  - apply shaped_Cond. split; [repeat constructor; cbn; intuition discriminate|].
    repeat constructor; cbn; intuition discriminate.
  - intros p a x H. destruct p as [|k p]; [discriminate|]. cbn in H.
    destruct (String.eqb k "freestream").
    + destruct p as [|k2 p]; [discriminate|]. cbn in H.
      repeat (destruct (String.eqb k2 _) in H; [destruct p; discriminate|]). discriminate.
    + destruct (String.eqb k "m1"); [|discriminate]. destruct p; [|discriminate]. inversion H. lia.
Qed.
Example C12_override_case :
  conditions_expand_rows 0 3 true ([("t", CMat 1 [[1];[2]])] : dict (cval nat unit))
    = Ok [("t", CMat 1 [[1];[2];[1]]); ("_size", CInt 3)].
Proof. reflexivity. Qed.
Example C12_state_case :
  state_expand_rows 0 2 false ([("conditions", CCond [("t", CMat 1 [[5]])]); ("initials", CCond [("t", CMat 1 [[5]])]);
                                ("x", CMat 1 [[1];[2];[3]])] : dict (cval nat unit))
    = Ok [("conditions", CCond [("t", CMat 1 [[5];[5]]); ("_size", CInt 2)]); ("initials", CCond [("t", CMat 1 [[5]])]);
          ("x", CMat 1 [[1];[2]]); ("_size", CInt 2)].
Proof. reflexivity. Qed.

Definition col (l : list nat) : arr2 nat := {| ncols := 1; arows := map (fun x => [x]) l |}.
Example C21_case :
  let segs := [[("throttle", col [0;0]); ("tag", col [])]; [("body_angle", col [0])]; [("throttle", col [0;0;0]); ("body_angle", col [0])]] in
  unpack_subsegments [("throttle", col [1;2;3;4;5]); ("body_angle", col [6;7])] segs
    = Ok [[("throttle", col [1;2]); ("tag", col [])]; [("body_angle", col [6])]; [("throttle", col [3;4;5]); ("body_angle", col [7])]]
  /\ Forall (fun s => NoDup (dkeys s)) segs /\ Forall single_columns segs.
Proof.
  cbn zeta. split; [reflexivity|]. split.
  - repeat apply Forall_cons; try apply Forall_nil; cbn; repeat (apply NoDup_cons; [cbn; intuition discriminate|]); apply NoDup_nil.
  - repeat apply Forall_cons; try apply Forall_nil; intros k a H _; cbn in H;
      repeat (destruct (String.eqb k _) in H; [inversion H; reflexivity|]); discriminate.
Qed.

Print Assumptions C12_expanded.
Print Assumptions C12_kept.
Print Assumptions C12_others_untouched.
Print Assumptions C12_placeholder.
Print Assumptions C12_succeeds.
Print Assumptions C12_idempotent.
Print Assumptions C12_state.
Print Assumptions C12_idempotent_refuted.
Print Assumptions C21_partition.
Print Assumptions C21_merge_then_unpack.
Print Assumptions C21_succeeds.
Print Assumptions C21_two_columns_refuted.
