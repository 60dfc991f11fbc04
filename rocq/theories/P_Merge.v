(** * Proofs about append_or_update *)
From Coq Require Import String List Bool Arith Lia.
From Verif Require Import PyBase M_Data S_Data P_Dict P_Data M_Merge S_Merge S_Diffed.
Import ListNotations.
Local Open Scope list_scope.

Section Merge.
  Context {T F : Type}.
  Notation atree := (tree (aval T F)).
  Notation adict := (dict (tree (aval T F))).
  Local Arguments wf : simpl never.

  Definition aou_step (self : adict) (kv : string * atree) : result adict :=
    let '(k, v) := kv in
    if private k then Ok self
    else if is_arr_tree v && dhas k self then
      match dget k self with
      | Some old => bind (append_array old v) (fun x => Ok (dset k x self))
      | None => Ok self
      end
    else match dget k self with
         | Some (Node sub) =>
             match append_or_update v sub with
             | Ok sub' => Ok (dset k (Node sub') self)
             | Err _ => Ok (dset k v self)
             end
         | _ => Ok (dset k v self)
         end.
  Fixpoint aou_items (items self : adict) : result adict :=
    match items with
    | [] => Ok self
    | kv :: rest => bind (aou_step self kv) (aou_items rest)
    end.
  Lemma aou_Node (items self : adict) : append_or_update (Node items) self = aou_items items self.
  Proof.
    cbn [append_or_update]. revert self. induction items as [|[k v] r IH]; intros self; [reflexivity|].
    cbn [aou_items aou_step].
    match goal with |- bind ?X _ = bind ?Y _ => change Y with X; destruct X as [s|e] end; [|reflexivity].
    cbn [bind]. apply IH.
  Qed.
  Local Arguments append_or_update : simpl never.

  (** what one item does to its own key *)
  Definition aou_val (old : option atree) (v : atree) : result atree :=
    if is_arr_tree v && match old with Some _ => true | None => false end then
      match old with Some o => append_array o v | None => Ok v end
    else match old with
         | Some (Node sub) => match append_or_update v sub with Ok s => Ok (Node s) | Err _ => Ok v end
         | _ => Ok v
         end.
  Lemma aou_step_eq self k v : private k = false ->
    aou_step self (k, v) = bind (aou_val (dget k self) v) (fun x => Ok (dset k x self)).
  Proof.
    intros Hp. unfold aou_step, aou_val, dhas. rewrite Hp.
    destruct (dget k self) as [old|]; destruct (is_arr_tree v); cbn [andb]; try reflexivity;
      destruct old as [o|l|sub]; try reflexivity; destruct (append_or_update v sub); reflexivity.
  Qed.

  Lemma aou_lookup (items : adict) : NoDup (dkeys items) -> forall self r k,
    aou_items items self = Ok r ->
    if private k then dget k r = dget k self
    else match dget k items with
         | None => dget k r = dget k self
         | Some v => exists x, aou_val (dget k self) v = Ok x /\ dget k r = Some x
         end.
  Proof.
    induction items as [|[k0 v0] rest IH]; intros Hnd self r k H.
    - cbn [aou_items] in H. inversion H; subst. simpl. destruct (private k); reflexivity.
    - simpl in Hnd. inversion Hnd as [|? ? Hn0 Hnd']; subst. cbn [aou_items] in H.
      destruct (private k0) eqn:Ep0.
      + cbn [aou_step] in H. rewrite Ep0 in H. cbn [bind] in H.
        specialize (IH Hnd' self r k H). simpl.
        destruct (private k) eqn:Ep; [exact IH|]. destruct (String.eqb_spec k k0); [congruence|exact IH].
      + rewrite aou_step_eq in H by exact Ep0.
        destruct (aou_val (dget k0 self) v0) as [x0|] eqn:E0; [|discriminate]. cbn [bind] in H.
        specialize (IH Hnd' _ r k H). simpl.
        destruct (private k) eqn:Ep.
        * rewrite IH. apply dget_dset_ne. congruence.
        * destruct (String.eqb_spec k k0) as [->|Hne].
          -- rewrite (proj2 (dget_None_iff k0 rest)) in IH by exact Hn0.
             exists x0. split; [exact E0|]. rewrite IH. apply dget_dset_eq.
          -- rewrite dget_dset_ne in IH by exact Hne. exact IH.
  Qed.

  Lemma aou_ok (items : adict) : NoDup (dkeys items) -> forall self,
    (forall k v, In (k, v) items -> private k = false -> exists x, aou_val (dget k self) v = Ok x) ->
    exists r, aou_items items self = Ok r.
  Proof.
    induction items as [|[k0 v0] rest IH]; intros Hnd self H; [exists self; reflexivity|].
    simpl in Hnd. inversion Hnd as [|? ? Hn0 Hnd']; subst. cbn [aou_items].
    destruct (private k0) eqn:Ep0.
    - cbn [aou_step]. rewrite Ep0. cbn [bind]. apply IH; auto. intros; apply H; simpl; auto.
    - rewrite aou_step_eq by exact Ep0. destruct (H k0 v0 (or_introl eq_refl) Ep0) as [x Hx].
      rewrite Hx. cbn [bind]. apply IH; auto. intros k v Hin Hp.
      rewrite dget_dset_ne; [apply H; simpl; auto|].
      intros ->. apply Hn0. apply (in_map fst) in Hin. exact Hin.
  Qed.

  Lemma aou_keys_nodup (items : adict) : forall self r, NoDup (dkeys self) ->
    aou_items items self = Ok r -> NoDup (dkeys r).
  Proof.
    induction items as [|[k0 v0] rest IH]; intros self r Hs H; cbn [aou_items] in H; [inversion H; subst; auto|].
    destruct (private k0) eqn:Ep0.
    - cbn [aou_step] in H. rewrite Ep0 in H. cbn [bind] in H. eapply IH; eauto.
    - rewrite aou_step_eq in H by exact Ep0. destruct (aou_val _ _) as [x|]; [|discriminate]. cbn [bind] in H.
      eapply IH; [|exact H]. apply NoDup_dset; auto.
  Qed.

  Lemma nat_list_eqb_eq a b : nat_list_eqb a b = true <-> a = b.
  Proof.
    revert b. induction a as [|x a IH]; destruct b as [|y b]; simpl; try (split; congruence); try tauto.
    rewrite andb_true_iff, Nat.eqb_eq, IH. split; [intros [-> ->]; reflexivity|intros H; inversion H; auto].
  Qed.

  Lemma at_least_2d_array (v : aval T F) : is_array v = true -> at_least_2d v = Some (row_shape v, rows_of v).
  Proof. destruct v; simpl; congruence. Qed.
  Lemma at_least_2d_other (v : aval T F) : is_array v = false -> at_least_2d v = None.
  Proof. destruct v; simpl; congruence. Qed.

  Lemma append_array_ok (a b : aval T F) : is_array a = true -> is_array b = true -> row_shape a = row_shape b ->
    append_array (Leaf a) (Leaf b) = Ok (Leaf (AN (row_shape a) (rows_of a ++ rows_of b))).
  Proof.
    intros Ha Hb H. unfold append_array. rewrite (at_least_2d_array a Ha), (at_least_2d_array b Hb).
    rewrite (proj2 (nat_list_eqb_eq _ _) H). reflexivity.
  Qed.

  Lemma public_cons k p : public_path (k :: p) <-> private k = false /\ public_path p.
  Proof.
    unfold public_path. simpl. rewrite andb_true_iff, negb_true_iff. tauto.
  Qed.

  Lemma conforms_sub sh (s : adict) k sub : conforms sh s -> private k = false ->
    dget k s = Some (Node sub) -> conforms (fun p => sh (k :: p)) sub.
  Proof.
    intros H Hk E p v Hp [Hv Ha]. apply (H (k :: p) v).
    - apply public_cons; auto.
    - split; [|exact Ha]. cbn [at_path]. rewrite E. exact Hv.
  Qed.

  (** one merge of conforming data succeeds, conforms again, and stacks what both have *)
  Lemma aou_main (t : atree) : wf t -> match t with
    | Node b => forall sh a, wf (Node a) -> conforms sh a -> conforms sh b ->
        exists r, append_or_update (Node b) a = Ok r /\ wf (Node r) /\ conforms sh r /\
          (forall p va vb, public_path p -> array_at a p va -> array_at b p vb ->
             exists vr, array_at r p vr /\ rows_of vr = rows_of va ++ rows_of vb) /\
          (forall p vb, public_path p -> p <> [] -> array_at b p vb ->
             (forall q, q <> [] -> is_prefix q p = true -> at_path (Node a) q = None) ->
             array_at r p vb)
    | _ => True
    end.
  Proof.
    induction t as [x|l IH|b IH] using tree_ind'; intros Hb; auto. intros sh a Ha Ca Cb.
    pose proof (proj1 (proj1 (wf_Node b) Hb)) as Nb. pose proof (proj1 (proj1 (wf_Node a) Ha)) as Na.
    rewrite Forall_forall in IH.
    assert (Hval : forall k v, dget k b = Some v -> private k = false ->
       exists x, aou_val (dget k a) v = Ok x /\ wf x /\
         (forall w, x = Leaf w -> is_array w = true -> row_shape w = sh [k]) /\
         (forall sub, x = Node sub -> conforms (fun p => sh (k :: p)) sub) /\
         (forall va vb, dget k a = Some (Leaf va) -> is_array va = true -> v = Leaf vb -> is_array vb = true ->
            exists vr, x = Leaf vr /\ is_array vr = true /\ rows_of vr = rows_of va ++ rows_of vb) /\
         (forall sa sb, dget k a = Some (Node sa) -> v = Node sb ->
            exists sr, x = Node sr /\
              (forall p va vb, public_path p -> array_at sa p va -> array_at sb p vb ->
                 exists vr, array_at sr p vr /\ rows_of vr = rows_of va ++ rows_of vb) /\
              (forall p vb, public_path p -> p <> [] -> array_at sb p vb ->
                 (forall q, q <> [] -> is_prefix q p = true -> at_path (Node sa) q = None) ->
                 array_at sr p vb)) /\
         (dget k a = None -> x = v)).
    { intros k v Eb Hk. pose proof (wf_dget k v b Hb Eb) as Hwv.
      assert (Hshb : forall w, v = Leaf w -> is_array w = true -> row_shape w = sh [k]).
      { intros w -> Hw. apply (Cb [k] w); [apply public_cons; split; [exact Hk|reflexivity]|].
        split; [simpl; rewrite Eb; reflexivity|exact Hw]. }
      assert (Hsha : forall w, dget k a = Some (Leaf w) -> is_array w = true -> row_shape w = sh [k]).
      { intros w Ew Hw. apply (Ca [k] w); [apply public_cons; split; [exact Hk|reflexivity]|].
        split; [simpl; rewrite Ew; reflexivity|exact Hw]. }
      assert (Hsubb : forall sub, v = Node sub -> conforms (fun p => sh (k :: p)) sub).
      { intros sub ->. eapply conforms_sub; eauto. }
      unfold aou_val. destruct (is_arr_tree v) eqn:Ev.
      - destruct v as [vb| |]; try discriminate. simpl in Ev.
        destruct (dget k a) as [old|] eqn:Ea; cbn [andb].
        + destruct old as [va|l|sa].
          * destruct (is_array va) eqn:Eva.
            -- rewrite (append_array_ok va vb Eva Ev) by (rewrite (Hshb vb), (Hsha va); auto).
               eexists; split; [reflexivity|]. split; [exact I|]. split.
               { intros w Hw _. inversion Hw; subst. simpl. apply Hsha; auto. }
               split; [discriminate|]. split.
               { intros va' vb' H1 H2 H3 H4. inversion H1; inversion H3; subst.
                 eexists; split; [reflexivity|]. split; reflexivity. }
               split; [discriminate|discriminate].
            -- unfold append_array. rewrite (at_least_2d_other va Eva).
               eexists; split; [reflexivity|]. split; [exact I|].
               split; [intros w Hw Hw2; inversion Hw; subst; discriminate|].
               split; [discriminate|]. split; [intros va' vb' H1 H2; inversion H1; subst; congruence|].
               split; discriminate.
          * eexists; split; [reflexivity|]. split; [exact I|].
            split; [intros w Hw Hw2; inversion Hw; subst; discriminate|]. repeat split; discriminate.
          * eexists; split; [reflexivity|]. split; [exact I|].
            split; [intros w Hw Hw2; inversion Hw; subst; discriminate|]. repeat split; discriminate.
        + eexists; split; [reflexivity|]. split; [exact I|]. split; [exact Hshb|].
          split; [discriminate|]. repeat split; try discriminate.
      - cbn [andb].
        assert (Dflt : (forall va vb, dget k a = Some (Leaf va) -> is_array va = true -> v = Leaf vb -> is_array vb = true ->
            exists vr, v = Leaf vr /\ is_array vr = true /\ rows_of vr = rows_of va ++ rows_of vb)).
        { intros va vb _ _ -> Hvb. simpl in Ev. congruence. }
        destruct (dget k a) as [[va|l|sa]|] eqn:Ea.
        + exists v. split; [reflexivity|]. split; [exact Hwv|]. split; [exact Hshb|]. split; [exact Hsubb|].
          split; [exact Dflt|]. split; [discriminate|discriminate].
        + exists v. split; [reflexivity|]. split; [exact Hwv|]. split; [exact Hshb|]. split; [exact Hsubb|].
          split; [exact Dflt|]. split; [discriminate|discriminate].
        + destruct v as [vb|l|sb].
          * exists (Leaf vb). split; [reflexivity|]. split; [exact Hwv|]. split; [exact Hshb|]. split; [exact Hsubb|].
            split; [exact Dflt|]. split; [discriminate|discriminate].
          * exists (Seq l). split; [reflexivity|]. split; [exact Hwv|]. split; [exact Hshb|]. split; [exact Hsubb|].
            split; [exact Dflt|]. split; [discriminate|discriminate].
          * pose proof (IH (k, Node sb) (dget_Some_In _ _ _ Eb) Hwv) as R. cbn [snd] in R.
            destruct (R (fun p => sh (k :: p)) sa) as (sr & E & Wr & Cr & S1 & S2).
            { apply (wf_dget k _ a Ha Ea). }
            { exact (conforms_sub sh a k sa Ca Hk Ea). }
            { apply Hsubb. reflexivity. }
            rewrite E. exists (Node sr). split; [reflexivity|]. split; [exact Wr|].
            split; [discriminate|]. split; [intros sub Hs; inversion Hs; subst; exact Cr|].
            split; [intros va vb H1; discriminate|]. split; [|discriminate].
            intros sa' sb' H1 H2. inversion H1; inversion H2; subst. exists sr. split; [reflexivity|]. split; [exact S1|exact S2].
        + exists v. split; [reflexivity|]. split; [exact Hwv|]. split; [exact Hshb|]. split; [exact Hsubb|].
          split; [exact Dflt|]. split; [discriminate|auto]. }
    destruct (aou_ok b Nb a) as [r Hr].
    { intros k v Hin Hk. apply (In_dget k v b Nb) in Hin.
      destruct (Hval k v Hin Hk) as (x & Hx & _). eauto. }
    assert (HL : forall k, if private k then dget k r = dget k a
       else match dget k b with None => dget k r = dget k a
            | Some v => exists x, aou_val (dget k a) v = Ok x /\ dget k r = Some x end).
    { intros k. apply aou_lookup; auto. }
    exists r. rewrite aou_Node. split; [exact Hr|].
    assert (HR : forall k x, dget k r = Some x ->
       (private k = true \/ dget k b = None) /\ dget k a = Some x \/
       (private k = false /\ exists v, dget k b = Some v /\ aou_val (dget k a) v = Ok x)).
    { intros k x Hx. specialize (HL k). destruct (private k); [left; split; [auto|congruence]|].
      destruct (dget k b) as [v|]; [right|left; split; [auto|congruence]].
      destruct HL as (x' & H1 & H2). split; [reflexivity|]. exists v. split; [reflexivity|]. congruence. }
    split.
    { apply wf_Node. split; [eapply aou_keys_nodup; eauto|].
      apply Forall_forall. intros [k x] Hin. simpl.
      apply In_dget in Hin; [|eapply aou_keys_nodup; eauto].
      destruct (HR k x Hin) as [[_ Ha']|[Hk (v & Eb & Ev)]].
      - exact (wf_dget k x a Ha Ha').
      - destruct (Hval k v Eb Hk) as (x' & Hx' & Wx & _). congruence. }
    split.
    { intros p v Hp [Hv Hva]. destruct p as [|k p]; [discriminate|].
      apply public_cons in Hp as [Hk Hp]. cbn [at_path] in Hv.
      destruct (dget k r) as [x|] eqn:Ex; [|discriminate].
      destruct (HR k x Ex) as [[_ Ea]|[_ (v' & Eb & Ev)]].
      - apply (Ca (k :: p) v); [apply public_cons; auto|]. split; [|exact Hva]. cbn [at_path]. rewrite Ea. exact Hv.
      - destruct (Hval k v' Eb Hk) as (x' & Hx' & _ & G1 & G2 & _). rewrite Ev in Hx'. inversion Hx'; subst x'.
        destruct p as [|k2 p].
        + cbn [at_path] in Hv. inversion Hv; subst. apply G1; auto.
        + destruct x as [| |sub]; try discriminate. apply (G2 sub eq_refl (k2 :: p) v); [exact Hp|].
          split; [exact Hv|exact Hva]. }
    split.
    - intros p va vb Hp [Pa Aa] [Pb Ab]. destruct p as [|k p]; [discriminate|].
      apply public_cons in Hp as [Hk Hp]. cbn [at_path] in Pa, Pb.
      destruct (dget k a) as [xa|] eqn:Ea; [|discriminate]. destruct (dget k b) as [xb|] eqn:Eb; [|discriminate].
      specialize (HL k). rewrite Hk, Eb in HL. destruct HL as (x & Hx & Er).
      destruct (Hval k xb Eb Hk) as (x' & Hx' & _ & _ & _ & G3 & G4 & _). rewrite Ea in Hx', G3, G4.
      rewrite Ea in Hx. rewrite Hx in Hx'. inversion Hx'; subst x'.
      destruct p as [|k2 p].
      + cbn [at_path] in Pa, Pb. inversion Pa; inversion Pb; subst.
        destruct (G3 va vb eq_refl Aa eq_refl Ab) as (vr & -> & Hr1 & Hr2).
        exists vr. split; [|exact Hr2]. split; [|exact Hr1]. cbn [at_path]. rewrite Er. reflexivity.
      + destruct xa as [| |sa]; try discriminate. destruct xb as [| |sb]; try discriminate.
        destruct (G4 sa sb eq_refl eq_refl) as (sr & -> & S1 & _).
        destruct (S1 (k2 :: p) va vb Hp (conj Pa Aa) (conj Pb Ab)) as (vr & [Pr Ar] & Hrow).
        exists vr. split; [|exact Hrow]. split; [|exact Ar]. cbn [at_path]. rewrite Er. exact Pr.
    - intros p vb Hp Hne [Pb Ab] Hpre. destruct p as [|k p]; [congruence|].
      apply public_cons in Hp as [Hk Hp]. cbn [at_path] in Pb.
      destruct (dget k b) as [xb|] eqn:Eb; [|discriminate].
      assert (Ea : dget k a = None).
      { specialize (Hpre [k]). cbn [at_path] in Hpre. destruct (dget k a); [|reflexivity].
        exfalso. assert (Some t = None); [|discriminate]. apply Hpre; [discriminate|]. simpl. rewrite String.eqb_refl. reflexivity. }
      specialize (HL k). rewrite Hk, Eb in HL. destruct HL as (x & Hx & Er).
      destruct (Hval k xb Eb Hk) as (x' & Hx' & _ & _ & _ & _ & _ & G5). rewrite Hx in Hx'. inversion Hx'; subst x'.
      rewrite (G5 Ea) in Er. split; [|exact Ab]. cbn [at_path]. rewrite Er. exact Pb.
  Qed.

  (** any number of segments *)
  Lemma merged_rows sh (segs : list adict) p :
    segs <> [] -> Forall (fun s => wf (Node s)) segs -> Forall (conforms sh) segs -> public_path p ->
    exists r, merged segs = Ok r /\ wf (Node r) /\ conforms sh r /\
      (forall vs, Forall2 (fun s v => array_at s p v) segs vs ->
        exists vr, array_at r p vr /\ rows_of vr = concat (map rows_of vs)).
  Proof.
    intros Hne Hwf Hc Hp. destruct segs as [|s segs]; [congruence|]. cbn [merged].
    inversion Hwf as [|? ? Ws Wss]; subst. inversion Hc as [|? ? Cs Css]; subst. clear Hne Hwf Hc.
    assert (G : forall (segs : list adict) acc, wf (Node acc) -> conforms sh acc ->
       Forall (fun s => wf (Node s)) segs -> Forall (conforms sh) segs ->
       exists r, fold_left (fun acc s' => bind acc (append_or_update (Node s'))) segs (Ok acc) = Ok r /\
         wf (Node r) /\ conforms sh r /\
         (forall va vs, array_at acc p va -> Forall2 (fun s v => array_at s p v) segs vs ->
           exists vr, array_at r p vr /\ rows_of vr = rows_of va ++ concat (map rows_of vs))).
    { clear - Hp. induction segs as [|s segs IH]; intros acc Wa Ca Ws Cs.
      - exists acc. split; [reflexivity|]. split; [exact Wa|]. split; [exact Ca|]. intros va vs Hva Hvs. inversion Hvs; subst. exists va.
        split; [exact Hva|]. simpl. symmetry. apply app_nil_r.
      - inversion Ws; subst. inversion Cs; subst. cbn [fold_left bind].
        destruct (aou_main (Node s) H1 sh acc Wa Ca H3) as (r1 & E1 & W1 & C1 & S1 & _).
        rewrite E1. destruct (IH r1 W1 C1 H2 H4) as (r & E & W & C & S).
        exists r. split; [exact E|]. split; [exact W|]. split; [exact C|]. intros va vs Hva Hvs. inversion Hvs as [|? v ? vs' Hv Hvs']; subst.
        destruct (S1 p va v Hp Hva Hv) as (v1 & Hv1 & R1).
        destruct (S v1 vs' Hv1 Hvs') as (vr & Hvr & Rr). exists vr. split; [exact Hvr|].
        rewrite Rr, R1, <- app_assoc. reflexivity. }
    destruct (G segs s Ws Cs Wss Css) as (r & E & W & C & S).
    exists r. split; [exact E|]. split; [exact W|]. split; [exact C|]. intros vs Hvs. inversion Hvs as [|? v ? vs' Hv Hvs']; subst.
    destruct (S v vs' Hv Hvs') as (vr & H1 & H2). exists vr. split; [exact H1|exact H2].
  Qed.

  (** row k of the i-th block of a concatenation *)
  Lemma concat_offset {X} (ls : list (list X)) i k l :
    nth_error ls i = Some l -> (k < List.length l)%nat ->
    nth_error (concat ls) (List.length (concat (firstn i ls)) + k) = nth_error l k.
  Proof.
    revert i. induction ls as [|x ls IH]; intros i Hi Hk; [destruct i; discriminate|].
    destruct i as [|i]; simpl in *.
    - inversion Hi; subst. apply nth_error_app1. exact Hk.
    - rewrite app_length, <- Nat.add_assoc. rewrite nth_error_app2 by lia.
      rewrite Nat.add_comm, Nat.add_sub. apply IH; auto.
  Qed.

  (** a sub-Data whose merge fails is replaced by the later one *)
  Lemma aou_nested_failure (a : adict) k sa sb : private k = false -> dget k a = Some (Node sa) ->
    (exists e, append_or_update (Node sb) sa = Err e) ->
    append_or_update (Node [(k, Node sb)]) a = Ok (dset k (Node sb) a).
  Proof.
    intros Hk Ea [e He]. rewrite aou_Node. cbn [aou_items]. rewrite aou_step_eq by exact Hk.
    unfold aou_val. cbn [is_arr_tree andb]. rewrite Ea, He. reflexivity.
  Qed.
End Merge.

Section MergeMore.
  Context {T F : Type}.
  Notation atree := (tree (aval T F)).
  Notation adict := (dict (tree (aval T F))).

  Lemma aou_private (a b : adict) r k : wf (Node b) -> append_or_update (Node b) a = Ok r ->
    private k = true -> dget k r = dget k a.
  Proof.
    intros Hb H Hk. rewrite aou_Node in H.
    pose proof (aou_lookup b (proj1 (proj1 (wf_Node b) Hb)) a r k H) as L. rewrite Hk in L. exact L.
  Qed.

  Lemma aou_only_left (a b : adict) r k : wf (Node b) -> append_or_update (Node b) a = Ok r ->
    dget k b = None -> dget k r = dget k a.
  Proof.
    intros Hb H Hk. rewrite aou_Node in H.
    pose proof (aou_lookup b (proj1 (proj1 (wf_Node b) Hb)) a r k H) as L. rewrite Hk in L.
    destruct (private k); exact L.
  Qed.

  Lemma merged_private (segs : list adict) s r k : Forall (fun s => wf (Node s)) segs ->
    merged (s :: segs) = Ok r -> private k = true -> dget k r = dget k s.
  Proof.
    cbn [merged]. revert s. induction segs as [|s1 segs IH]; intros s Hw H Hk.
    - simpl in H. inversion H; reflexivity.
    - inversion Hw; subst. cbn [fold_left bind] in H.
      destruct (append_or_update (Node s1) s) as [r1|e] eqn:E.
      + rewrite (IH r1); auto. eapply aou_private; eauto.
      + exfalso. clear - H. induction segs as [|s2 segs IH]; simpl in H; [discriminate|apply IH; exact H].
  Qed.
  Lemma merged_rows_of_segment sh (segs : list adict) p vs r :
    segs <> [] -> Forall (fun s => wf (Node s)) segs -> Forall (conforms sh) segs -> public_path p ->
    Forall2 (fun s v => array_at s p v) segs vs -> merged segs = Ok r ->
    exists vr, array_at r p vr /\
      List.length (rows_of vr) = list_sum (map (fun v => List.length (rows_of v)) vs) /\
      forall i k v, nth_error vs i = Some v -> (k < List.length (rows_of v))%nat ->
        nth_error (rows_of vr) (list_sum (map (fun v => List.length (rows_of v)) (firstn i vs)) + k)
          = nth_error (rows_of v) k.
  Proof.
    intros Hne Hw Hc Hp Hvs Hm.
    destruct (merged_rows sh segs p Hne Hw Hc Hp) as (r' & E & _ & _ & S).
    rewrite E in Hm; inversion Hm; subst r'. destruct (S vs Hvs) as (vr & Ha & Hr).
    assert (L : forall l : list (aval T F),
      List.length (concat (map rows_of l)) = list_sum (map (fun v => List.length (rows_of v)) l)).
    { induction l as [|x l IH]; simpl; [reflexivity|]. rewrite app_length, IH. reflexivity. }
    exists vr. split; [exact Ha|]. split; [rewrite Hr; apply L|].
    intros i k v Hi Hk. rewrite Hr, <- L, <- firstn_map.
    apply concat_offset; [|exact Hk]. apply map_nth_error. exact Hi.
  Qed.
End MergeMore.
