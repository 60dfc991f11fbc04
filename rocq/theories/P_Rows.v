(** * Proofs about row expansion and sub-segment unknowns *)
From Coq Require Import String List Bool Arith Lia.
From Verif Require Import PyBase M_Data P_Dict M_Rows S_Rows.
Import ListNotations.
Local Open Scope string_scope.
Local Open Scope list_scope.

Lemma concat_concat {X} (l : list (list (list X))) : concat (concat l) = concat (map (@concat X) l).
Proof. induction l as [|x l IH]; simpl; [reflexivity|]. rewrite concat_app, IH. reflexivity. Qed.
Lemma map_repeat {X Y} (f : X -> Y) x n : map f (repeat x n) = repeat (f x) n.
Proof. induction n; simpl; congruence. Qed.
Lemma nth_error_repeat {X} (x : X) n i : i < n -> nth_error (repeat x n) i = Some x.
Proof. revert i; induction n; intros i H; [lia|]. destruct i; simpl; [reflexivity|]. apply IHn; lia. Qed.
Lemma length_concat_const {X} c (l : list (list X)) : Forall (fun r => List.length r = c) l ->
  List.length (concat l) = List.length l * c.
Proof. induction 1; simpl; [reflexivity|]. rewrite app_length. lia. Qed.
Lemma length_concat_repeat {X} (l : list X) k : List.length (concat (repeat l k)) = k * List.length l.
Proof. induction k; simpl; [reflexivity|]. rewrite app_length. lia. Qed.

Lemma nth_cycle {X} (l : list X) k i : i < k * List.length l ->
  nth_error (concat (repeat l k)) i = nth_error l (i mod List.length l).
Proof.
  revert i. induction k as [|k IH]; intros i H; [lia|]. simpl in *.
  destruct (lt_dec i (List.length l)) as [Hl|Hl].
  - rewrite nth_error_app1 by exact Hl. rewrite Nat.mod_small by exact Hl. reflexivity.
  - rewrite nth_error_app2 by lia. rewrite IH by lia.
    f_equal. rewrite <- (Nat.mod_add (i - List.length l) 1 (List.length l)) by lia.
    f_equal. lia.
Qed.

Section Rows.
  Context {T F : Type}.
  Variable zero : T.
  Notation cval := (cval T F).

  Lemma chunk_concat c (R : list (list T)) : Forall (fun r => List.length r = c) R ->
    forall n, n <= List.length R -> chunk c n (firstn (n * c) (concat R)) = firstn n R.
  Proof.
    induction 1 as [|r R Hr HR IH]; intros n Hn; simpl in Hn.
    - assert (n = 0) by lia; subst. reflexivity.
    - destruct n as [|n]; [reflexivity|]. cbn [chunk concat firstn Nat.mul].
      assert (E : firstn (c + n * c) (r ++ concat R) = r ++ firstn (n * c) (concat R)).
      { rewrite <- Hr. apply firstn_app_2. }
      rewrite E. f_equal.
      + rewrite firstn_app, Hr, Nat.sub_diag. simpl. rewrite app_nil_r. rewrite <- Hr. apply firstn_all.
      + rewrite skipn_app, Hr, Nat.sub_diag. replace (skipn c r) with (@nil T) by (rewrite <- Hr; symmetry; apply skipn_all). simpl. apply IH. lia.
  Qed.

  Lemma Forall_concat_repeat {X} (P : X -> Prop) l k : Forall P l -> Forall P (concat (repeat l k)).
  Proof. intros H. induction k; simpl; [constructor|]. apply Forall_app; auto. Qed.

  Lemma resize_cyclic c (rs : list (list T)) n : Forall (fun r => List.length r = c) rs ->
    cyclic_copies zero c n rs (np_resize zero (concat rs) n c).
  Proof.
    intros H. pose proof (length_concat_const c rs H) as L. unfold np_resize.
    destruct (List.length (concat rs)) as [|m] eqn:E.
    - split; [apply repeat_length|]. intros i Hi. rewrite nth_error_repeat by exact Hi.
      destruct rs as [|r rs']; [reflexivity|].
      assert (c = 0) by (simpl in L; lia). subst c.
      assert (Hlt : i mod List.length (r :: rs') < List.length (r :: rs')) by (apply Nat.mod_upper_bound; simpl; lia).
      destruct (nth_error (r :: rs') (i mod List.length (r :: rs'))) as [x|] eqn:En.
      + apply nth_error_In in En. rewrite Forall_forall in H. apply H in En. destruct x; [reflexivity|discriminate].
      + apply nth_error_None in En. lia.
    - assert (Hc : 0 < c) by (destruct c; lia). assert (Hl : 0 < List.length rs) by (destruct (List.length rs); lia).
      set (q := (n * c + m) / S m).
      assert (Hq : n <= q * List.length rs).
      { assert (n * c <= q * S m).
        { unfold q. pose proof (Nat.div_mod (n * c + m) (S m) ltac:(lia)) as D.
          pose proof (Nat.mod_upper_bound (n * c + m) (S m) ltac:(lia)). nia. }
        rewrite L in H0. nia. }
      replace (concat (repeat (concat rs) q)) with (concat (concat (repeat rs q))).
      2:{ rewrite concat_concat, map_repeat. reflexivity. }
      rewrite chunk_concat.
      + split; [apply firstn_length_le; rewrite length_concat_repeat; exact Hq|].
        intros i Hi. destruct rs as [|r rs']; [simpl in Hl; lia|].
        assert (Ef : forall {X} (l : list X) j k, j < k -> nth_error (firstn k l) j = nth_error l j).
        { clear. intros X l. induction l as [|x l IH]; intros j k Hj; destruct k; destruct j; simpl; try lia; try reflexivity. apply IH; lia. }
        rewrite Ef by exact Hi. apply nth_cycle. lia.
      + apply Forall_concat_repeat. exact H.
      + rewrite length_concat_repeat. exact Hq.
  Qed.

  Lemma nth_error_ext {X} (a b : list X) : List.length a = List.length b ->
    (forall i, i < List.length a -> nth_error a i = nth_error b i) -> a = b.
  Proof.
    revert b. induction a as [|x a IH]; destruct b as [|y b]; simpl; intros L H; try lia; [reflexivity|].
    pose proof (H 0 ltac:(lia)) as H0. simpl in H0. inversion H0; subst. f_equal. apply IH; [lia|].
    intros i Hi. apply (H (S i)). lia.
  Qed.
  Lemma resize_same c (rs : list (list T)) : Forall (fun r => List.length r = c) rs ->
    np_resize zero (concat rs) (List.length rs) c = rs.
  Proof.
    intros H. destruct (resize_cyclic c rs (List.length rs) H) as [L E].
    apply nth_error_ext; [exact L|]. rewrite L. intros i Hi. rewrite E by exact Hi.
    destruct rs; [simpl in Hi; lia|]. rewrite Nat.mod_small by exact Hi. reflexivity.
  Qed.
  Lemma resize_shaped c (rs : list (list T)) n : Forall (fun r => List.length r = c) rs ->
    Forall (fun r => List.length r = c) (np_resize zero (concat rs) n c).
  Proof.
    intros H. destruct (resize_cyclic c rs n H) as [L E]. apply Forall_forall. intros r Hr.
    apply In_nth_error in Hr as [i Hi]. assert (Hl : i < n) by (rewrite <- L; apply nth_error_Some; congruence).
    rewrite E in Hi by exact Hl. destruct rs as [|r0 rs'].
    - inversion Hi. apply repeat_length.
    - apply nth_error_In in Hi. rewrite Forall_forall in H. auto.
  Qed.
  Lemma resize_one (x : T) n : np_resize zero [x] n 1 = repeat [x] n.
  Proof.
    destruct (resize_cyclic 1 [[x]] n) as [L E]; [repeat constructor|]. cbn [concat app] in *.
    apply nth_error_ext; [rewrite L, repeat_length; reflexivity|]. rewrite L. intros i Hi.
    rewrite E by exact Hi. rewrite nth_error_repeat by exact Hi. cbn [List.length]. rewrite Nat.mod_1_r. reflexivity.
  Qed.

  (** ** the loop over the items *)
  Fixpoint expand_items (n : nat) (ov : bool) (d : list (string * cval)) : result (list (string * cval)) :=
    match d with
    | [] => Ok []
    | (k, x) :: r =>
        bind (if String.eqb k "_size" then Ok x else expand_val zero n ov x)
             (fun x' => bind (expand_items n ov r) (fun r' => Ok ((k, x') :: r')))
    end.
  Lemma expand_Cond n ov d : expand_val zero n ov (CCond d) =
    bind (expand_items n ov d) (fun d' => Ok (CCond (dset "_size" (CInt n) d'))).
  Proof.
    cbn [expand_val]. f_equal. induction d as [|[k x] r IH]; [reflexivity|].
    cbn [expand_items]. rewrite <- IH. reflexivity.
  Qed.
  Local Arguments expand_val : simpl never.

  Section Ind.
    Variable P : cval -> Prop.
    Hypothesis HM : forall c rs, P (CMat c rs).
    Hypothesis HC : forall d, Forall (fun kv => P (snd kv)) d -> P (CCond d).
    Hypothesis HE : forall a x, P (CExp a x).
    Hypothesis HI : forall n, P (CInt n).
    Hypothesis HO : forall f, P (COther f).
    Fixpoint cval_ind' (v : cval) : P v :=
      match v with
      | CMat c rs => HM c rs
      | CCond d => HC d ((fix go (d : list (string * cval)) : Forall (fun kv => P (snd kv)) d :=
                            match d with
                            | [] => Forall_nil _
                            | kv :: r => Forall_cons kv (cval_ind' (snd kv)) (go r)
                            end) d)
      | CExp a x => HE a x
      | CInt n => HI n
      | COther f => HO f
      end.
  End Ind.

  Lemma expand_items_keys n ov d d' : expand_items n ov d = Ok d' -> map fst d' = map fst d.
  Proof.
    revert d'. induction d as [|[k x] r IH]; intros d' H; cbn [expand_items] in H; [inversion H; reflexivity|].
    destruct (if String.eqb k "_size" then _ else _) as [x'|]; [|discriminate]. cbn [bind] in H.
    destruct (expand_items n ov r) as [r'|]; [|discriminate]. cbn [bind] in H. inversion H; subst.
    simpl. f_equal. auto.
  Qed.
  Lemma expand_items_get n ov d d' k : expand_items n ov d = Ok d' -> k <> "_size" ->
    match dget k d with
    | None => dget k d' = None
    | Some x => exists x', expand_val zero n ov x = Ok x' /\ dget k d' = Some x'
    end.
  Proof.
    revert d'. induction d as [|[k0 x] r IH]; intros d' H Hk; cbn [expand_items] in H; [inversion H; reflexivity|].
    destruct (if String.eqb k0 "_size" then _ else _) as [x'|] eqn:E; [|discriminate]. cbn [bind] in H.
    destruct (expand_items n ov r) as [r'|] eqn:Er; [|discriminate]. cbn [bind] in H. inversion H; subst.
    cbn [dget]. destruct (String.eqb_spec k k0) as [->|Hne].
    - destruct (String.eqb_spec k0 "_size"); [congruence|]. eauto.
    - apply IH; auto.
  Qed.

  Lemma shaped_Cond (d : dict cval) : shaped (CCond d) <-> NoDup (map fst d) /\ Forall (fun kv => shaped (snd kv)) d.
  Proof.
    cbn [shaped]. apply and_iff_compat_l.
    induction d as [|[k x] r IH]; simpl; [split; auto|].
    rewrite Forall_cons_iff, <- IH. reflexivity.
  Qed.
  Lemma shaped_dget (d : dict cval) k x : shaped (CCond d) -> dget k d = Some x -> shaped x.
  Proof.
    rewrite shaped_Cond. intros [_ H] E. apply dget_Some_In in E. rewrite Forall_forall in H.
    apply (H _ E).
  Qed.
  Lemma shaped_at (v : cval) p x : shaped v -> cond_at v p = Some x -> shaped x.
  Proof.
    revert v. induction p as [|k p IH]; intros v Hs H; cbn [cond_at] in H; [inversion H; subst; auto|].
    destruct v as [|d| | |]; try discriminate. destruct (dget k d) as [y|] eqn:E; [|discriminate].
    apply (IH y); auto. eapply shaped_dget; eauto.
  Qed.

  Definition at_expanded (n : nat) (ov : bool) (old : cval) (new : option cval) : Prop :=
    exists new', expand_val zero n ov old = Ok new' /\ new = Some new'.
  Lemma expand_at n ov p : ~ In "_size" p -> forall v v' : cval, expand_val zero n ov v = Ok v' ->
    match cond_at v p with
    | Some x => exists x', expand_val zero n ov x = Ok x' /\ cond_at v' p = Some x'
    | None => p <> [] /\ cond_at v' p = None
    end.
  Proof.
    induction p as [|k p IH]; intros Hp v v' H.
    - simpl. eauto.
    - cbn [cond_at]. simpl in Hp. destruct v as [c rs|d|a x|m|f].
      + split; [discriminate|]. unfold expand_val in H.
        destruct (_ || _); inversion H; subst; reflexivity.
      + rewrite expand_Cond in H. destruct (expand_items n ov d) as [d'|] eqn:E; [|discriminate].
        cbn [bind] in H. inversion H; subst. cbn [cond_at].
        pose proof (expand_items_get n ov d d' k E ltac:(intuition)) as G.
        rewrite dget_dset_ne by intuition.
        destruct (dget k d) as [x|].
        * destruct G as (x' & Ex & ->). specialize (IH ltac:(intuition) x x' Ex).
          destruct (cond_at x p); [exact IH|]. destruct IH as [_ IH]. split; [discriminate|exact IH].
        * rewrite G. split; [discriminate|reflexivity].
      + split; [discriminate|]. unfold expand_val, exp_resize in H.
        destruct (Nat.ltb _ _); [discriminate|]. inversion H; reflexivity.
      + split; [discriminate|]. inversion H; reflexivity.
      + split; [discriminate|]. inversion H; reflexivity.
  Qed.

  Lemma expand_success n ov (v : cval) :
    (forall p a x, cond_at v p = Some (CExp a x) -> a <= n) -> shaped v ->
    exists v', expand_val zero n ov v = Ok v'.
  Proof.
    induction v as [c rs|d IH|a x|m|f] using cval_ind'; intros H Hs.
    - unfold expand_val. destruct (_ || _); eauto.
    - rewrite expand_Cond.
      assert (G : exists d', expand_items n ov d = Ok d').
      { apply shaped_Cond in Hs as [Hnd Hs].
        assert (Hall : Forall (fun kv => exists x', expand_val zero n ov (snd kv) = Ok x') d).
        { rewrite Forall_forall in *. intros [k x] Hin. apply (IH _ Hin).
          - intros p a y Hp. apply (H (k :: p) a y). cbn [cond_at].
            rewrite (In_dget k x d Hnd Hin). exact Hp.
          - apply (Hs _ Hin). }
        clear - Hall. induction Hall as [|[k x] r [x' Hx] _ IH]; [exists []; reflexivity|].
        destruct IH as [r' Hr]. cbn [expand_items snd] in *. rewrite Hx, Hr.
        destruct (String.eqb k "_size"); cbn [bind]; eauto. }
      destruct G as [d' ->]. cbn [bind]. eauto.
    - unfold expand_val, exp_resize. specialize (H [] a x eq_refl).
      destruct (Nat.ltb_spec n a); [lia|eauto].
    - eexists; reflexivity.
    - eexists; reflexivity.
  Qed.

  Lemma expand_shaped n ov (v v' : cval) : shaped v -> expand_val zero n ov v = Ok v' -> shaped v'.
  Proof.
    revert v'. induction v as [c rs|d IH|a x|m|f] using cval_ind'; intros v' Hs H.
    - unfold expand_val in H. destruct (_ || _); inversion H; subst; [|exact Hs].
      simpl. apply resize_shaped. exact Hs.
    - rewrite expand_Cond in H. destruct (expand_items n ov d) as [d'|] eqn:E; [|discriminate].
      cbn [bind] in H. inversion H; subst. clear H. apply shaped_Cond in Hs as [Hnd Hs].
      pose proof (expand_items_keys _ _ _ _ E) as K.
      assert (Hd' : shaped (CCond d')).
      { apply shaped_Cond. split; [rewrite K; exact Hnd|]. clear K Hnd.
        revert d' E. induction d as [|[k x] r IHr]; intros d' E; cbn [expand_items] in E.
        - inversion E; constructor.
        - inversion IH as [|? ? IHx IH']; subst. inversion Hs as [|? ? Hx Hs']; subst.
          destruct (if String.eqb k "_size" then _ else _) as [x'|] eqn:Ex; [|discriminate]. cbn [bind] in E.
          destruct (expand_items n ov r) as [r'|]; [|discriminate]. cbn [bind] in E. inversion E; subst.
          constructor; [|apply (IHr IH' Hs' r' eq_refl)]. cbn [snd] in *. destruct (String.eqb k "_size").
          + inversion Ex; subst; exact Hx.
          + apply IHx; auto. }
      apply shaped_Cond in Hd' as [N1 S1]. apply shaped_Cond. split.
      + apply (NoDup_dset "_size" (CInt n) d' N1).
      + apply Forall_forall. intros [k x] Hin. cbn [snd].
        apply (In_dget k x _ (NoDup_dset "_size" (CInt n) d' N1)) in Hin.
        destruct (string_dec k "_size") as [->|Hne].
        * rewrite dget_dset_eq in Hin. inversion Hin; subst. exact I.
        * rewrite dget_dset_ne in Hin by exact Hne. apply dget_Some_In in Hin.
          rewrite Forall_forall in S1. apply (S1 _ Hin).
    - unfold expand_val, exp_resize in H. destruct (Nat.ltb _ _); [discriminate|]. inversion H; subst.
      simpl. change [x] with (concat [[x]]). apply resize_shaped. repeat constructor.
    - inversion H; exact I.
    - inversion H; exact I.
  Qed.

  (** expanding twice to the same number of rows *)
  Lemma expand_idem n ov (v : cval) : shaped v ->
    (forall p a x, cond_at v p = Some (CExp a x) -> ov = false /\ a + 2 <= n) ->
    forall v', expand_val zero n ov v = Ok v' -> expand_val zero n ov v' = Ok v'.
  Proof.
    induction v as [c rs|d IH|a x|m|f] using cval_ind'; intros Hs Hx v' H.
    - unfold expand_val in H |- *.
      destruct (Nat.leb (List.length rs) 1 || ov) eqn:E; inversion H; subst; [|rewrite E; reflexivity].
      destruct (resize_cyclic c rs n Hs) as [L _].
      match goal with |- context [if ?b then _ else _] => destruct b end; [|reflexivity].
      pose proof (resize_same c _ (resize_shaped c rs n Hs)) as R. rewrite L in R. rewrite R. reflexivity.
    - rewrite expand_Cond in H. destruct (expand_items n ov d) as [d'|] eqn:E; [|discriminate].
      cbn [bind] in H. inversion H; subst. clear H. rewrite expand_Cond.
      apply shaped_Cond in Hs as [Hnd Hs].
      assert (Hi : forall d'', expand_items n ov (dset "_size" (CInt n) d') = Ok d'' ->
                   dset "_size" (CInt n) d'' = dset "_size" (CInt n) d' ->
                   bind (expand_items n ov (dset "_size" (CInt n) d')) (fun d'0 => Ok (CCond (dset "_size" (CInt n) d'0)))
                   = Ok (CCond (dset "_size" (CInt n) d'))).
      { intros d'' -> Hd. cbn [bind]. rewrite Hd. reflexivity. }
      apply Hi with (d'' := dset "_size" (CInt n) d').
      2:{ apply dset_dset. }
      assert (G : forall d d' : dict cval, Forall (fun kv => shaped (snd kv)) d ->
         (Forall (fun kv => forall v', expand_val zero n ov (snd kv) = Ok v' -> expand_val zero n ov v' = Ok v') d) ->
         expand_items n ov d = Ok d' ->
         expand_items n ov (dset "_size" (CInt n) d') = Ok (dset "_size" (CInt n) d')).
      { clear. induction d as [|[k x] r IHr]; intros d' Hs Hall E; cbn [expand_items] in E.
        - inversion E; subst. reflexivity.
        - inversion Hs as [|? ? Hx Hs']; subst. inversion Hall as [|? ? Hx2 Hall']; subst.
          destruct (if String.eqb k "_size" then _ else _) as [x'|] eqn:Ex; [|discriminate]. cbn [bind] in E.
          destruct (expand_items n ov r) as [r'|] eqn:Er; [|discriminate]. cbn [bind] in E. inversion E; subst.
          cbn [dset]. rewrite (String.eqb_sym "_size" k). destruct (String.eqb k "_size") eqn:Ek.
          + apply String.eqb_eq in Ek. subst k. cbn [expand_items]. rewrite String.eqb_refl. cbn [bind].
            assert (Hr' : expand_items n ov r' = Ok r').
            { clear - Hall' Er. revert r' Er. induction r as [|[k x] r IH]; intros r' E; cbn [expand_items] in E.
              - inversion E; reflexivity.
              - inversion Hall' as [|? ? Hx2 Hall2]; subst.
                destruct (if String.eqb k "_size" then _ else _) as [x'|] eqn:Ex; [|discriminate]. cbn [bind] in E.
                destruct (expand_items n ov r) as [r2|] eqn:Er; [|discriminate]. cbn [bind] in E. inversion E; subst.
                cbn [expand_items]. rewrite (IH Hall2 r2 eq_refl). destruct (String.eqb k "_size"); [reflexivity|].
                cbn [snd] in Hx2. rewrite (Hx2 x' Ex). reflexivity. }
            rewrite Hr'. reflexivity.
          + cbn [expand_items]. rewrite Ek. cbn [snd] in Hx2. rewrite (Hx2 x' Ex). cbn [bind].
            rewrite (IHr r' Hs' Hall' eq_refl). reflexivity. }
      apply (G d d'); auto. rewrite Forall_forall in *. intros [k x] Hin v' Hv'. cbn [snd] in *.
      apply (IH _ Hin); [apply (Hs _ Hin)| |exact Hv'].
      intros p a y Hp. apply (Hx (k :: p) a y). cbn [cond_at]. rewrite (In_dget k x d Hnd Hin). exact Hp.
    - destruct (Hx [] a x eq_refl) as [-> Ha]. unfold expand_val, exp_resize in H.
      destruct (Nat.ltb_spec n a); [lia|]. inversion H; subst. unfold expand_val.
      rewrite resize_one, repeat_length. destruct (Nat.leb_spec (n - a) 1); [lia|]. reflexivity.
    - inversion H; subst; reflexivity.
    - inversion H; subst; reflexivity.
  Qed.

  (** State.expand_rows *)
  Lemma state_items_get n ov (d d' : dict cval) k : state_items zero n ov d = Ok d' -> k <> "_size" ->
    match dget k d with
    | None => dget k d' = None
    | Some x => exists x', state_expand_entry zero n ov k x = Ok x' /\ dget k d' = Some x'
    end.
  Proof.
    revert d'. induction d as [|[k0 x] r IH]; intros d' H Hk; cbn [state_items] in H; [inversion H; reflexivity|].
    destruct (if String.eqb k0 "_size" then _ else _) as [x'|] eqn:E; [|discriminate]. cbn [bind] in H.
    destruct (state_items zero n ov r) as [r'|] eqn:Er; [|discriminate]. cbn [bind] in H. inversion H; subst.
    cbn [dget]. destruct (String.eqb_spec k k0) as [->|Hne].
    - destruct (String.eqb_spec k0 "_size"); [congruence|]. eauto.
    - apply IH; auto.
  Qed.
  Lemma state_get n ov (d d' : dict cval) k : state_expand_rows zero n ov d = Ok d' -> k <> "_size" ->
    match dget k d with
    | None => dget k d' = None
    | Some x => exists x', state_expand_entry zero n ov k x = Ok x' /\ dget k d' = Some x'
    end.
  Proof.
    unfold state_expand_rows. intros H Hk. destruct (state_items zero n ov d) as [d1|] eqn:E; [|discriminate].
    cbn [bind] in H. inversion H; subst. rewrite dget_dset_ne by exact Hk. exact (state_items_get n ov d d1 k E Hk).
  Qed.

  (** ** sub-segments *)
  Notation arr2 := (arr2 T).
  Notation one_column := (@single_columns T).

  Lemma unpack_one_spec (U : dict arr2) : forall unk counter s' c', NoDup (dkeys unk) ->
    unpack_one U counter unk = Ok (s', c') ->
    dkeys s' = dkeys unk /\
    (forall k, dget k unk = None -> dget k s' = None /\ dget k c' = dget k counter) /\
    (dget "tag" s' = dget "tag" unk /\ dget "tag" c' = dget "tag" counter) /\
    (forall k a, k <> "tag" -> dget k unk = Some a ->
       exists u c, dget k U = Some u /\ dget k counter = Some c /\ dget k c' = Some (c + asize a) /\
         dget k s' = Some (slice_rows u c (c + asize a))).
  Proof.
    induction unk as [|[k0 a0] r IH]; intros counter s' c' Hnd H; cbn [unpack_one] in H.
    - inversion H; subst. repeat split; auto. intros k a _ Hd. discriminate.
    - simpl in Hnd. inversion Hnd as [|? ? Hn Hnd']; subst.
      destruct (String.eqb_spec k0 "tag") as [->|Hk0].
      + destruct (unpack_one U counter r) as [[r' c1]|] eqn:E; [|discriminate]. cbn [bind] in H. inversion H; subst.
        destruct (IH _ _ _ Hnd' E) as (K & N & G1 & G2). repeat split.
        * simpl. f_equal. exact K.
        * cbn [dget] in H0 |- *. destruct (String.eqb k "tag"); [discriminate|]. apply N; exact H0.
        * cbn [dget] in H0. destruct (String.eqb k "tag"); [discriminate|]. apply N; exact H0.
        * apply G1.
        * intros k a Hk Ha. cbn [dget] in Ha |- *. destruct (String.eqb_spec k "tag"); [congruence|]. apply G2; auto.
      + destruct (dget k0 U) as [u|] eqn:EU; [|discriminate].
        destruct (dget k0 counter) as [c|] eqn:EC; [|discriminate].
        destruct (unpack_one U (dset k0 (c + asize a0) counter) r) as [[r' c1]|] eqn:E; [|discriminate].
        cbn [bind] in H. inversion H; subst. destruct (IH _ _ _ Hnd' E) as (K & N & G1 & G2). repeat split.
        * simpl. f_equal. exact K.
        * cbn [dget] in H0 |- *. destruct (String.eqb k k0); [discriminate|]. apply N; exact H0.
        * cbn [dget] in H0. destruct (String.eqb_spec k k0); [discriminate|].
          destruct (N k H0) as [_ ->]. apply dget_dset_ne; congruence.
        * cbn [dget]. destruct (String.eqb_spec "tag" k0); [congruence|]. apply G1.
        * destruct G1 as [_ ->]. apply dget_dset_ne; congruence.
        * intros k a Hk Ha. cbn [dget] in Ha |- *. destruct (String.eqb_spec k k0) as [->|Hne].
          -- inversion Ha; subst a. exists u, c. repeat split; auto.
             destruct (N k0) as [_ ->]; [apply dget_None_iff; exact Hn|]. apply dget_dset_eq.
          -- destruct (G2 k a Hk Ha) as (u' & c2 & H1 & H2 & H3 & H4).
             rewrite dget_dset_ne in H2 by exact Hne. exists u', c2. auto.
  Qed.

  Lemma firstn_firstn_skipn {X} (l : list X) a b : firstn a l ++ firstn b (skipn a l) = firstn (a + b) l.
  Proof.
    revert l. induction a as [|a IH]; intros l; [reflexivity|]. destruct l as [|x l]; simpl.
    - destruct b; reflexivity.
    - f_equal. apply IH.
  Qed.
  Lemma skipn_skipn' {X} (l : list X) a b : skipn b (skipn a l) = skipn (a + b) l.
  Proof.
    revert l. induction a as [|a IH]; intros l; [reflexivity|]. destruct l as [|x l]; simpl; [destruct b; reflexivity|apply IH].
  Qed.

  Lemma unpack_all_spec (U : dict arr2) k u : k <> "tag" -> dget k U = Some u ->
    forall segs counter segs' c0, Forall (fun s => NoDup (dkeys s)) segs -> Forall one_column segs ->
    unpack_all U counter segs = Ok segs' -> dget k counter = Some c0 ->
    c0 + list_sum (map (@List.length _) (column_of k segs)) <= List.length (arows u) ->
    map dkeys segs' = map dkeys segs /\
    concat (column_of k segs') =
      firstn (list_sum (map (@List.length _) (column_of k segs))) (skipn c0 (arows u)) /\
    map (@List.length _) (column_of k segs') = map (@List.length _) (column_of k segs).
  Proof.
    intros Hk HU. induction segs as [|s segs IH]; intros counter segs' c0 Hnd H1c H Hc Hlen; cbn [unpack_all] in H.
    - inversion H; subst. simpl. auto.
    - inversion Hnd as [|? ? Hs Hnd']; subst. inversion H1c as [|? ? Hs1 H1c']; subst.
      destruct (unpack_one U counter s) as [[s' c']|] eqn:E; [|discriminate]. cbn [bind] in H.
      destruct (unpack_all U c' segs) as [r'|] eqn:Er; [|discriminate]. cbn [bind] in H. inversion H; subst.
      destruct (unpack_one_spec U s counter s' c' Hs E) as (K & N & _ & G).
      cbn [column_of] in Hlen |- *. destruct (dget k s) as [a|] eqn:Es.
      + destruct (G k a Hk Es) as (u' & c & HU' & Hc' & Hc2 & Hs').
        rewrite HU in HU'. inversion HU'; subst u'. rewrite Hc in Hc'. inversion Hc'; subst c.
        assert (Ha : asize a = List.length (arows a)) by (unfold asize; rewrite (Hs1 k a Es Hk); lia).
        rewrite Ha in *. cbn [map list_sum fold_right] in Hlen. fold (list_sum (map (@List.length _) (column_of k segs))) in Hlen.
        destruct (IH c' r' (c0 + List.length (arows a)) Hnd' H1c' Er Hc2) as (K2 & P1 & P2).
        { unfold list_sum in *. lia. }
        rewrite Hs'. cbn [map column_of concat arows slice_rows].
        replace (c0 + List.length (arows a) - c0) with (List.length (arows a)) by lia.
        split; [f_equal; assumption|]. split.
        * rewrite P1. rewrite <- skipn_skipn'. rewrite firstn_firstn_skipn. reflexivity.
        * f_equal; [|exact P2]. rewrite firstn_length, skipn_length. unfold list_sum in Hlen. lia.
      + destruct (N k Es) as [Hs' Hc2]. rewrite Hs'.
        destruct (IH c' r' c0 Hnd' H1c' Er) as (K2 & P1 & P2); [congruence|exact Hlen|].
        split; [simpl; f_equal; assumption|]. auto.
  Qed.

  Lemma counter_zero (U : dict arr2) k u : dget k U = Some u -> dget k (map (fun '(k, _) => (k, 0)) U) = Some 0.
  Proof.
    induction U as [|[k0 x] r IH]; simpl; [discriminate|]. destruct (String.eqb k k0); auto.
  Qed.

  Lemma unpack_partition (U : dict arr2) segs segs' k u :
    k <> "tag" -> dget k U = Some u -> Forall (fun s => NoDup (dkeys s)) segs -> Forall one_column segs ->
    unpack_subsegments U segs = Ok segs' ->
    List.length (arows u) = list_sum (map (@List.length _) (column_of k segs)) ->
    map dkeys segs' = map dkeys segs /\ concat (column_of k segs') = arows u /\
    map (@List.length _) (column_of k segs') = map (@List.length _) (column_of k segs).
  Proof.
    intros Hk HU Hn H1 H Hl.
    destruct (unpack_all_spec U k u Hk HU segs _ segs' 0 Hn H1 H (counter_zero U k u HU)) as (A & B & C); [lia|].
    split; [exact A|]. split; [|exact C]. rewrite B. cbn [skipn]. rewrite <- Hl. apply firstn_all.
  Qed.

  Lemma concat_eq_lengths {X} (a b : list (list X)) : map (@List.length _) a = map (@List.length _) b ->
    concat a = concat b -> a = b.
  Proof.
    revert b. induction a as [|x a IH]; destruct b as [|y b]; simpl; intros L H; try discriminate; [reflexivity|].
    inversion L as [[Lx La]].
    assert (E : x = y).
    { apply (f_equal (firstn (List.length x))) in H. rewrite !firstn_app, <- Lx, !Nat.sub_diag in H.
      rewrite firstn_all in H. rewrite Lx in H at 1. rewrite firstn_all in H. simpl in H. rewrite !app_nil_r in H. exact H. }
    subst y. apply app_inv_head in H. f_equal. auto.
  Qed.

  Lemma unpack_one_ok (U : dict arr2) : forall unk counter,
    (forall k, In k (dkeys unk) -> k <> "tag" -> In k (dkeys U)) ->
    (forall k, In k (dkeys U) -> In k (dkeys counter)) ->
    exists s' c', unpack_one U counter unk = Ok (s', c') /\ (forall k, In k (dkeys U) -> In k (dkeys c')).
  Proof.
    induction unk as [|[k a] r IH]; intros counter H1 H2; cbn [unpack_one].
    - eauto.
    - destruct (String.eqb_spec k "tag") as [->|Hk].
      + destruct (IH counter) as (s' & c' & -> & Hc); [intros; apply H1; simpl; auto|exact H2|].
        cbn [bind]. eauto.
      + assert (HU : In k (dkeys U)) by (apply H1; simpl; auto).
        destruct (dget k U) as [u|] eqn:EU; [|apply dget_None_iff in EU; contradiction].
        destruct (dget k counter) as [c|] eqn:EC; [|apply dget_None_iff in EC; exfalso; apply EC, H2, HU].
        destruct (IH (dset k (c + asize a) counter)) as (s' & c' & -> & Hc).
        { intros; apply H1; simpl; auto. }
        { intros k' Hk'. specialize (H2 k' Hk'). rewrite dkeys_dset_in; [exact H2|]. apply dget_Some_key in EC. exact EC. }
        cbn [bind]. eauto.
  Qed.
  Lemma unpack_ok (U : dict arr2) segs :
    Forall (fun s => forall k, In k (dkeys s) -> k <> "tag" -> In k (dkeys U)) segs ->
    exists segs', unpack_subsegments U segs = Ok segs'.
  Proof.
    unfold unpack_subsegments.
    assert (H2 : forall k, In k (dkeys U) -> In k (dkeys (map (fun '(k, _) => (k, 0)) U))).
    { intros k. clear. induction U as [|[k0 x] r IH]; simpl; [auto|]. intros [H|H]; auto. }
    revert H2. generalize (map (fun '(k, _) => (k, 0)) U : dict nat). intros counter H2 H. revert counter H2.
    induction H as [|s segs Hs _ IH]; intros counter H2; cbn [unpack_all]; [eauto|].
    destruct (unpack_one_ok U s counter Hs H2) as (s' & c' & -> & Hc). cbn [bind].
    destruct (IH c' Hc) as [r' ->]. cbn [bind]. eauto.
  Qed.
  Lemma unpack_own (U : dict arr2) segs segs' k u :
    k <> "tag" -> dget k U = Some u -> Forall (fun s => NoDup (dkeys s)) segs -> Forall one_column segs ->
    unpack_subsegments U segs = Ok segs' ->
    arows u = concat (column_of k segs) -> column_of k segs' = column_of k segs.
  Proof.
    intros Hk HU Hn H1 H Hl.
    assert (L : List.length (arows u) = list_sum (map (@List.length _) (column_of k segs))).
    { rewrite Hl. generalize (column_of k segs). intros l. induction l as [|x l IH]; simpl; [reflexivity|].
      rewrite app_length, IH. reflexivity. }
    destruct (unpack_partition U segs segs' k u Hk HU Hn H1 H L) as (_ & A & B).
    apply concat_eq_lengths; [exact B|]. rewrite A. exact Hl.
  Qed.
End Rows.
