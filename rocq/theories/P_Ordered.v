(** * Proofs about DataOrdered *)
From Coq Require Import String List Bool Arith ZArith Lia.
From Verif Require Import PyBase M_Data P_Dict M_Ordered S_Ordered.
Import ListNotations.
Local Open Scope string_scope.
Local Open Scope list_scope.

Section Ordered.
  Context {V : Type}.
  Variable class_attr : string -> bool.
  Notation obj := (obj V).

  Definition nxt (h : nat -> cell) a := match h a with Cell _ n _ => Some n | Emptied => None end.
  Definition prv (h : nat -> cell) a := match h a with Cell p _ _ => Some p | Emptied => None end.
  Definition keyof (h : nat -> cell) a := match h a with Cell _ _ k => k | Emptied => None end.

  Fixpoint linked (h : nat -> cell) (a : nat) (ns : list nat) (b : nat) : Prop :=
    match ns with
    | [] => nxt h a = Some b /\ prv h b = Some a
    | n :: r => nxt h a = Some n /\ prv h n = Some a /\ linked h n r b
    end.

  Lemma linked_app h a xs y ys b :
    linked h a (xs ++ y :: ys) b <-> linked h a xs y /\ linked h y ys b.
  Proof.
    revert a. induction xs as [|x xs IH]; intros a; simpl.
    - tauto.
    - rewrite IH. tauto.
  Qed.

  Lemma linked_frame h h' a xs b :
    linked h a xs b ->
    (forall c, In c (a :: xs) -> nxt h' c = nxt h c) ->
    (forall c, In c (b :: xs) -> prv h' c = prv h c) ->
    linked h' a xs b.
  Proof.
    revert a. induction xs as [|x xs IH]; intros a; simpl; intros H Hn Hp.
    - rewrite Hn, Hp by auto. exact H.
    - destruct H as (H1 & H2 & H3). rewrite Hn, Hp by auto. repeat split; auto.
      apply IH; auto. intros c [Hc|Hc]; apply Hp; auto.
  Qed.

  Lemma nxt_hset h a c b : nxt (hset h a c) b =
    if Nat.eqb b a then match c with Cell _ n _ => Some n | Emptied => None end else nxt h b.
  Proof. unfold nxt, hset. destruct (Nat.eqb b a); reflexivity. Qed.
  Lemma prv_hset h a c b : prv (hset h a c) b =
    if Nat.eqb b a then match c with Cell p _ _ => Some p | Emptied => None end else prv h b.
  Proof. unfold prv, hset. destruct (Nat.eqb b a); reflexivity. Qed.
  Lemma keyof_hset h a c b : keyof (hset h a c) b =
    if Nat.eqb b a then match c with Cell _ _ k => k | Emptied => None end else keyof h b.
  Proof. unfold keyof, hset. destruct (Nat.eqb b a); reflexivity. Qed.

  Lemma set_next_spec h a n p : nxt h a = Some p ->
    exists h', set_next h a n = Ok h' /\
      (forall b, nxt h' b = if Nat.eqb b a then Some n else nxt h b) /\
      (forall b, prv h' b = prv h b) /\ (forall b, keyof h' b = keyof h b).
  Proof.
    unfold set_next, nxt at 1. destruct (h a) as [|p0 n0 k0] eqn:E; [discriminate|]. intros _.
    eexists. split; [reflexivity|]. repeat split; intros b.
    - apply nxt_hset.
    - rewrite prv_hset. destruct (Nat.eqb_spec b a) as [->|]; [unfold prv; rewrite E|]; reflexivity.
    - rewrite keyof_hset. destruct (Nat.eqb_spec b a) as [->|]; [unfold keyof; rewrite E|]; reflexivity.
  Qed.
  Lemma set_prev_spec h a n p : prv h a = Some p ->
    exists h', set_prev h a n = Ok h' /\
      (forall b, prv h' b = if Nat.eqb b a then Some n else prv h b) /\
      (forall b, nxt h' b = nxt h b) /\ (forall b, keyof h' b = keyof h b).
  Proof.
    unfold set_prev, prv at 1. destruct (h a) as [|p0 n0 k0] eqn:E; [discriminate|]. intros _.
    eexists. split; [reflexivity|]. repeat split; intros b.
    - apply prv_hset.
    - rewrite nxt_hset. destruct (Nat.eqb_spec b a) as [->|]; [unfold nxt; rewrite E|]; reflexivity.
    - rewrite keyof_hset. destruct (Nat.eqb_spec b a) as [->|]; [unfold keyof; rewrite E|]; reflexivity.
  Qed.

  (** nodes agree with the visible entries, one node per entry *)
  Definition node_for (o : obj) (n : nat) (k : string) : Prop :=
    keyof (heap o) n = Some k /\ dget k (dmap o) = Some n.

  Record inv (o : obj) (s : dict V) : Prop := {
    i_ns : exists ns, linked (heap o) 0 ns 0 /\ NoDup (0 :: ns) /\
             Forall (fun n => n < fresh o)%nat (0 :: ns) /\ Forall2 (node_for o) ns (dkeys s);
    i_map : forall k, ~ In k (dkeys s) -> dget k (dmap o) = None;
    i_mapnd : NoDup (dkeys (dmap o));
    i_attr : forall k, class_attr k = false -> dget k (attrs o) = dget k s;
    i_attrnd : NoDup (dkeys (attrs o));
    i_vis : forall k, In k (dkeys s) -> class_attr k = false;
    i_nd : NoDup (dkeys s)
  }.

  Lemma inv_new : inv o_new [].
  Proof.
    constructor; simpl; auto; try (constructor; fail); try tauto.
    exists []. repeat split; repeat constructor; simpl; auto.
  Qed.

  (** splitting a non-empty chain at its last node *)
  Lemma linked_last h ns : linked h 0 ns 0 ->
    (ns = [] /\ prv h 0 = Some 0 /\ nxt h 0 = Some 0) \/
    exists xs l, ns = xs ++ [l] /\ prv h 0 = Some l /\ nxt h l = Some 0 /\ linked h 0 xs l.
  Proof.
    destruct ns as [|x xs] using rev_ind; intros H.
    - left. simpl in H. tauto.
    - right. exists xs, x. apply linked_app in H as [H1 H2]. simpl in H2. tauto.
  Qed.

  Lemma eqb_ne a b : a <> b -> Nat.eqb a b = false.
  Proof. apply Nat.eqb_neq. Qed.

  (** linking a fresh node before the sentinel *)
  Lemma link_end h ns a k : linked h 0 ns 0 -> NoDup (0 :: ns) -> ~ In a (0 :: ns) ->
    exists last h1 h2, get_prev h 0 = Ok last /\
      set_next (hset h a (Cell last 0 (Some k))) last a = Ok h1 /\
      set_prev h1 0 a = Ok h2 /\
      linked h2 0 (ns ++ [a]) 0 /\
      (forall b, keyof h2 b = if Nat.eqb b a then Some k else keyof h b).
  Proof.
    intros L N Ha. simpl in Ha.
    destruct (linked_last h ns L) as [(-> & Hp & Hn)|(xs & l & -> & Hp & Hn & Lx)].
    - exists 0. set (h0 := hset h a (Cell 0 0 (Some k))).
      assert (A0 : Nat.eqb 0 a = false) by (apply eqb_ne; tauto).
      assert (Hn0 : nxt h0 0 = Some 0) by (unfold h0; rewrite nxt_hset, A0; exact Hn).
      destruct (set_next_spec h0 0 a 0 Hn0) as (h1 & E1 & N1 & P1 & K1).
      assert (Hp1 : prv h1 0 = Some 0) by (rewrite P1; unfold h0; rewrite prv_hset, A0; exact Hp).
      destruct (set_prev_spec h1 0 a 0 Hp1) as (h2 & E2 & P2 & N2 & K2).
      exists h1, h2. split.
      { unfold get_prev, prv in *. destruct (h 0); [discriminate|]. congruence. }
      split; [exact E1|]. split; [exact E2|]. split.
      + simpl. rewrite !N2, !N1, !P2, !P1. rewrite Nat.eqb_refl.
        assert (A1 : Nat.eqb a 0 = false) by (apply eqb_ne; intro; subst; tauto). rewrite A1.
        unfold h0. rewrite nxt_hset, prv_hset, Nat.eqb_refl. auto.
      + intros b. rewrite K2, K1. unfold h0. rewrite keyof_hset. reflexivity.
    - exists l. set (h0 := hset h a (Cell l 0 (Some k))).
      assert (Hla : l <> a) by (intro; subst; apply Ha; right; apply in_or_app; simpl; auto).
      assert (H0a : 0 <> a) by tauto.
      assert (H0l : 0 <> l).
      { inversion N; subst. intro; subst. apply H1. apply in_or_app; simpl; auto. }
      assert (Hn0 : nxt h0 l = Some 0) by (unfold h0; rewrite nxt_hset, (eqb_ne l a Hla); exact Hn).
      destruct (set_next_spec h0 l a 0 Hn0) as (h1 & E1 & N1 & P1 & K1).
      assert (Hp1 : prv h1 0 = Some l) by (rewrite P1; unfold h0; rewrite prv_hset, (eqb_ne 0 a H0a); exact Hp).
      destruct (set_prev_spec h1 0 a l Hp1) as (h2 & E2 & P2 & N2 & K2).
      exists h1, h2. split.
      { unfold get_prev, prv in *. destruct (h 0); [discriminate|]. congruence. }
      split; [exact E1|]. split; [exact E2|]. split.
      + rewrite <- app_assoc. apply linked_app. split.
        * inversion N as [|? ? N0 N']; subst.
          apply (linked_frame h).
          -- exact Lx.
          -- intros c Hc. rewrite N2, N1.
             assert (c <> l).
             { intro; subst c. destruct Hc as [Hc|Hc]; [congruence|].
               apply NoDup_remove_2 in N'. rewrite app_nil_r in N'. tauto. }
             assert (c <> a).
             { intro; subst c. destruct Hc as [Hc|Hc]; [congruence|]. apply Ha. right. apply in_or_app. auto. }
             rewrite (eqb_ne c l) by assumption. unfold h0. rewrite nxt_hset, (eqb_ne c a) by assumption. reflexivity.
          -- intros c Hc. rewrite P2, P1.
             assert (c <> 0).
             { intro; subst c. apply N0. apply in_or_app. destruct Hc as [Hc|Hc]; [right; left; exact Hc|left; exact Hc]. }
             assert (c <> a).
             { intro; subst c. destruct Hc as [Hc|Hc]; [congruence|]. apply Ha. right. apply in_or_app. auto. }
             rewrite (eqb_ne c 0) by assumption. unfold h0. rewrite prv_hset, (eqb_ne c a) by assumption. reflexivity.
        * simpl. rewrite !N2, !N1, !P2, !P1. rewrite !Nat.eqb_refl.
          rewrite (eqb_ne a l) by auto. rewrite (eqb_ne a 0) by auto.
          unfold h0. rewrite nxt_hset, prv_hset, Nat.eqb_refl. auto.
      + intros b. rewrite K2, K1. unfold h0. rewrite keyof_hset. reflexivity.
  Qed.

  Lemma Forall2_app_single {X Y} (R : X -> Y -> Prop) xs ys x y :
    Forall2 R xs ys -> R x y -> Forall2 R (xs ++ [x]) (ys ++ [y]).
  Proof. intros H1 H2. apply Forall2_app; auto. Qed.

  Lemma NoDup_snoc {X} (l : list X) x : NoDup l -> ~ In x l -> NoDup (l ++ [x]).
  Proof.
    intros H Hx. apply NoDup_Add with (a := x) (l := l).
    - rewrite <- (app_nil_r l) at 1. apply Add_app.
    - auto.
  Qed.

  Lemma inv_set o s k v : inv o s ->
    exists o', o_set class_attr o k v = Ok o' /\
               inv o' (if class_attr k then s else dset k v s).
  Proof.
    intros [Hns Hmap Hmapnd Hattr Hattrnd Hvis Hnd]. unfold o_set, o_hasattr.
    destruct (class_attr k) eqn:Ec.
    { rewrite orb_true_r. cbn [negb andb]. eexists; split; [reflexivity|].
      constructor; auto; simpl.
      - intros k' Hk'. rewrite dget_dset_ne by congruence. auto.
      - apply NoDup_dset; auto. }
    rewrite orb_false_r. cbn [negb]. rewrite andb_true_r.
    destruct (dhas k (attrs o)) eqn:Eh; cbn [negb].
    - eexists; split; [reflexivity|].
      assert (Hin : In k (dkeys s)).
      { unfold dhas in Eh. rewrite (Hattr k Ec) in Eh. apply dhas_true_iff. exact Eh. }
      assert (Hks : dkeys (dset k v s) = dkeys s) by (apply dkeys_dset_in; exact Hin).
      constructor; simpl; try rewrite Hks; auto.
      + intros k' Hk'. rewrite !dget_dset. destruct (String.eqb k' k); auto.
      + apply NoDup_dset; auto.
    - assert (Hnin : ~ In k (dkeys s)).
      { unfold dhas in Eh. rewrite (Hattr k Ec) in Eh. apply dhas_false_iff. exact Eh. }
      destruct Hns as (ns & L & N & F & F2).
      assert (Ha : ~ In (fresh o) (0 :: ns)).
      { intro Hin. rewrite Forall_forall in F. specialize (F _ Hin). lia. }
      destruct (link_end (heap o) ns (fresh o) k L N Ha) as (last & h1 & h2 & E0 & E1 & E2 & L2 & K2).
      rewrite E0. cbn [bind]. rewrite E1. cbn [bind]. rewrite E2. cbn [bind].
      eexists; split; [reflexivity|].
      assert (Hks : dkeys (dset k v s) = dkeys s ++ [k]).
      { rewrite dset_new by exact Hnin. apply dkeys_app. }
      constructor; simpl; try rewrite Hks.
      + exists (ns ++ [fresh o]). repeat split.
        * exact L2.
        * change (0 :: ns ++ [fresh o]) with ((0 :: ns) ++ [fresh o]). apply NoDup_snoc; auto.
        * change (0 :: ns ++ [fresh o]) with ((0 :: ns) ++ [fresh o]). apply Forall_app. split.
          -- eapply Forall_impl; [|exact F]. simpl. intros; lia.
          -- constructor; auto.
        * apply Forall2_app_single.
          -- assert (Hsub : forall n, In n ns -> In n (0 :: ns)) by (intros; simpl; auto).
             assert (Hsub2 : forall k', In k' (dkeys s) -> k' <> k) by (intros k' H1 H3; subst; auto).
             revert F2 Hsub Hsub2. generalize (dkeys s) as ks. generalize ns at 1 2 4 as ms.
             induction ms as [|m ms IH]; intros ks F2 Hs1 Hs2; inversion F2 as [|? k0 ? ks' [K M] F3]; subst; constructor.
             ++ split; simpl.
                ** rewrite K2, (eqb_ne m (fresh o)); [exact K|].
                   intro; subst m. apply Ha. apply Hs1. simpl; auto.
                ** rewrite dget_dset_ne; [exact M|]. apply Hs2; simpl; auto.
             ++ apply IH; [exact F3| |]; intros; [apply Hs1|apply Hs2]; simpl; auto.
          -- split; simpl.
             ++ rewrite K2, Nat.eqb_refl. reflexivity.
             ++ apply dget_dset_eq.
      + intros k' Hk'. rewrite dget_dset_ne; [apply Hmap|]; intro; apply Hk'; apply in_or_app; simpl; subst; auto.
      + apply NoDup_dset; auto.
      + intros k' Hk'. rewrite !dget_dset. destruct (String.eqb k' k); auto.
      + apply NoDup_dset; auto.
      + intros k' Hk'. apply in_app_or in Hk'. simpl in Hk'. destruct Hk' as [H|[<-|[]]]; auto.
      + apply NoDup_app_single; auto.
  Qed.

  (** unlinking the node between [xs] and [ys] *)
  Lemma linked_first h a ys b : linked h a ys b -> exists q, nxt h a = Some q /\ q = hd b ys /\ prv h q = Some a.
  Proof. destruct ys as [|y ys]; simpl; intros H; eexists; repeat split; tauto. Qed.
  Lemma last_cons {X} (x : X) xs d : last (x :: xs) d = last xs x.
  Proof.
    revert x d. induction xs as [|y ys IH]; intros x d; [reflexivity|].
    change (last (x :: y :: ys) d) with (last (y :: ys) d). rewrite !IH. reflexivity.
  Qed.
  Lemma linked_final h a xs b : linked h a xs b -> exists p, prv h b = Some p /\ p = last xs a /\ nxt h p = Some b.
  Proof.
    revert a. induction xs as [|x xs IH]; intros a; simpl; intros H.
    - exists a. tauto.
    - destruct H as (_ & _ & H). destruct (IH x H) as (p & H1 & H2 & H3). exists p. repeat split; auto.
      rewrite H2. symmetry. apply (last_cons x xs a).
  Qed.

  Lemma last_cons_snoc {X} (xs : list X) l a : last (xs ++ [l]) a = l.
  Proof. induction xs as [|x xs IH]; simpl; auto. destruct (xs ++ [l]) eqn:E; [|exact IH]. destruct xs; discriminate. Qed.

  Lemma unlink h xs n ys : linked h 0 (xs ++ n :: ys) 0 -> NoDup (0 :: xs ++ n :: ys) ->
    exists p q k h1 h2, h n = Cell p q k /\ set_next h p q = Ok h1 /\ set_prev h1 q p = Ok h2 /\
      linked h2 0 (xs ++ ys) 0 /\ (forall b, keyof h2 b = keyof h b).
  Proof.
    intros L N. apply linked_app in L as [L1 L2].
    destruct (linked_final _ _ _ _ L1) as (p & Pn & Hp & Np).
    destruct (linked_first _ _ _ _ L2) as (q & Nn & Hq & Pq).
    assert (E : exists k, h n = Cell p q k).
    { unfold prv, nxt in *. destruct (h n) as [|p' q' k]; [discriminate|]. exists k. congruence. }
    destruct E as [k E]. exists p, q, k.
    destruct (set_next_spec h p q n Np) as (h1 & E1 & N1 & P1 & K1).
    assert (Pq1 : prv h1 q = Some n) by (rewrite P1; exact Pq).
    destruct (set_prev_spec h1 q p n Pq1) as (h2 & E2 & P2 & N2 & K2).
    exists h1, h2. repeat split; auto; [|intros b; rewrite K2, K1; reflexivity].
    assert (NX : forall b, nxt h2 b = if Nat.eqb b p then Some q else nxt h b) by (intros; rewrite N2; apply N1).
    assert (PX : forall b, prv h2 b = if Nat.eqb b q then Some p else prv h b).
    { intros b. rewrite P2. destruct (Nat.eqb b q); auto. }
    clear E1 E2 N1 P1 K1 N2 P2 K2 Pq1 h1 E.
    change (0 :: xs ++ n :: ys) with ((0 :: xs) ++ n :: ys) in N.
    pose proof (NoDup_remove _ _ _ N) as [Nd Nn0]. simpl in Nn0.
    (* the chain up to p, and from q on *)
    assert (A : xs = [] /\ p = 0 \/ exists xs', xs = xs' ++ [p]).
    { destruct xs as [|x xs] using rev_ind; [left; auto|right]. rewrite last_cons_snoc in Hp. subst. eauto. }
    assert (B : ys = [] /\ q = 0 \/ exists ys', ys = q :: ys').
    { destruct ys as [|y ys]; [left; auto|right]. simpl in Hq. subst. eauto. }
    destruct A as [[-> ->]|[xs' ->]], B as [[-> ->]|[ys' ->]]; simpl in *.
    - rewrite NX, PX, Nat.eqb_refl. auto.
    - rewrite NX, PX, !Nat.eqb_refl. repeat split; auto.
      apply (linked_frame h); [tauto| |].
      + intros c Hc. rewrite NX, (eqb_ne c 0); auto. intro; subst c. inversion Nd; subst. auto.
      + intros c Hc. rewrite PX, (eqb_ne c q); auto. intro; subst c. inversion Nd as [|? ? D1 D2]; subst.
        inversion D2; subst. destruct Hc as [Hc|Hc]; [subst q; apply D1; simpl; auto|auto].
    - rewrite app_nil_r in *. apply linked_app in L1 as [L1 _]. apply linked_app. simpl.
      inversion Nd as [|? ? D1 D2]; subst.
      split.
      + apply (linked_frame h); auto.
        * intros c Hc. rewrite NX, (eqb_ne c p); auto. intro; subst c.
          destruct Hc as [Hc|Hc]; [subst p; apply D1; apply in_or_app; simpl; auto|].
          apply NoDup_remove_2 in D2. rewrite app_nil_r in D2. auto.
        * intros c Hc. rewrite PX, (eqb_ne c 0); auto. intro; subst c. apply D1. apply in_or_app.
          destruct Hc as [Hc|Hc]; simpl; auto.
      + rewrite NX, PX, !Nat.eqb_refl. auto.
    - apply linked_app in L1 as [L1 _]. rewrite <- app_assoc in *. simpl in *.
      apply linked_app. inversion Nd as [|? ? D1 D2]; subst. simpl.
      assert (Dp : ~ In p (xs' ++ q :: ys')) by (apply NoDup_remove_2 in D2; exact D2).
      assert (Dq : ~ In q ((xs' ++ [p]) ++ ys')).
      { apply NoDup_remove_2. rewrite <- app_assoc. exact D2. }
      split; [|rewrite NX, PX, !Nat.eqb_refl; repeat split; auto].
      + apply (linked_frame h); auto.
        * intros c Hc. rewrite NX, (eqb_ne c p); auto. intro; subst c.
          destruct Hc as [Hc|Hc]; [subst p; apply D1; apply in_or_app; simpl; auto|].
          apply Dp. apply in_or_app; auto.
        * intros c Hc. rewrite PX, (eqb_ne c q); auto. intro; subst c. apply Dq.
          apply in_or_app. left. apply in_or_app. destruct Hc as [Hc|Hc]; simpl; auto.
      + apply (linked_frame h); [tauto| |].
        * intros c Hc. rewrite NX, (eqb_ne c p); auto. intro; subst c. apply Dp.
          apply in_or_app. right. exact Hc.
        * intros c Hc. rewrite PX, (eqb_ne c q); auto. intro; subst c.
          destruct Hc as [Hc|Hc].
          -- subst q. apply D1. apply in_or_app. simpl; auto.
          -- apply Dq. apply in_or_app. auto.
  Qed.

  Lemma ddel_split (s1 s2 : dict V) k v : ~ In k (dkeys s1) -> ddel k (s1 ++ (k, v) :: s2) = s1 ++ s2.
  Proof.
    induction s1 as [|[k0 v0] s1 IH]; simpl; intros H.
    - rewrite String.eqb_refl. reflexivity.
    - destruct (String.eqb_spec k k0) as [->|]; [exfalso; auto|]. rewrite IH; auto.
  Qed.
  Lemma ddel_absent (s : dict V) k : ~ In k (dkeys s) -> ddel k s = s.
  Proof.
    induction s as [|[k0 v0] s IH]; simpl; intros H; [reflexivity|].
    destruct (String.eqb_spec k k0) as [->|]; [exfalso; auto|]. rewrite IH; auto.
  Qed.
  Lemma NoDup_ddel {W} (d : dict W) k : NoDup (dkeys d) -> NoDup (dkeys (ddel k d)).
  Proof. intros H. rewrite dkeys_ddel by exact H. apply NoDup_filter. exact H. Qed.

  Lemma inv_del o s k : inv o s ->
    inv (fst (o_del o k)) (ddel k s) /\
    (snd (o_del o k) = None <-> In k (dkeys s)).
  Proof.
    intros HI. pose proof HI as [Hns Hmap Hmapnd Hattr Hattrnd Hvis Hnd]. unfold o_del.
    destruct (dhas k (attrs o)) eqn:Eh.
    2:{ assert (Hnin : ~ In k (dkeys s)).
        { intro Hin. unfold dhas in Eh. rewrite (Hattr k (Hvis k Hin)) in Eh.
          apply dhas_true_iff in Hin. unfold dhas in Hin. congruence. }
        cbn [fst snd]. rewrite ddel_absent by exact Hnin. split; [exact HI|].
        split; [discriminate|tauto]. }
    destruct (in_dec string_dec k (dkeys s)) as [Hin|Hnin].
    - (* a visible key *)
      destruct Hns as (ns & L & N & F & F2).
      apply in_map_iff in Hin. destruct Hin as ([k0 v0] & <- & Hin). simpl in *.
      apply in_split in Hin as (s1 & s2 & ->).
      rewrite dkeys_app in F2. simpl in F2.
      apply Forall2_app_inv_r in F2 as (n1 & n2' & F21 & F22 & ->).
      inversion F22 as [|n ? n2 ? [Kn Mn] F23]; subst.
      rewrite Mn.
      destruct (unlink _ _ _ _ L N) as (p & q & kk & h1 & h2 & E & E1 & E2 & L' & K').
      rewrite E, E1, E2. cbn [fst snd].
      rewrite dkeys_app in Hnd. simpl in Hnd.
      pose proof (NoDup_remove_2 _ _ _ Hnd) as Hk0.
      assert (Hk1 : ~ In k0 (dkeys s1)) by (intro; apply Hk0; apply in_or_app; auto).
      rewrite ddel_split by exact Hk1.
      split; [|split; [intros _; rewrite dkeys_app; apply in_or_app; simpl; auto|auto]].
      constructor; simpl.
      + exists (n1 ++ n2). repeat split; auto.
        * change (0 :: n1 ++ n :: n2) with ((0 :: n1) ++ n :: n2) in N. apply NoDup_remove_1 in N. exact N.
        * change (0 :: n1 ++ n :: n2) with ((0 :: n1) ++ n :: n2) in F.
          apply Forall_app in F as [Fa Fb]. inversion Fb; subst.
          change (0 :: n1 ++ n2) with ((0 :: n1) ++ n2). apply Forall_app; auto.
        * assert (G : forall ns ks, Forall2 (node_for o) ns ks -> ~ In k0 ks ->
             Forall2 (node_for (mkobj h2 (fresh o) (ddel k0 (dmap o)) (ddel k0 (attrs o)))) ns ks).
          { induction 1 as [|m k1 ms ks [A B] _ IH]; intros Hni; constructor.
            - split; simpl; [rewrite K'; exact A|]. rewrite dget_ddel by exact Hmapnd.
              destruct (String.eqb_spec k1 k0); [subst; exfalso; apply Hni; simpl; auto|exact B].
            - apply IH. intro; apply Hni; simpl; auto. }
          rewrite dkeys_app. apply Forall2_app; apply G; auto; intro; apply Hk0; apply in_or_app; auto.
      + intros k' Hk'. rewrite dget_ddel by exact Hmapnd.
        destruct (String.eqb_spec k' k0) as [|Hne]; [reflexivity|]. apply Hmap.
        rewrite dkeys_app in *. simpl. intro Hc. apply in_app_or in Hc. apply Hk'. apply in_or_app.
        destruct Hc as [Hc|[Hc|Hc]]; auto. congruence.
      + apply NoDup_ddel; exact Hmapnd.
      + intros k' Hc. rewrite dget_ddel by exact Hattrnd. destruct (String.eqb_spec k' k0) as [->|Hne].
        * symmetry. apply dget_None_iff. rewrite dkeys_app. exact Hk0.
        * rewrite (Hattr k' Hc). rewrite !dget_app. simpl. destruct (String.eqb_spec k' k0); [congruence|reflexivity].
      + apply NoDup_ddel; exact Hattrnd.
      + intros k' Hk'. apply Hvis. rewrite dkeys_app in *. simpl. apply in_app_or in Hk'.
        apply in_or_app. simpl. tauto.
      + rewrite dkeys_app. apply NoDup_remove_1 in Hnd. exact Hnd.
    - (* an instance attribute hiding a class attribute *)
      rewrite (Hmap k Hnin). cbn [fst snd]. rewrite (ddel_absent s k) by exact Hnin.
      split; [|split; [discriminate|tauto]].
      constructor; simpl; auto; [|apply NoDup_ddel; exact Hattrnd].
      intros k' Hc. rewrite dget_ddel by exact Hattrnd. destruct (String.eqb_spec k' k) as [->|].
      + symmetry. apply dget_None_iff. exact Hnin.
      + auto.
  Qed.

  Lemma inv_clear o s : inv o s -> inv (o_clear o) [].
  Proof.
    intros [Hns Hmap Hmapnd Hattr Hattrnd Hvis Hnd]. unfold o_clear.
    destruct Hns as (ns & L & N & F & F2).
    constructor; simpl; auto; try constructor; try tauto.
    exists []. repeat split.
    - repeat constructor. simpl; auto.
    - constructor; [|constructor]. inversion F; auto.
    - constructor.
  Qed.

  Lemma inv_append o s key v : inv o s ->
    match o_append class_attr o key v with
    | Ok o' => inv o' (live_step class_attr s (OAppend key v))
    | Err e => e = KeyError /\ (translate key = "_root" \/ translate key = "_map")
    end.
  Proof.
    intros HI. unfold o_append. cbn [live_step].
    destruct (String.eqb_spec (translate key) "_root") as [E|Hne]; simpl; [auto|].
    destruct (String.eqb_spec (translate key) "_map") as [E|Hne2]; simpl; [auto|].
    destruct (inv_set o s (translate key) v HI) as (o' & E & HI'). rewrite E. exact HI'.
  Qed.

  Lemma inv_step o s p : inv o s -> inv (o_step class_attr o p) (live_step class_attr s p).
  Proof.
    intros HI. destruct p as [k v|k|k| |k v]; cbn [o_step].
    - destruct (inv_set o s k v HI) as (o' & E & HI'). rewrite E. exact HI'.
    - apply inv_del. exact HI.
    - exact HI.
    - eapply inv_clear; exact HI.
    - pose proof (inv_append o s k v HI) as H. destruct (o_append class_attr o k v) as [o'|e]; [exact H|].
      destruct H as [_ H]. cbn [live_step].
      destruct H as [-> | ->]; simpl; exact HI.
  Qed.
  Lemma inv_run ps : inv (o_run class_attr ps) (live class_attr ps).
  Proof.
    unfold o_run, live. generalize inv_new.
    generalize (@o_new V) as o. generalize (@nil (string * V)) as s.
    induction ps as [|p ps IH]; intros s o HI; simpl; [exact HI|]. apply IH. apply inv_step. exact HI.
  Qed.

  (** *** observers *)
  Lemma walk_linked h ns ks : forall fuel a, linked h a ns 0 -> Forall (fun n => n <> 0) ns ->
    Forall2 (fun n k => keyof h n = Some k) ns ks -> (List.length ns < fuel)%nat ->
    match nxt h a with Some n => walk h fuel n | None => None end = Some (map Some ks).
  Proof.
    revert ks. induction ns as [|n ns IH]; intros ks fuel a L Hz F2 Hf; simpl in L.
    - inversion F2; subst. destruct L as [-> _]. destruct fuel; [lia|]. reflexivity.
    - inversion F2 as [|? k ? ks' K F3]; subst. inversion Hz; subst. destruct L as (-> & _ & L).
      destruct fuel as [|f]; [lia|]. cbn [walk]. rewrite (eqb_ne n 0) by assumption.
      specialize (IH ks' f n L H2 F3). simpl in Hf. unfold nxt in IH. unfold keyof in K.
      destruct (h n) as [|p q k']; [discriminate|]. rewrite IH by lia. subst k'. reflexivity.
  Qed.
  Lemma all_some_map {X} (l : list X) : all_some (map Some l) = Some l.
  Proof. induction l as [|x l IH]; simpl; [reflexivity|]. rewrite IH. reflexivity. Qed.

  Lemma NoDup_bound (l : list nat) n : NoDup l -> Forall (fun x => x < n)%nat l -> (List.length l <= n)%nat.
  Proof.
    intros H F. rewrite <- (seq_length n 0). apply NoDup_incl_length; auto.
    intros x Hx. apply in_seq. rewrite Forall_forall in F. specialize (F x Hx). lia.
  Qed.

  Lemma keys_inv o s : inv o s -> o_keys o = Some (dkeys s).
  Proof.
    intros [Hns _ _ _ _ _ _]. destruct Hns as (ns & L & N & F & F2).
    unfold o_keys, o_iter.
    assert (Hz : Forall (fun n => n <> 0) ns).
    { apply Forall_forall. intros n Hn ->. inversion N; auto. }
    assert (Hlen : (List.length ns < S (fresh o))%nat).
    { pose proof (NoDup_bound _ _ N F) as B. simpl in B. lia. }
    assert (F2' : Forall2 (fun n k => keyof (heap o) n = Some k) ns (dkeys s)).
    { clear - F2. induction F2 as [|n k ns ks [A B] _ IH]; constructor; auto. }
    pose proof (walk_linked (heap o) ns (dkeys s) (S (fresh o)) 0 L Hz F2' Hlen) as W.
    unfold nxt in W. destruct (heap o 0) as [|p n k]; [discriminate|]. rewrite W. apply all_some_map.
  Qed.

  Lemma items_inv o s : inv o s ->
    o_items class_attr o = Ok (map (fun p => (fst p, Some (snd p))) s).
  Proof.
    intros HI. unfold o_items. rewrite (keys_inv o s HI). destruct HI as [_ _ _ Hattr _ Hvis Hnd].
    assert (G : forall l, incl l s ->
       map_result (fun k => bind (o_get class_attr o k) (fun v => Ok (k, v))) (dkeys l) =
       Ok (map (fun p => (fst p, Some (snd p))) l)).
    { induction l as [|[k v] l IH]; intros Hl; [reflexivity|].
      assert (Hin : In (k, v) s) by (apply Hl; simpl; auto).
      simpl. unfold o_get. rewrite (Hattr k (Hvis k (in_map fst _ _ Hin))).
      rewrite (In_dget k v s Hnd Hin). cbn [bind].
      unfold o_get in IH. rewrite IH; [reflexivity|]. intros x Hx. apply Hl. simpl; auto. }
    apply G. apply incl_refl.
  Qed.

  Lemma get_inv o s k : inv o s -> class_attr k = false ->
    o_get class_attr o k = match dget k s with Some v => Ok (Some v) | None => Err AttributeError end.
  Proof.
    intros HI Hc. unfold o_get. rewrite (i_attr _ _ HI k Hc), Hc. destruct (dget k s); reflexivity.
  Qed.

  Lemma norm_index_bound n i j : norm_index n i = Some j -> (j < n)%nat.
  Proof.
    unfold norm_index. destruct ((0 <=? i)%Z && (i <? Z.of_nat n)%Z) eqn:E.
    - intros H; inversion H; subst. apply andb_true_iff in E as [E1 E2].
      apply Z.leb_le in E1. apply Z.ltb_lt in E2. lia.
    - destruct ((- Z.of_nat n <=? i)%Z && (i <? 0)%Z) eqn:E'; [|discriminate].
      intros H; inversion H; subst. apply andb_true_iff in E' as [E1 E2].
      apply Z.leb_le in E1. apply Z.ltb_lt in E2. lia.
  Qed.

  Lemma get_int_inv o s i : inv o s ->
    o_get_int class_attr o i =
    match norm_index (List.length s) i with
    | Some n => match nth_error s n with Some p => Ok (Some (snd p)) | None => Err IndexError end
    | None => Err IndexError
    end.
  Proof.
    intros HI. unfold o_get_int. rewrite (keys_inv o s HI). unfold dkeys. rewrite map_length.
    destruct (norm_index (List.length s) i) as [n|]; [|reflexivity].
    rewrite nth_error_map. destruct (nth_error s n) as [[k v]|] eqn:E; [|reflexivity].
    simpl. apply nth_error_In in E. rewrite (get_inv o s k HI).
    - rewrite (In_dget k v s (i_nd _ _ HI) E). reflexivity.
    - apply (i_vis _ _ HI). apply (in_map fst) in E. exact E.
  Qed.

  (** without class-attribute names, the reported length is the number of entries *)
  Lemma attrs_visible (ps : list (oop V)) :
    (forall p k, In p ps -> assigned p = Some k -> class_attr k = false) ->
    forall k, In k (dkeys (attrs (o_run class_attr ps))) -> class_attr k = false.
  Proof.
    unfold o_run. intros Hps.
    assert (G : forall o : obj, (forall k, In k (dkeys (attrs o)) -> class_attr k = false) ->
      forall k, In k (dkeys (attrs (fold_left (o_step class_attr) ps o))) -> class_attr k = false).
    { induction ps as [|p ps IH]; intros o Ho; simpl; [exact Ho|].
      apply IH; [intros; apply (Hps p0); simpl; auto|]. clear IH.
      assert (Hp : forall k, assigned p = Some k -> class_attr k = false) by (intros; apply (Hps p); simpl; auto).
      assert (Hset : forall k v o', class_attr k = false -> o_set class_attr o k v = Ok o' ->
                forall k', In k' (dkeys (attrs o')) -> class_attr k' = false).
      { intros k v o' Hk E k' Hk'.
        assert (EA : attrs o' = dset k v (attrs o)).
        { unfold o_set in E. destruct (negb _ && negb _); [|inversion E; reflexivity].
          destruct (get_prev _ _); [|discriminate]. cbn [bind] in E.
          destruct (set_next _ _ _); [|discriminate]. cbn [bind] in E.
          destruct (set_prev _ _ _); [|discriminate]. inversion E; reflexivity. }
        rewrite EA, dkeys_dset in Hk'. destruct (dhas k (attrs o)); auto.
        apply in_app_or in Hk'. destruct Hk' as [H|[<-|[]]]; auto. }
      assert (Hdel : forall k k', In k' (dkeys (ddel k (attrs o))) -> In k' (dkeys (attrs o))).
      { intros k k'. generalize (attrs o) as d. induction d as [|[k0 v0] d IH]; simpl; [tauto|].
        destruct (String.eqb k k0); simpl; tauto. }
      intros k' Hk'. destruct p as [k v|k|k| |k v]; cbn [o_step] in Hk'.
      - destruct (o_set class_attr o k v) as [o'|] eqn:E; [|auto]. apply (Hset k v o'); auto.
      - unfold o_del in Hk'. destruct (dhas k (attrs o)); [|auto].
        destruct (dget k (dmap o)); [|apply Ho; eapply Hdel; exact Hk'].
        destruct (heap o n); [apply Ho; eapply Hdel; exact Hk'|].
        destruct (set_next _ _ _); [|apply Ho; eapply Hdel; exact Hk'].
        destruct (set_prev _ _ _); apply Ho; eapply Hdel; exact Hk'.
      - auto.
      - simpl in Hk'. tauto.
      - unfold o_append in Hk'.
        destruct (String.eqb _ _ || String.eqb _ _); [auto|].
        destruct (o_set class_attr o (translate k) v) as [o'|] eqn:E; [|auto].
        apply (Hset (translate k) v o'); auto. }
    apply G. simpl. tauto.
  Qed.

  Lemma len_run (ps : list (oop V)) :
    (forall p k, In p ps -> assigned p = Some k -> class_attr k = false) ->
    o_len (o_run class_attr ps) = List.length (live class_attr ps).
  Proof.
    intros Hps. pose proof (inv_run ps) as HI. unfold o_len.
    assert (E : forall k, dget k (attrs (o_run class_attr ps)) = dget k (live class_attr ps)).
    { intros k. destruct (class_attr k) eqn:Ec; [|apply (i_attr _ _ HI k Ec)].
      transitivity (@None V); [|symmetry]; apply dget_None_iff; intro Hin.
      - rewrite (attrs_visible ps Hps k Hin) in Ec. discriminate.
      - rewrite (i_vis _ _ HI k Hin) in Ec. discriminate. }
    rewrite <- (map_length fst (attrs _)), <- (map_length fst (live _ _)).
    fold (dkeys (attrs (o_run class_attr ps))). fold (dkeys (live class_attr ps)).
    apply Nat.le_antisymm; apply NoDup_incl_length.
    - apply (i_attrnd _ _ HI).
    - intros k Hk. apply dhas_true_iff in Hk. apply dhas_true_iff. unfold dhas in *. rewrite E in Hk. exact Hk.
    - apply (i_nd _ _ HI).
    - intros k Hk. apply dhas_true_iff in Hk. apply dhas_true_iff. unfold dhas in *. rewrite E. exact Hk.
  Qed.
  (** *** append *)
  Lemma append_dup (ps : list (oop V)) key v : class_attr (translate key) = false ->
    In (translate key) (dkeys (live class_attr ps)) ->
    translate key <> "_root" -> translate key <> "_map" ->
    exists o', o_append class_attr (o_run class_attr ps) key v = Ok o' /\
      o_keys o' = o_keys (o_run class_attr ps) /\
      o_get class_attr o' (translate key) = Ok (Some v) /\
      (forall k, k <> translate key -> class_attr k = false ->
         o_get class_attr o' k = o_get class_attr (o_run class_attr ps) k).
  Proof.
    intros Hc Hin H1 H2. pose proof (inv_run ps) as HI.
    pose proof (inv_append (o_run class_attr ps) _ key v HI) as H.
    destruct (o_append class_attr (o_run class_attr ps) key v) as [o'|e]; [|destruct H as [_ [H|H]]; congruence].
    exists o'. split; [reflexivity|]. cbn [live_step] in H. rewrite Hc in H.
    destruct (String.eqb_spec (translate key) "_root"); [congruence|].
    destruct (String.eqb_spec (translate key) "_map"); [congruence|]. cbn [orb] in H.
    rewrite (keys_inv _ _ H), (keys_inv _ _ HI), dkeys_dset_in by exact Hin.
    split; [reflexivity|]. split.
    - rewrite (get_inv _ _ _ H Hc), dget_dset_eq. reflexivity.
    - intros k Hk Hck. rewrite (get_inv _ _ _ H Hck), (get_inv _ _ _ HI Hck), dget_dset_ne by exact Hk. reflexivity.
  Qed.

  Lemma live_appends (l : list (string * V)) :
    NoDup (map (fun p => translate (fst p)) l) ->
    (forall p, In p l -> class_attr (translate (fst p)) = false /\ translate (fst p) <> "_root" /\ translate (fst p) <> "_map") ->
    live class_attr (map (fun p => OAppend (fst p) (snd p)) l) = map (fun p => (translate (fst p), snd p)) l.
  Proof.
    unfold live. intros Hnd Hok.
    assert (G : forall s, (forall k, In k (dkeys s) -> ~ In k (map (fun p => translate (fst p)) l)) ->
      fold_left (live_step class_attr) (map (fun p => OAppend (fst p) (snd p)) l) s =
      s ++ map (fun p => (translate (fst p), snd p)) l).
    { induction l as [|[k v] l IH]; intros s Hs; simpl; [symmetry; apply app_nil_r|].
      inversion Hnd; subst. destruct (Hok (k, v) (or_introl eq_refl)) as (A & B & C). simpl in A, B, C.
      rewrite A. destruct (String.eqb_spec (translate k) "_root"); [congruence|].
      destruct (String.eqb_spec (translate k) "_map"); [congruence|]. cbn [orb].
      assert (Hn : ~ In (translate k) (dkeys s)) by (intro H; apply (Hs _ H); simpl; auto).
      rewrite dset_new by exact Hn. rewrite IH.
      - rewrite <- app_assoc. reflexivity.
      - assumption.
      - intros p Hp. apply Hok. simpl; auto.
      - intros k' Hk'. rewrite dkeys_app in Hk'. apply in_app_or in Hk'. simpl in Hk'.
        destruct Hk' as [H|[<-|[]]]; [|assumption]. intro. apply (Hs k' H). simpl; auto. }
    rewrite G; [reflexivity|]. simpl. tauto.
  Qed.
End Ordered.
