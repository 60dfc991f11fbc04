(** * Proofs about append, Container.append, deep_get and deep_set *)
From Coq Require Import String Ascii List Bool Arith ZArith Lia.
From Verif Require Import PyBase M_Data S_Data P_Dict P_Data.
Import ListNotations.
Local Open Scope string_scope.
Local Open Scope list_scope.

Section Append.
  Context {V : Type}.

  Lemma data_append_ok key (v : V) d d' :
    data_append key v d = Ok d' ->
    ~ In (translate key) (dkeys d) /\ d' = d ++ [(translate key, v)].
  Proof.
    unfold data_append. destruct (dhas (translate key) d) eqn:E; [discriminate|].
    intros H; inversion H; subst. apply dhas_false_iff in E. split; [exact E|].
    apply dset_new; exact E.
  Qed.

  Lemma data_append_err key (v : V) d e :
    data_append key v d = Err e <-> In (translate key) (dkeys d) /\ e = KeyError.
  Proof.
    unfold data_append. destruct (dhas (translate key) d) eqn:E.
    - apply dhas_true_iff in E. split; [intros H; inversion H; auto|intros [_ ->]; reflexivity].
    - apply dhas_false_iff in E. split; [discriminate|tauto].
  Qed.
End Append.

Section ContainerHist.
  Context {B : Type}.
  Notation comp := (component B).

  Lemma container_append_body rand (v : comp) d :
    c_body (fst (container_append rand v d)) = c_body v.
  Proof. reflexivity. Qed.

  Lemma container_append_cases rand (v : comp) d :
    let v' := fst (container_append rand v d) in
    match snd (container_append rand v d) with
    | Ok d' => ~ In (translate (c_tag v')) (dkeys d) /\ d' = d ++ [(translate (c_tag v'), v')]
    | Err e => e = KeyError /\ In (translate (c_tag v')) (dkeys d)
    end.
  Proof.
    cbv zeta. unfold container_append; cbn [fst snd].
    destruct (data_append _ _ _) eqn:E.
    - apply data_append_ok in E. exact E.
    - apply data_append_err in E. tauto.
  Qed.

  (** fresh tag: stored under the normalised tag, not renamed *)
  Lemma container_append_fresh rand (v : comp) d :
    ~ In (translate (c_tag v)) (dkeys d) ->
    container_append rand v d = (v, Ok (d ++ [(translate (c_tag v), v)])).
  Proof.
    intros H. unfold container_append, container_tag. rewrite lower_translate.
    apply dhas_false_iff in H. rewrite H. unfold retag. destruct v as [t b]; cbn [c_tag c_body] in *.
    f_equal. unfold data_append. cbn [c_tag]. rewrite H. f_equal. apply dset_new.
    apply dhas_false_iff; exact H.
  Qed.

  (** used tag, numbered tag free: stored under tag + number *)
  Lemma container_append_numbered rand (v : comp) d :
    let n := str_count (c_tag v) (str_concat (dkeys d)) in
    let k := (translate (c_tag v) ++ str_of_nat (n + 1))%string in
    In (translate (c_tag v)) (dkeys d) ->
    ~ In k (dkeys d) ->
    container_append rand v d = (retag k v, Ok (d ++ [(k, retag k v)])).
  Proof.
    cbv zeta. intros Hin Hk. unfold container_append, container_tag. rewrite lower_translate.
    apply dhas_true_iff in Hin. rewrite Hin.
    set (k := (translate (c_tag v) ++ str_of_nat _)%string) in *.
    pose proof Hk as Hk0. apply dhas_false_iff in Hk. rewrite Hk. f_equal.
    unfold data_append. cbn [c_tag retag].
    assert (E : translate k = k).
    { unfold k. rewrite translate_app, translate_idem, translate_str_of_nat. reflexivity. }
    rewrite E, Hk. f_equal. apply dset_new; exact Hk0.
  Qed.

  (** both taken: the outcome is decided by the random number *)
  Lemma container_append_random rand (v : comp) d :
    let n := str_count (c_tag v) (str_concat (dkeys d)) in
    let k := (translate (c_tag v) ++ str_of_nat (n + rand))%string in
    In (translate (c_tag v)) (dkeys d) ->
    In (translate (c_tag v) ++ str_of_nat (n + 1))%string (dkeys d) ->
    snd (container_append rand v d) =
      if dhas k d then Err KeyError else Ok (d ++ [(k, retag k v)]).
  Proof.
    cbv zeta. intros Hin H1. unfold container_append, container_tag. rewrite lower_translate.
    apply dhas_true_iff in Hin. rewrite Hin. apply dhas_true_iff in H1. rewrite H1.
    set (k := (translate (c_tag v) ++ str_of_nat (_ + rand))%string). cbn [snd].
    unfold data_append. cbn [c_tag retag].
    assert (E : translate k = k).
    { unfold k. rewrite translate_app, translate_idem, translate_str_of_nat. reflexivity. }
    rewrite E. destruct (dhas k d) eqn:Ek; [reflexivity|]. f_equal.
    apply dset_new. apply dhas_false_iff; exact Ek.
  Qed.

  (** running a history of appends; exceptions are caught by the caller and the
      container is kept *)
  Fixpoint run_appends (ops : list (nat * comp)) (d : dict comp)
    : dict comp * list (comp * bool) :=
    match ops with
    | [] => (d, [])
    | (r, v) :: rest =>
      let '(v', res) := container_append r v d in
      let d' := match res with Ok d' => d' | Err _ => d end in
      let '(df, log) := run_appends rest d' in
      (df, (v', is_ok res) :: log)
    end.

  Lemma run_appends_spec ops : forall d : dict comp, NoDup (dkeys d) ->
    let '(df, log) := run_appends ops d in
    NoDup (dkeys df) /\
    df = d ++ map (fun e => (translate (c_tag (fst e)), fst e)) (filter snd log) /\
    map (fun e => c_body (fst e)) log = map (fun op => c_body (snd op)) ops.
  Proof.
    induction ops as [|[r v] rest IH]; intros d Hnd; cbn [run_appends].
    - simpl. rewrite app_nil_r. auto.
    - pose proof (container_append_cases r v d) as Hc. cbv zeta in Hc.
      pose proof (container_append_body r v d) as Hb.
      destruct (container_append r v d) as [v' res] eqn:E. cbn [fst snd] in Hc, Hb.
      destruct res as [d'|e]; cbn [is_ok].
      + destruct Hc as [Hn ->].
        assert (Hnd' : NoDup (dkeys (d ++ [(translate (c_tag v'), v')]))).
        { rewrite dkeys_app. apply NoDup_app_single; auto. }
        specialize (IH _ Hnd').
        destruct (run_appends rest (d ++ [(translate (c_tag v'), v')])) as [df log]. destruct IH as (H1 & H2 & H3).
        cbn [filter snd map fst].
        split; [exact H1|]. split.
        * rewrite H2. rewrite <- app_assoc. reflexivity.
        * simpl. rewrite H3, Hb. reflexivity.
      + specialize (IH _ Hnd).
        destruct (run_appends rest d) as [df log]. destruct IH as (H1 & H2 & H3).
        cbn [filter snd map fst].
        split; [exact H1|]. split; [exact H2|]. simpl. rewrite H3, Hb. reflexivity.
  Qed.
End ContainerHist.

(** ** deep_get and deep_set *)
Section Deep.
  Context {A : Type}.
  Notation tree := (tree A).

  Lemma deep_get_at_path (t : tree) ks : ks <> [] ->
    match deep_get t ks with
    | Ok x => at_path t ks = Some x
    | Err e => at_path t ks = None /\ (e = KeyError \/ e = TypeError)
    end.
  Proof.
    revert t. induction ks as [|k [|k2 r] IH]; intros t Hne; [congruence| |].
    - simpl. destruct t as [a|l|d]; simpl; auto. destruct (dget k d) eqn:E; auto.
    - change (deep_get t (k :: k2 :: r)) with (bind (getitem t k) (fun t' => deep_get t' (k2 :: r))).
      destruct t as [a|l|d]; simpl getitem; cbn [bind]; try (cbn; auto; fail).
      destruct (dget k d) as [t'|] eqn:E; cbn [bind].
      + specialize (IH t'). assert (Hn : k2 :: r <> []) by discriminate. specialize (IH Hn).
        replace (at_path (Node d) (k :: k2 :: r)) with (at_path t' (k2 :: r))
          by (cbn [at_path]; rewrite E; reflexivity).
        exact IH.
      + cbn [at_path]. rewrite E. auto.
  Qed.

  Lemma deep_get_Ok (t : tree) ks x : ks <> [] -> (deep_get t ks = Ok x <-> at_path t ks = Some x).
  Proof.
    intros Hne. pose proof (deep_get_at_path t ks Hne) as H. split; intros E.
    - rewrite E in H. exact H.
    - destruct (deep_get t ks) as [y|e]; [congruence|]. destruct H; congruence.
  Qed.

  Lemma set_last_plain (t : tree) k v : plain_key k = true ->
    set_last t k v = match t with Node d => Ok (Node (dset k v d)) | _ => Err TypeError end.
  Proof.
    unfold plain_key, set_last. destruct (last_char k) as [c|]; [|discriminate].
    destruct (Ascii.eqb c "]"); [discriminate|reflexivity].
  Qed.

  Lemma deep_set_cons2 (t : tree) k k2 r v :
    deep_set t (k :: k2 :: r) v =
      bind (getitem t k) (fun sub =>
      bind (deep_set sub (k2 :: r) v) (fun sub' =>
      match t with
      | Node d => Ok (Node (dset k sub' d))
      | _ => Err TypeError
      end)).
  Proof. reflexivity. Qed.

  Lemma deep_set_app (t : tree) k0 r k v :
    deep_set t ((k0 :: r) ++ [k]) v =
      bind (getitem t k0) (fun sub =>
      bind (deep_set sub (r ++ [k]) v) (fun sub' =>
      match t with
      | Node d => Ok (Node (dset k0 sub' d))
      | _ => Err TypeError
      end)).
  Proof. destruct r; reflexivity. Qed.

  (** success exactly when the parent exists and is a Data *)
  Lemma deep_set_ok_iff ks k (t v : tree) : plain_key k = true ->
    (exists t', deep_set t (ks ++ [k]) v = Ok t') <->
    (exists d, at_path t ks = Some (Node d)).
  Proof.
    intros Hk. revert t. induction ks as [|k0 r IH]; intros t.
    - simpl. rewrite set_last_plain by exact Hk. destruct t as [a|l|d]; split;
        intros [x H]; try discriminate; eauto.
    - rewrite deep_set_app. change ((k0 :: r) ++ [k]) with (k0 :: (r ++ [k])).
      destruct t as [a|l|d]; simpl getitem; cbn [bind at_path].
      + split; intros [x H]; discriminate.
      + split; intros [x H]; discriminate.
      + destruct (dget k0 d) as [sub|]; cbn [bind].
        * rewrite <- IH. split.
          -- intros [x H]. destruct (deep_set sub (r ++ [k]) v) as [s|e]; [exists s; reflexivity|discriminate].
          -- intros [x H]. rewrite H. cbn [bind]. eexists; reflexivity.
        * split; intros [x H]; discriminate.
  Qed.

  Lemma deep_set_err ks k (t v : tree) e : plain_key k = true ->
    deep_set t (ks ++ [k]) v = Err e -> e = KeyError \/ e = TypeError.
  Proof.
    intros Hk. revert t. induction ks as [|k0 r IH]; intros t.
    - simpl. rewrite set_last_plain by exact Hk. destruct t; intros H; inversion H; auto.
    - rewrite deep_set_app. change ((k0 :: r) ++ [k]) with (k0 :: (r ++ [k])).
      destruct t as [a|l|d]; simpl getitem; cbn [bind].
      + intros H; inversion H; auto.
      + intros H; inversion H; auto.
      + destruct (dget k0 d) as [sub|]; cbn [bind].
        * intros H. destruct (deep_set sub (r ++ [k]) v) as [s|e'] eqn:Es; cbn [bind] in H.
          -- discriminate.
          -- inversion H; subst. apply (IH _ Es).
        * intros H; inversion H; auto.
  Qed.

  Lemma deep_set_get ks k (t t' v : tree) : plain_key k = true ->
    deep_set t (ks ++ [k]) v = Ok t' -> at_path t' (ks ++ [k]) = Some v.
  Proof.
    intros Hk. revert t t'. induction ks as [|k0 r IH]; intros t t'.
    - simpl. rewrite set_last_plain by exact Hk. destruct t as [a|l|d]; try discriminate.
      intros H; inversion H; subst. rewrite dget_dset_eq. reflexivity.
    - rewrite deep_set_app. change ((k0 :: r) ++ [k]) with (k0 :: (r ++ [k])).
      destruct t as [a|l|d]; simpl getitem; cbn [bind]; try discriminate.
      destruct (dget k0 d) as [sub|] eqn:Eg; cbn [bind]; [|discriminate].
      destruct (deep_set sub (r ++ [k]) v) as [s|e'] eqn:Es; cbn [bind]; [|discriminate].
      intros H; inversion H; subst. cbn [at_path]. rewrite dget_dset_eq. apply (IH _ _ Es).
  Qed.

  Lemma deep_set_frame ks k (t t' v : tree) q : plain_key k = true ->
    deep_set t (ks ++ [k]) v = Ok t' ->
    is_prefix q (ks ++ [k]) = false -> is_prefix (ks ++ [k]) q = false ->
    at_path t' q = at_path t q.
  Proof.
    intros Hk. revert t t' q. induction ks as [|k0 r IH]; intros t t' q.
    - simpl app. change (deep_set t [k] v) with (set_last t k v).
      rewrite set_last_plain by exact Hk. destruct t as [a|l|d]; try discriminate.
      intros H Hq1 Hq2; inversion H; subst. destruct q as [|q0 q]; [discriminate|].
      cbn [at_path]. rewrite dget_dset_ne; [reflexivity|].
      intros ->. simpl in Hq2. rewrite String.eqb_refl in Hq2. discriminate.
    - rewrite deep_set_app. change ((k0 :: r) ++ [k]) with (k0 :: (r ++ [k])).
      destruct t as [a|l|d]; simpl getitem; cbn [bind]; try discriminate.
      destruct (dget k0 d) as [sub|] eqn:Eg; cbn [bind]; [|discriminate].
      destruct (deep_set sub (r ++ [k]) v) as [s|e'] eqn:Es; cbn [bind]; [|discriminate].
      intros H Hq1 Hq2; inversion H; subst. destruct q as [|q0 q]; [discriminate|].
      cbn [is_prefix] in Hq1, Hq2. cbn [at_path].
      destruct (String.eqb_spec q0 k0) as [->|Hne].
      + rewrite String.eqb_refl in Hq2. simpl in Hq1, Hq2.
        rewrite dget_dset_eq, Eg. apply (IH _ _ _ Es Hq1 Hq2).
      + rewrite dget_dset_ne by exact Hne. reflexivity.
  Qed.

  (** key order and key sets are preserved when the key exists *)

  (** ** indexed assignment *)
  Lemma list_set_length {T} n (x : T) l : List.length (list_set n x l) = List.length l.
  Proof. revert n. induction l as [|y l IH]; intros [|n]; simpl; auto. Qed.
  Lemma nth_error_list_set {T} n m (x : T) l :
    nth_error (list_set n x l) m =
      if Nat.eqb m n then (if Nat.ltb n (List.length l) then Some x else None) else nth_error l m.
  Proof.
    revert n m. induction l as [|y l IH]; intros [|n] [|m]; try reflexivity.
    - simpl. destruct (Nat.eqb m n); reflexivity.
    - simpl list_set. simpl nth_error. rewrite IH. reflexivity.
  Qed.

  Lemma norm_index_lt len i n : norm_index len i = Some n -> n < len.
  Proof.
    unfold norm_index.
    destruct ((0 <=? i) && (i <? Z.of_nat len))%Z eqn:E1.
    - intros H; inversion H; subst. apply andb_prop in E1 as [H1 H2].
      apply Z.leb_le in H1. apply Z.ltb_lt in H2. lia.
    - destruct ((- Z.of_nat len <=? i) && (i <? 0))%Z eqn:E2; [|discriminate].
      intros H; inversion H; subst. apply andb_prop in E2 as [H1 H2].
      apply Z.leb_le in H1. apply Z.ltb_lt in H2. lia.
  Qed.

  Lemma index_set_get idx : forall (t t' v : tree),
    index_set t idx v = Ok t' -> seq_at t' idx = Some v.
  Proof.
    induction idx as [|i r IH]; intros t t' v H; simpl in *.
    - inversion H; reflexivity.
    - destruct t as [a|l|d]; try discriminate.
      destruct (norm_index (List.length l) i) as [n|] eqn:En; [|discriminate].
      destruct (nth_error l n) as [x|] eqn:Ex; [|discriminate].
      destruct (index_set x r v) as [x'|e] eqn:Es; cbn [bind] in H; [|discriminate].
      inversion H; subst. rewrite list_set_length, En.
      rewrite nth_error_list_set, Nat.eqb_refl.
      pose proof (norm_index_lt _ _ _ En) as Hlt. apply Nat.ltb_lt in Hlt. rewrite Hlt.
      eapply IH; eassumption.
  Qed.

  Lemma index_set_frame idx : forall (t t' v : tree) jdx,
    index_set t idx v = Ok t' -> diverge t idx jdx -> seq_at t' jdx = seq_at t jdx.
  Proof.
    induction idx as [|i r IH]; intros t t' v [|j jr] H Hd; try (simpl in Hd; tauto).
    destruct t as [a|l|d]; try (simpl in Hd; tauto).
    cbn [index_set] in H.
    destruct (norm_index (List.length l) i) as [n|] eqn:En; [|discriminate].
    destruct (nth_error l n) as [x|] eqn:Ex; [|discriminate].
    destruct (index_set x r v) as [x'|e] eqn:Es; cbn [bind] in H; [|discriminate].
    inversion H; subst. cbn [seq_at]. rewrite list_set_length.
    cbn [diverge] in Hd. rewrite En in Hd.
    destruct (norm_index (List.length l) j) as [m|] eqn:Em; [|reflexivity].
    rewrite nth_error_list_set. destruct (Nat.eqb_spec m n) as [->|Hne].
    - pose proof (norm_index_lt _ _ _ En) as Hlt. apply Nat.ltb_lt in Hlt. rewrite Hlt, Ex.
      destruct Hd as [Hd|(n' & y & H1 & H2 & H3 & H4)]; [congruence|].
      inversion H1; subst. rewrite Ex in H3. inversion H3; subst.
      eapply IH; eassumption.
    - reflexivity.
  Qed.
End Deep.

(** ** statements in terms of the public methods *)
Section Api.
  Context {A : Type}.
  Notation tree := (tree A).
  Notation data := (dict tree).

  Lemma upd_ok (a b r : data) : data_update a (Node b) = Ok r -> r = update_by (Node b) a.
  Proof. unfold data_update. intros H. congruence. Qed.

  Lemma update_lookup_api (a b r : data) :
    wf (Node a) -> wf (Node b) -> data_update a (Node b) = Ok r ->
    wf (Node r) /\
    forall k, dget k r =
      if private k then dget k a
      else match dget k a, dget k b with
           | _, None => dget k a
           | Some (Node sa), Some (Node sb) =>
               match data_update sa (Node sb) with Ok m => Some (Node m) | Err _ => None end
           | _, Some v => Some v
           end.
  Proof.
    intros Ha Hb H. apply upd_ok in H; subst r. split; [apply wf_update; assumption|].
    intros k. rewrite update_lookup by (apply wf_Node in Hb; tauto).
    destruct (private k); [reflexivity|].
    destruct (dget k b) as [[x|l|sb]|]; destruct (dget k a) as [[y|l'|sa]|]; reflexivity.
  Qed.

  Lemma update_keys_api (a b r : data) :
    wf (Node b) -> data_update a (Node b) = Ok r ->
    dkeys r = dkeys a ++ filter (fun k => negb (private k) && negb (dhas k a)) (dkeys b).
  Proof. intros Hb H. apply upd_ok in H; subst r. apply update_keys. apply wf_Node in Hb; tauto. Qed.

  Lemma update_type_error (a : data) (t : tree) :
    data_update a t = Err TypeError <-> is_node t = false.
  Proof. destruct t; simpl; split; intros; try reflexivity; discriminate. Qed.

  Lemma update_override_api (a b r : data) p x :
    wf (Node b) -> data_update a (Node b) = Ok r ->
    forallb (fun k => negb (private k)) p = true ->
    at_path (Node b) p = Some x -> is_node x = false ->
    at_path (Node r) p = Some x.
  Proof. intros Hb H. apply upd_ok in H; subst r. intros; apply update_path_override; assumption. Qed.

  Lemma update_frame_api (a b r : data) p x :
    wf (Node b) -> data_update a (Node b) = Ok r ->
    at_path (Node a) p = Some x ->
    at_path (Node b) p = None ->
    (forall q y, is_prefix q p = true -> at_path (Node b) q = Some y -> is_node y = true) ->
    at_path (Node r) p = Some x.
  Proof. intros Hb H. apply upd_ok in H; subst r. intros; apply update_path_frame; assumption. Qed.

  Lemma update_idem_api (a b r : data) :
    wf (Node a) -> wf (Node b) -> data_update a (Node b) = Ok r ->
    data_update r (Node b) = Ok r.
  Proof.
    intros Ha Hb H. apply upd_ok in H; subst r. unfold data_update. f_equal.
    apply (update_idem (Node b) Hb a Ha).
  Qed.

  Lemma update_self_api (a : data) : wf (Node a) -> data_update a (Node a) = Ok a.
  Proof. intros H. unfold data_update. f_equal. exact (update_self (Node a) H). Qed.

  Lemma init_public (d : data) :
    wf (Node d) ->
    dkeys (data_init d) = filter (fun k => negb (private k)) (dkeys d) /\
    forall k, dget k (data_init d) = if private k then None else dget k d.
  Proof.
    intros H. apply wf_Node in H as [Hnd _]. split.
    - unfold data_init. rewrite update_keys by exact Hnd. simpl. apply filter_ext.
      intros k. unfold dhas. simpl. apply andb_true_r.
    - intros k. apply init_lookup; exact Hnd.
  Qed.

  Lemma app_single_not_nil {T} (l : list T) x : l ++ [x] <> [].
  Proof. destruct l; discriminate. Qed.

  Lemma deep_set_get_api (t t' v : tree) ks k :
    plain_key k = true -> deep_set t (ks ++ [k]) v = Ok t' ->
    deep_get t' (ks ++ [k]) = Ok v.
  Proof.
    intros Hk H. apply deep_get_Ok; [apply app_single_not_nil|].
    eapply deep_set_get; eassumption.
  Qed.

  Lemma deep_get_cons2 (t : tree) k k2 r :
    deep_get t (k :: k2 :: r) = bind (getitem t k) (fun t' => deep_get t' (k2 :: r)).
  Proof. reflexivity. Qed.

  Lemma deep_set_frame_api (t t' v : tree) ks k q :
    plain_key k = true -> deep_set t (ks ++ [k]) v = Ok t' ->
    q <> [] -> is_prefix q (ks ++ [k]) = false -> is_prefix (ks ++ [k]) q = false ->
    deep_get t' q = deep_get t q.
  Proof.
    intros Hk. revert t t' q. induction ks as [|k0 r IH]; intros t t' q H Hq H1 H2.
    - change (deep_set t ([] ++ [k]) v) with (set_last t k v) in H.
      rewrite set_last_plain in H by exact Hk. destruct t as [a|l|d]; try discriminate.
      inversion H; subst. destruct q as [|q0 q]; [congruence|].
      assert (Hne : q0 <> k).
      { intros ->. simpl in H2. rewrite String.eqb_refl in H2. discriminate. }
      destruct q as [|q1 q]; [|rewrite !deep_get_cons2]; simpl getitem;
        cbn [deep_get getitem]; rewrite dget_dset_ne by exact Hne; reflexivity.
    - rewrite deep_set_app in H.
      destruct t as [a|l|d]; simpl getitem in H; cbn [bind] in H; try discriminate.
      destruct (dget k0 d) as [sub|] eqn:Eg; cbn [bind] in H; [|discriminate].
      destruct (deep_set sub (r ++ [k]) v) as [s|e'] eqn:Es; cbn [bind] in H; [|discriminate].
      inversion H; subst. destruct q as [|q0 q]; [congruence|].
      change ((k0 :: r) ++ [k]) with (k0 :: (r ++ [k])) in H1, H2.
      cbn [is_prefix] in H1, H2.
      destruct (String.eqb_spec q0 k0) as [->|Hne].
      + rewrite String.eqb_refl in H2. cbn [andb] in H1, H2.
        destruct q as [|q1 q]; [discriminate|]. rewrite !deep_get_cons2. cbn [getitem].
        rewrite dget_dset_eq, Eg. cbn [bind]. eapply IH; try eassumption. discriminate.
      + destruct q as [|q1 q]; [|rewrite !deep_get_cons2]; cbn [deep_get getitem];
          rewrite dget_dset_ne by exact Hne; reflexivity.
  Qed.

  Lemma deep_set_total (t v : tree) ks k :
    plain_key k = true ->
    ((exists t', deep_set t (ks ++ [k]) v = Ok t') <-> (exists d, at_path t ks = Some (Node d))) /\
    (forall e, deep_set t (ks ++ [k]) v = Err e -> e = KeyError \/ e = TypeError).
  Proof.
    intros Hk. split; [apply deep_set_ok_iff; exact Hk|].
    intros e. apply deep_set_err; exact Hk.
  Qed.

  Lemma dotted (t v : tree) ks :
    ks <> [] -> forallb (no_char ".") ks = true ->
    deep_set_str t (join_with "." ks) v = deep_set t ks v /\
    deep_get_str t (join_with "." ks) = deep_get t ks.
  Proof. intros H1 H2. unfold deep_set_str, deep_get_str. rewrite split_join by assumption. auto. Qed.
End Api.

Section ApiAppend.
  Context {V B : Type}.

  Lemma data_append_exact (key : string) (v : V) (d : dict V) :
    (In (translate key) (dkeys d) -> data_append key v d = Err KeyError) /\
    (~ In (translate key) (dkeys d) -> data_append key v d = Ok (d ++ [(translate key, v)])).
  Proof.
    split; intros H; unfold data_append.
    - apply dhas_true_iff in H. rewrite H; reflexivity.
    - pose proof H as H0. apply dhas_false_iff in H. rewrite H. f_equal. apply dset_new; exact H0.
  Qed.

  Lemma run_appends_api (ops : list (nat * component B)) :
    let '(df, log) := run_appends ops [] in
    NoDup (dkeys df) /\
    df = map (fun e => (translate (c_tag (fst e)), fst e)) (filter snd log) /\
    map (fun e => c_body (fst e)) log = map (fun op => c_body (snd op)) ops.
  Proof. exact (run_appends_spec ops [] (NoDup_nil _)). Qed.

  Lemma container_append_step (rand : nat) (c : component B) (d : dict (component B)) :
    match container_append rand c d with
    | (c', Ok d') => c_body c' = c_body c /\
                     ~ In (translate (c_tag c')) (dkeys d) /\
                     d' = d ++ [(translate (c_tag c'), c')]
    | (_, Err e) => e = KeyError
    end.
  Proof.
    pose proof (container_append_cases rand c d) as H. cbv zeta in H.
    pose proof (container_append_body rand c d) as Hb.
    destruct (container_append rand c d) as [c' [d'|e]]; cbn [fst snd] in *; tauto.
  Qed.

  Lemma get_translate s n : String.get n (translate s) =
    match String.get n s with Some c => Some (t_char c) | None => None end.
  Proof. revert n. induction s as [|c s IH]; intros [|n]; simpl; auto. Qed.

  Fixpoint find_char (c : ascii) (s : string) : option nat :=
    match s with
    | EmptyString => None
    | String a r => if Ascii.eqb a c then Some 0
                    else match find_char c r with Some n => Some (S n) | None => None end
    end.
  Lemma find_char_Some c s n : find_char c s = Some n -> String.get n s = Some c.
  Proof.
    revert n. induction s as [|a r IH]; simpl; intros n H; [discriminate|].
    destruct (Ascii.eqb_spec a c) as [->|Hne]; [inversion H; reflexivity|].
    destruct (find_char c r) as [m|]; [|discriminate]. inversion H; subst. apply IH; reflexivity.
  Qed.
  Lemma find_char_None c s : find_char c s = None -> ~ char_in c s.
  Proof.
    induction s as [|a r IH]; simpl; intros H [n Hn].
    - destruct n; discriminate.
    - destruct (Ascii.eqb_spec a c) as [->|Hne]; [discriminate|].
      destruct (find_char c r) as [m|]; [discriminate|].
      destruct n as [|n]; [simpl in Hn; congruence|]. apply IH; [reflexivity|]. exists n; exact Hn.
  Qed.
  Lemma t_char_cases c :
    match find_char c punct_space with
    | Some _ => t_char c = "_"%char
    | None => match find_char c upper with
              | Some n => String.get n lower = Some (t_char c)
              | None => t_char c = c
              end
    end.
  Proof. destruct c as [[] [] [] [] [] [] [] []]; reflexivity. Qed.

  Lemma translate_spec (s : string) (n : nat) (c : ascii) :
    String.get n (translate s) = Some c ->
    exists c0, String.get n s = Some c0 /\ normal_char c0 c.
  Proof.
    rewrite get_translate. destruct (String.get n s) as [c0|]; [|discriminate].
    intros H; inversion H; subst. exists c0. split; [reflexivity|].
    pose proof (t_char_cases c0) as Hc.
    destruct (find_char c0 punct_space) as [m|] eqn:E1.
    - rewrite Hc. constructor. exists m. apply find_char_Some; exact E1.
    - destruct (find_char c0 upper) as [m|] eqn:E2.
      + econstructor 2; [apply find_char_Some; exact E2|exact Hc].
      + rewrite Hc. constructor 3; apply find_char_None; assumption.
  Qed.

  Lemma append_refuted :
  exists (ops : list (nat * component nat)) (rand : nat) (c : component nat),
    rand <= 1000 /\ Forall (fun op => fst op <= 1000) ops /\
    snd (container_append rand c (fst (run_appends ops []))) = Err KeyError /\
    is_ok (snd (container_append 0 c (fst (run_appends ops [])))) = true.
  Proof.
    exists [(0, {| c_tag := "Wing"; c_body := 1 |}); (0, {| c_tag := "Wing"; c_body := 2 |})].
    exists 1. exists {| c_tag := "Wing"; c_body := 3 |}.
    split; [lia|]. split; [repeat constructor; simpl; lia|]. split; reflexivity.
  Qed.
End ApiAppend.

Lemma ex_wf_proof :
  wf (Node [("wing", Node [("span", Leaf 10); ("_private", Leaf 1)]); ("mass", Leaf 5); ("_p", Leaf 7)])
  /\ wf (Node [("_p", Leaf 8); ("wing", Node [("chord", Leaf 3); ("_private", Leaf 2)]); ("mass", Node [("x", Leaf 1)]);
   ("tail", Seq [Leaf 1; Seq [Leaf 2]])]).
Proof.
  simpl. repeat split; repeat constructor; simpl; intuition discriminate.
Qed.
