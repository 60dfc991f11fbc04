(** * Proofs about pack_array / unpack_array *)
From Coq Require Import String List Bool Arith Lia.
From Verif Require Import PyBase M_Data S_Data P_Data M_Pack S_Pack.
Import ListNotations.

Section Pack.
  Context {T F : Type}.
  Notation ptree := (tree (pval T F)).
  Notation items := (list (string * ptree)).

  Fixpoint pack_items (d : items) : result (list T) :=
    match d with
    | [] => Ok []
    | (_, v) :: r => bind (pack_vec v) (fun a => bind (pack_items r) (fun b => Ok (a ++ b)))
    end.
  Lemma pack_Node (d : items) : pack_vec (Node d) = pack_items d.
  Proof. induction d as [|[k v] r IH]; [reflexivity|]. cbn [pack_items]. rewrite <- IH. reflexivity. Qed.

  Fixpoint unpack_items (M : list T) (d : items) (i : nat) : result (items * nat) :=
    match d with
    | [] => Ok ([], i)
    | (k, v) :: r =>
        bind (unpack_vec_from M v i) (fun '(v', j) =>
        bind (unpack_items M r j) (fun '(r', j') => Ok ((k, v') :: r', j')))
    end.
  Lemma unpack_Node M (d : items) i :
    unpack_vec_from M (Node d) i = bind (unpack_items M d i) (fun '(d', j) => Ok (Node d', j)).
  Proof.
    cbn [unpack_vec_from]. f_equal. revert i.
    induction d as [|[k v] r IH]; intros i; [reflexivity|]. cbn [unpack_items].
    destruct (unpack_vec_from M v i) as [[v' j]|e]; [|reflexivity]. cbn [bind]. rewrite IH. reflexivity.
  Qed.

  Fixpoint slots_items (d : items) : nat :=
    match d with [] => 0 | (_, x) :: r => slots x + slots_items r end.
  Lemma slots_Node (d : items) : slots (Node d) = slots_items d.
  Proof. induction d as [|[k v] r IH]; [reflexivity|]. cbn [slots_items]. rewrite <- IH. reflexivity. Qed.
  Fixpoint shapes_items (d : items) : Prop :=
    match d with [] => True | (_, x) :: r => shapes_ok x /\ shapes_items r end.
  Lemma shapes_Node (d : items) : shapes_ok (Node d) <-> shapes_items d.
  Proof. induction d as [|[k v] r IH]; [reflexivity|]. cbn [shapes_items]. rewrite <- IH. reflexivity. Qed.

  (** *** list facts *)
  Lemma slice_app {X} (pre q post : list X) n :
    List.length q = n -> slice (List.length pre) n (pre ++ q ++ post) = q.
  Proof.
    intros <-. unfold slice. rewrite skipn_app, skipn_all, Nat.sub_diag. simpl.
    rewrite firstn_app, firstn_all, Nat.sub_diag. simpl. apply app_nil_r.
  Qed.
  Lemma chunks_length {X} n m (v : list X) : List.length (chunks n m v) = m.
  Proof. revert v. induction m; intros v; simpl; auto. Qed.
  Lemma chunks_each {X} n m (v : list X) : List.length v = n * m ->
    Forall (fun c => List.length c = n) (chunks n m v).
  Proof.
    revert v. induction m as [|m IH]; intros v Hv; simpl; constructor.
    - rewrite firstn_length. lia.
    - apply IH. rewrite skipn_length. lia.
  Qed.
  Lemma concat_chunks {X} n m (v : list X) : List.length v = n * m -> concat (chunks n m v) = v.
  Proof.
    revert v. induction m as [|m IH]; intros v Hv; simpl.
    - destruct v; [reflexivity|]. simpl in Hv. lia.
    - rewrite IH by (rewrite skipn_length; lia). apply firstn_skipn.
  Qed.
  Lemma length_concat_cols {X} n (cols : list (list X)) :
    Forall (fun c => List.length c = n) cols -> List.length (concat cols) = n * List.length cols.
  Proof.
    induction 1 as [|c cs Hc _ IH]; simpl; [lia|]. rewrite app_length, IH. lia.
  Qed.
  Lemma chunks_concat {X} n (cols : list (list X)) :
    Forall (fun c => List.length c = n) cols -> chunks n (List.length cols) (concat cols) = cols.
  Proof.
    induction 1 as [|c cs Hc _ IH]; simpl; [reflexivity|].
    rewrite firstn_app, skipn_app, <- Hc, firstn_all, skipn_all, Nat.sub_diag. simpl.
    rewrite app_nil_r. f_equal. rewrite Hc. exact IH.
  Qed.

  (** *** the index always advances by the number of slots *)
  Lemma unpack_leaf_index (M : list T) (v : pval T F) i v' j :
    unpack_leaf M v i = Ok (v', j) -> j = i + leaf_slots v.
  Proof.
    destruct v as [x|x|l|n cols|f]; simpl.
    - destruct (nth_error M i); intros H; inversion H; lia.
    - destruct (nth_error M i); intros H; inversion H; lia.
    - destruct (assign_vec _ _); simpl; intros H; inversion H; reflexivity.
    - destruct (Nat.eqb _ _); intros H; inversion H; reflexivity.
    - intros H; inversion H; lia.
  Qed.
  Lemma unpack_index M (t : ptree) : forall i t' j,
    unpack_vec_from M t i = Ok (t', j) -> j = i + slots t.
  Proof.
    induction t as [v|l _|d IH] using tree_ind'; intros i t' j.
    - cbn [unpack_vec_from]. destruct (unpack_leaf M v i) as [[v' j']|e] eqn:E; simpl; [|discriminate].
      intros H; inversion H; subst. apply unpack_leaf_index in E. exact E.
    - simpl. intros H; inversion H; lia.
    - rewrite unpack_Node, slots_Node. revert i t' j.
      assert (G : forall i d' j, unpack_items M d i = Ok (d', j) -> j = i + slots_items d).
      { induction d as [|[k v] r IHr]; intros i d' j; cbn [unpack_items slots_items].
        - intros H; inversion H; lia.
        - inversion IH; subst. destruct (unpack_vec_from M v i) as [[v' j1]|e] eqn:E; cbn [bind]; [|discriminate].
          destruct (unpack_items M r j1) as [[r' j2]|e] eqn:E2; cbn [bind]; [|discriminate].
          intros H; inversion H; subst. apply H1 in E. simpl in E.
          apply (IHr H2) in E2. lia. }
      intros i t' j. destruct (unpack_items M d i) as [[d' j']|e] eqn:E; cbn [bind]; [|discriminate].
      intros H; inversion H; subst. apply G in E. exact E.
  Qed.

  (** *** packed length *)
  Lemma pack_length (t : ptree) : shapes_ok t -> forall P, pack_vec t = Ok P -> List.length P = slots t.
  Proof.
    induction t as [v|l _|d IH] using tree_ind'; intros Hs P.
    - destruct v as [x|x|l|n cols|f]; simpl; intros H; inversion H; subst; try reflexivity.
      apply length_concat_cols. exact Hs.
    - simpl; intros H; inversion H; reflexivity.
    - rewrite pack_Node, slots_Node. apply shapes_Node in Hs. revert P.
      induction d as [|[k v] r IHr]; intros P; cbn [pack_items slots_items].
      + intros H; inversion H; reflexivity.
      + inversion IH; subst. destruct Hs as [Hv Hr].
        destruct (pack_vec v) as [a|] eqn:Ea; cbn [bind]; [|discriminate].
        destruct (pack_items r) as [b|] eqn:Eb; cbn [bind]; [|discriminate].
        intros H; inversion H; subst. rewrite app_length.
        rewrite (IHr H2 Hr b eq_refl). simpl in H1. rewrite (H1 Hv a Ea). reflexivity.
  Qed.

  (** *** unpack after pack *)
  Lemma unpack_pack_leaf (v : pval T F) P pre post : leaf_ok v -> pack_leaf v = Ok P ->
    unpack_leaf (pre ++ P ++ post) v (List.length pre) = Ok (v, List.length pre + List.length P).
  Proof.
    destruct v as [x|x|l|n cols|f]; simpl; intros Hok H; inversion H; subst; clear H.
    - rewrite nth_error_app2, Nat.sub_diag by lia. simpl. f_equal. f_equal. lia.
    - rewrite slice_app by reflexivity. unfold assign_vec. rewrite Nat.eqb_refl. simpl. reflexivity.
    - rewrite slice_app by (apply length_concat_cols; exact Hok).
      rewrite (length_concat_cols n) by exact Hok.
      rewrite Nat.eqb_refl, chunks_concat by exact Hok. reflexivity.
    - rewrite Nat.add_0_r. reflexivity.
  Qed.

  Lemma unpack_pack_from (t : ptree) : shapes_ok t -> forall P pre post, pack_vec t = Ok P ->
    unpack_vec_from (pre ++ P ++ post) t (List.length pre) = Ok (t, List.length pre + List.length P).
  Proof.
    induction t as [v|l _|d IH] using tree_ind'; intros Hs P pre post.
    - cbn [pack_vec unpack_vec_from]. intros H. rewrite (unpack_pack_leaf v P) by assumption. reflexivity.
    - simpl. intros H; inversion H; subst. simpl. rewrite Nat.add_0_r. reflexivity.
    - rewrite pack_Node, unpack_Node. apply shapes_Node in Hs.
      assert (G : forall P pre post, pack_items d = Ok P ->
        unpack_items (pre ++ P ++ post) d (List.length pre) = Ok (d, List.length pre + List.length P)).
      { clear P pre post. induction d as [|[k v] r IHr]; intros P pre post; cbn [pack_items unpack_items].
        - intros H; inversion H; subst. simpl. rewrite Nat.add_0_r. reflexivity.
        - inversion IH; subst. destruct Hs as [Hv Hr].
          destruct (pack_vec v) as [a|] eqn:Ea; cbn [bind]; [|discriminate].
          destruct (pack_items r) as [b|] eqn:Eb; cbn [bind]; [|discriminate].
          intros H; inversion H; subst. simpl in H1. rewrite <- app_assoc.
          rewrite (H1 Hv a pre (b ++ post) Ea). cbn [bind].
          specialize (IHr H2 Hr b (pre ++ a) post eq_refl).
          rewrite <- app_assoc, app_length in IHr.
          rewrite IHr. cbn [bind]. rewrite app_length. rewrite Nat.add_assoc. reflexivity. }
      intros H. rewrite (G _ _ _ H). reflexivity.
  Qed.

  (** *** pack after unpack *)
  Lemma pack_unpack_leaf (v : pval T F) P0 Q pre post :
    pack_leaf v = Ok P0 -> List.length Q = leaf_slots v ->
    exists v', unpack_leaf (pre ++ Q ++ post) v (List.length pre) = Ok (v', List.length pre + leaf_slots v)
      /\ pack_leaf v' = Ok Q /\ leaf_same v v' /\ leaf_ok v'.
  Proof.
    destruct v as [x|x|l|n cols|f]; simpl; intros H0 HQ; try discriminate.
    - destruct Q as [|q [|]]; try discriminate. exists (Scalar q).
      rewrite nth_error_app2, Nat.sub_diag by lia. simpl. repeat split. f_equal. f_equal. lia.
    - exists (Vec Q). rewrite slice_app by exact HQ. unfold assign_vec. rewrite HQ, Nat.eqb_refl.
      simpl. repeat split.
    - exists (Mat n (chunks n (List.length cols) Q)).
      rewrite slice_app by exact HQ. rewrite HQ, Nat.eqb_refl. simpl. repeat split.
      + f_equal. apply concat_chunks; exact HQ.
      + symmetry; apply chunks_length.
      + apply chunks_each; exact HQ.
    - exists (Other f). destruct Q; [|discriminate]. rewrite Nat.add_0_r. repeat split.
  Qed.

  Lemma firstn_skipn_length {X} (n : nat) (l : list X) m : List.length l = n + m ->
    List.length (firstn n l) = n /\ List.length (skipn n l) = m.
  Proof. intros H. rewrite firstn_length, skipn_length. lia. Qed.

  Lemma pack_unpack_from (t : ptree) : forall P0 Q pre post,
    pack_vec t = Ok P0 -> List.length Q = slots t ->
    exists t', unpack_vec_from (pre ++ Q ++ post) t (List.length pre) = Ok (t', List.length pre + slots t)
      /\ pack_vec t' = Ok Q /\ same_shape t t' /\ shapes_ok t'.
  Proof.
    induction t as [v|l _|d IH] using tree_ind'; intros P0 Q pre post H0 HQ.
    - cbn [pack_vec unpack_vec_from slots] in *.
      destruct (pack_unpack_leaf v P0 Q pre post H0 HQ) as (v' & H1 & H2 & H3 & H4).
      exists (Leaf v'). rewrite H1. cbn [bind]. repeat split; auto. constructor; exact H3.
    - exists (Seq l). simpl in *. destruct Q; [|discriminate]. rewrite Nat.add_0_r.
      repeat split. constructor.
    - rewrite pack_Node in H0. rewrite slots_Node in *.
      assert (G : exists d', unpack_items (pre ++ Q ++ post) d (List.length pre) = Ok (d', List.length pre + slots_items d)
         /\ pack_items d' = Ok Q
         /\ Forall2 (fun a b => fst a = fst b /\ same_shape (snd a) (snd b)) d d' /\ shapes_items d').
      { revert P0 Q pre post H0 HQ. induction d as [|[k v] r IHr]; intros P0 Q pre post H0 HQ;
          cbn [pack_items unpack_items slots_items] in *.
        - exists []. destruct Q; [|discriminate]. rewrite Nat.add_0_r. repeat split. constructor.
        - inversion IH as [|? ? Hv Hrest]; subst. simpl in Hv.
          destruct (pack_vec v) as [a|] eqn:Ea; cbn [bind] in H0; [|discriminate].
          destruct (pack_items r) as [b|] eqn:Eb; cbn [bind] in H0; [|discriminate].
          destruct (firstn_skipn_length _ _ _ HQ) as [L1 L2].
          set (Q1 := firstn (slots v) Q) in *. set (Q2 := skipn (slots v) Q) in *.
          assert (EQ : Q = Q1 ++ Q2) by (symmetry; apply firstn_skipn).
          destruct (Hv a Q1 pre (Q2 ++ post) eq_refl L1) as (v' & A1 & A2 & A3 & A4).
          destruct (IHr Hrest b Q2 (pre ++ Q1) post eq_refl L2) as (r' & B1 & B2 & B3 & B4).
          exists ((k, v') :: r'). rewrite EQ, <- app_assoc, A1. cbn [bind].
          rewrite <- app_assoc, app_length, L1 in B1. rewrite B1. cbn [bind].
          cbn [pack_items]. rewrite A2, B2. cbn [bind]. repeat split.
          + rewrite Nat.add_assoc. reflexivity.
          + constructor; auto.
          + exact A4.
          + exact B4. }
      destruct G as (d' & G1 & G2 & G3 & G4). exists (Node d').
      rewrite unpack_Node, G1, pack_Node, G2. cbn [bind]. repeat split.
      + constructor; exact G3.
      + apply shapes_Node; exact G4.
  Qed.

  Lemma unpack_pack_api (t : ptree) P : shapes_ok t -> pack_vec t = Ok P ->
    unpack_vec t P = Ok (t, false).
  Proof.
    intros Hs HP. unfold unpack_vec.
    pose proof (unpack_pack_from t Hs P [] [] HP) as H. simpl in H. rewrite app_nil_r in H.
    rewrite H. cbn [bind]. rewrite Nat.eqb_refl. reflexivity.
  Qed.
  Lemma pack_unpack_api (t : ptree) P M : shapes_ok t -> pack_vec t = Ok P ->
    List.length M = List.length P ->
    exists t', unpack_vec t M = Ok (t', false) /\ pack_vec t' = Ok M /\ same_shape t t' /\ shapes_ok t'.
  Proof.
    intros Hs HP HM. rewrite (pack_length t Hs P HP) in HM.
    destruct (pack_unpack_from t P M [] [] HP HM) as (t' & H1 & H2 & H3 & H4).
    exists t'. simpl in H1. rewrite app_nil_r in H1. unfold unpack_vec. rewrite H1. cbn [bind].
    rewrite HM, Nat.eqb_refl. auto.
  Qed.
  Lemma unpack_long_api (t : ptree) P M extra : shapes_ok t -> pack_vec t = Ok P ->
    List.length M = List.length P -> extra <> [] ->
    exists t', unpack_vec t (M ++ extra) = Ok (t', true) /\ pack_vec t' = Ok M /\ same_shape t t'.
  Proof.
    intros Hs HP HM He. rewrite (pack_length t Hs P HP) in HM.
    destruct (pack_unpack_from t P M [] extra HP HM) as (t' & H1 & H2 & H3 & H4).
    exists t'. simpl in H1. unfold unpack_vec. rewrite H1. cbn [bind].
    rewrite app_length, HM. destruct extra as [|e0 e]; [congruence|]. simpl.
    destruct (Nat.eqb_spec (slots t + S (List.length e)) (slots t)); [lia|]. auto.
  Qed.
  Lemma unpack_warning_api (t t' : ptree) M w :
    unpack_vec t M = Ok (t', w) -> (w = false <-> List.length M = slots t).
  Proof.
    unfold unpack_vec. destruct (unpack_vec_from M t 0) as [[t1 j]|e] eqn:E; cbn [bind]; [|discriminate].
    intros H; inversion H; subst. apply unpack_index in E. simpl in E. subst j.
    rewrite negb_false_iff. apply Nat.eqb_eq.
  Qed.

  (** ** array mode *)
  Fixpoint unpack_arr_items (M : matrix) (d : items) (i : nat) : result (items * nat) :=
    match d with
    | [] => Ok ([], i)
    | (k, v) :: r =>
        bind (unpack_arr_from M v i) (fun '(v', j) =>
        bind (unpack_arr_items M r j) (fun '(r', j') => Ok ((k, v') :: r', j')))
    end.
  Lemma unpack_arr_Node M (d : items) i :
    unpack_arr_from M (Node d) i = bind (unpack_arr_items M d i) (fun '(d', j) => Ok (Node d', j)).
  Proof.
    cbn [unpack_arr_from]. f_equal. revert i.
    induction d as [|[k v] r IH]; intros i; [reflexivity|]. cbn [unpack_arr_items].
    destruct (unpack_arr_from M v i) as [[v' j]|e]; [|reflexivity]. cbn [bind]. rewrite IH. reflexivity.
  Qed.
  Fixpoint pack_arr_items (d : items) (st : nat * list matrix) : result (nat * list matrix) :=
    match d with
    | [] => Ok st
    | (_, v) :: r => bind (pack_arr_from v st) (fun st' => pack_arr_items r st')
    end.
  Lemma pack_arr_Node (d : items) st : pack_arr_from (Node d) st = pack_arr_items d st.
  Proof.
    cbn [pack_arr_from]. revert st. induction d as [|[k v] r IH]; intros st; [reflexivity|].
    cbn [pack_arr_items]. destruct (pack_arr_from v st); [|reflexivity]. cbn [bind]. apply IH.
  Qed.
  Fixpoint uniform_items (n : nat) (d : items) : Prop :=
    match d with [] => True | (_, x) :: r => uniform n x /\ uniform_items n r end.
  Lemma uniform_Node n (d : items) : uniform n (Node d) <-> uniform_items n d.
  Proof. induction d as [|[k v] r IH]; [reflexivity|]. cbn [uniform_items]. rewrite <- IH. reflexivity. Qed.
  Fixpoint width_items (d : items) : nat :=
    match d with [] => 0 | (_, x) :: r => width x + width_items r end.
  Lemma width_Node (d : items) : width (Node d) = width_items d.
  Proof. induction d as [|[k v] r IH]; [reflexivity|]. cbn [width_items]. rewrite <- IH. reflexivity. Qed.

  (** the columns of a tree, in traversal order *)
  Definition leaf_cols (v : pval T F) : list (list T) :=
    match v with Vec l => [l] | Mat _ c => c | _ => [] end.
  Fixpoint cols_of (t : ptree) : list (list T) :=
    match t with
    | Leaf v => leaf_cols v
    | Seq _ => []
    | Node d => (fix go (d : items) := match d with [] => [] | (_, x) :: r => cols_of x ++ go r end) d
    end.
  Fixpoint cols_items (d : items) : list (list T) :=
    match d with [] => [] | (_, x) :: r => cols_of x ++ cols_items r end.
  Lemma cols_Node (d : items) : cols_of (Node d) = cols_items d.
  Proof. induction d as [|[k v] r IH]; [reflexivity|]. cbn [cols_items]. rewrite <- IH. reflexivity. Qed.
  Lemma cols_width (t : ptree) : List.length (cols_of t) = width t.
  Proof.
    induction t as [v|l _|d IH] using tree_ind'.
    - destruct v; reflexivity.
    - reflexivity.
    - rewrite cols_Node, width_Node. induction d as [|[k v] r IHr]; [reflexivity|].
      inversion IH; subst. simpl in *. rewrite app_length, H1, IHr; auto.
  Qed.

  Lemma pack_arr_from_spec n (t : ptree) : uniform n t -> forall s acc, (s = 0 \/ s = n) ->
    exists s' ms, pack_arr_from t (s, acc) = Ok (s', acc ++ ms) /\ (s' = 0 \/ s' = n) /\
      Forall (fun m => fst m = n) ms /\ concat (map snd ms) = cols_of t.
  Proof.
    induction t as [v|l _|d IH] using tree_ind'; intros Hu s acc Hs.
    - destruct v as [x|x|l|r cols|f]; simpl in Hu; try tauto.
      + cbn [pack_arr_from]. unfold pack_arr_leaf. cbn [as_matrix bind].
        exists n, [(n, [l])]. rewrite Hu.
        assert (E : (if Nat.eqb s 0 then n else s) = n).
        { destruct Hs as [->| ->]; [reflexivity|]. destruct (Nat.eqb_spec n 0); auto. }
        rewrite E, Nat.eqb_refl. repeat split; auto.
      + destruct Hu as [-> Hc]. cbn [pack_arr_from]. unfold pack_arr_leaf. cbn [as_matrix bind].
        exists n, [(n, cols)].
        assert (E : (if Nat.eqb s 0 then n else s) = n).
        { destruct Hs as [->| ->]; [reflexivity|]. destruct (Nat.eqb_spec n 0); auto. }
        rewrite E, Nat.eqb_refl. repeat split; auto. simpl. apply app_nil_r.
      + exists s, []. cbn. rewrite app_nil_r. repeat split; auto.
    - exists s, []. cbn. rewrite app_nil_r. repeat split; auto.
    - apply uniform_Node in Hu. rewrite cols_Node, pack_arr_Node. revert s acc Hs.
      induction d as [|[k v] r IHr]; intros s acc Hs; cbn [pack_arr_items cols_items].
      + exists s, []. rewrite app_nil_r. repeat split; auto.
      + inversion IH as [|? ? Hv Hrest]; subst. destruct Hu as [Huv Hur].
        destruct (Hv Huv s acc Hs) as (s1 & m1 & E1 & Hs1 & F1 & C1). simpl in E1. rewrite E1. cbn [bind].
        destruct (IHr Hrest Hur s1 (acc ++ m1) Hs1) as (s2 & m2 & E2 & Hs2 & F2 & C2).
        exists s2, (m1 ++ m2). rewrite E2, app_assoc. repeat split; auto.
        * apply Forall_app; auto.
        * rewrite map_app, concat_app. f_equal; [exact C1|exact C2].
  Qed.

  Lemma pack_arr_uniform n (t : ptree) : uniform n t ->
    (width t <> 0 -> pack_arr t = Ok (n, cols_of t)) /\
    (width t = 0 -> exists r, pack_arr t = Ok (r, [])).
  Proof.
    intros Hu. destruct (pack_arr_from_spec n t Hu 0 [] (or_introl eq_refl)) as (s & ms & E & _ & HF & HC).
    unfold pack_arr. rewrite E. cbn [bind]. simpl app.
    destruct ms as [|[n0 c0] ms].
    - simpl in HC. split; intros H.
      + exfalso. apply H. rewrite <- cols_width, <- HC. reflexivity.
      + exists 1. reflexivity.
    - assert (Hh : hstack ((n0, c0) :: ms) = Ok (n, cols_of t)).
      { unfold hstack. pose proof (Forall_inv HF) as Hn. simpl in Hn. subst n0.
        replace (forallb (fun m => Nat.eqb (fst m) n) ((n, c0) :: ms)) with true.
        - rewrite <- HC. reflexivity.
        - symmetry. apply forallb_forall. intros m Hm. rewrite Forall_forall in HF.
          apply Nat.eqb_eq. apply HF; exact Hm. }
      split; intros H; [exact Hh|]. exists n. eapply eq_trans; [exact Hh|]. f_equal. f_equal.
      rewrite <- cols_width in H. destruct (cols_of t); [reflexivity|discriminate].
  Qed.

  Lemma assign_vec_exact n (c : list T) : List.length c = n -> assign_vec n c = Ok c.
  Proof. intros H. unfold assign_vec. rewrite H, Nat.eqb_refl. reflexivity. Qed.

  Lemma assign_mat_exact n m (cols : list (list T)) :
    List.length cols = m -> Forall (fun c => List.length c = n) cols ->
    assign_mat n m (n, cols) = Ok cols.
  Proof.
    intros Hm Hc. unfold assign_mat. rewrite Nat.eqb_refl. cbn [orb negb]. rewrite Hm, Nat.eqb_refl.
    clear Hm. induction Hc as [|c cs Hl _ IH]; [reflexivity|].
    rewrite (assign_vec_exact n c Hl). cbn [bind]. rewrite IH. reflexivity.
  Qed.

  Lemma unpack_arr_spec n (t : ptree) : uniform n t -> forall Q pre post,
    List.length Q = width t -> Forall (fun c => List.length c = n) Q ->
    exists t', unpack_arr_from (n, pre ++ Q ++ post) t (List.length pre) = Ok (t', List.length pre + width t)
      /\ cols_of t' = Q /\ uniform n t' /\ same_shape t t' /\ (Q = cols_of t -> t' = t).
  Proof.
    induction t as [v|l _|d IH] using tree_ind'; intros Hu Q pre post HQ HF.
    - destruct v as [x|x|l|r cols|f]; simpl in Hu; try tauto; cbn [unpack_arr_from width leaf_width] in *.
      + destruct Q as [|q [|]]; try discriminate. inversion HF; subst.
        exists (Leaf (Vec q)). unfold unpack_arr_leaf. cbn [snd].
        rewrite nth_error_app2, Nat.sub_diag by lia. simpl.
        rewrite assign_vec_exact by assumption. cbn [bind]. repeat split.
        * f_equal. f_equal. lia.
        * assumption.
        * constructor. simpl. symmetry; assumption.
        * intros H; inversion H; reflexivity.
      + destruct Hu as [-> Hc]. exists (Leaf (Mat n Q)). unfold unpack_arr_leaf. cbn [snd fst].
        rewrite slice_app by exact HQ. rewrite assign_mat_exact by assumption. cbn [bind]. repeat split.
        * exact HF.
        * constructor. simpl. split; [reflexivity|symmetry; exact HQ].
        * simpl. intros ->. reflexivity.
      + exists (Leaf (Other f)). destruct Q; [|discriminate]. simpl. rewrite Nat.add_0_r. repeat split.
        constructor. reflexivity.
    - exists (Seq l). simpl in *. destruct Q; [|discriminate]. rewrite Nat.add_0_r. repeat split. constructor.
    - rewrite width_Node in *. pose proof Hu as Hu0. apply uniform_Node in Hu.
      assert (G : exists d', unpack_arr_items (n, pre ++ Q ++ post) d (List.length pre) = Ok (d', List.length pre + width_items d)
         /\ cols_items d' = Q /\ uniform_items n d'
         /\ Forall2 (fun a b => fst a = fst b /\ same_shape (snd a) (snd b)) d d'
         /\ (Q = cols_items d -> d' = d)).
      { clear Hu0. revert Q pre post HQ HF. induction d as [|[k v] r IHr]; intros Q pre post HQ HF;
          cbn [unpack_arr_items width_items cols_items] in *.
        - exists []. destruct Q; [|discriminate]. rewrite Nat.add_0_r. repeat split. constructor.
        - inversion IH as [|? ? Hv Hrest]; subst. simpl in Hv. destruct Hu as [Huv Hur].
          destruct (firstn_skipn_length _ _ _ HQ) as [L1 L2].
          pose proof (firstn_skipn (width v) Q) as EQ. symmetry in EQ.
          set (Q1 := firstn (width v) Q) in *. set (Q2 := skipn (width v) Q) in *.
          rewrite EQ in HF. apply Forall_app in HF as [HF1 HF2].
          destruct (Hv Huv Q1 pre (Q2 ++ post) L1 HF1) as (v' & A1 & A2 & A3 & A4 & A5).
          destruct (IHr Hrest Hur Q2 (pre ++ Q1) post L2 HF2) as (r' & B1 & B2 & B3 & B4 & B5).
          exists ((k, v') :: r'). rewrite EQ, <- app_assoc, A1. cbn [bind].
          rewrite <- app_assoc, app_length, L1 in B1. rewrite B1. cbn [bind cols_items].
          repeat split.
          + rewrite Nat.add_assoc. reflexivity.
          + rewrite A2, B2. reflexivity.
          + exact A3.
          + exact B3.
          + constructor; auto.
          + intros HQc.
            assert (Hl : List.length Q1 = List.length (cols_of v)) by (rewrite cols_width; exact L1).
            apply app_eq_app in HQc. (* split equal-length prefixes *)
            assert (Q1 = cols_of v /\ Q2 = cols_items r).
            { destruct HQc as (l & [[H1 H2]|[H1 H2]]).
              - assert (l = []) by (rewrite H1, app_length in Hl; destruct l; [reflexivity|simpl in Hl; lia]).
                subst l. rewrite app_nil_r in H1. auto.
              - assert (l = []) by (rewrite H1, app_length in Hl; destruct l; [reflexivity|simpl in Hl; lia]).
                subst l. rewrite app_nil_r in H1. auto. }
            destruct H as [H1 H2]. rewrite (A5 H1), (B5 H2). reflexivity. }
      destruct G as (d' & G1 & G2 & G3 & G4 & G5). exists (Node d').
      rewrite unpack_arr_Node, G1, !cols_Node. cbn [bind]. repeat split; auto.
      + apply uniform_Node; exact G3.
      + constructor; exact G4.
      + intros H. rewrite (G5 H). reflexivity.
  Qed.

  Lemma uniform_cols n (t : ptree) : uniform n t -> Forall (fun c => List.length c = n) (cols_of t).
  Proof.
    induction t as [v|l _|d IH] using tree_ind'; intros Hu.
    - destruct v as [x|x|l|r cols|f]; simpl in *; try tauto; auto.
    - constructor.
    - rewrite cols_Node. apply uniform_Node in Hu. induction d as [|[k v] r IHr]; [constructor|].
      inversion IH; subst. simpl in *. apply Forall_app. split; [apply H1; tauto|apply IHr; tauto].
  Qed.

  Lemma arr_round_trip n (t : ptree) : uniform n t -> width t <> 0 ->
    exists M, pack_arr t = Ok M /\ fst M = n /\ List.length (snd M) = width t /\
              unpack_arr t M = Ok (t, false).
  Proof.
    intros Hu Hw. destruct (pack_arr_uniform n t Hu) as [H _]. specialize (H Hw).
    exists (n, cols_of t). repeat split; auto; [apply cols_width|].
    destruct (unpack_arr_spec n t Hu (cols_of t) [] [] (cols_width t) (uniform_cols n t Hu))
      as (t' & E & _ & _ & _ & Ht). rewrite (Ht eq_refl) in E. simpl in E. rewrite app_nil_r in E.
    unfold unpack_arr. rewrite E. cbn [bind snd]. rewrite cols_width, Nat.eqb_refl. reflexivity.
  Qed.
  Lemma arr_unpack_pack n (t : ptree) cs : uniform n t -> width t <> 0 ->
    List.length cs = width t -> Forall (fun c => List.length c = n) cs ->
    exists t', unpack_arr t (n, cs) = Ok (t', false) /\ pack_arr t' = Ok (n, cs) /\
               uniform n t' /\ same_shape t t'.
  Proof.
    intros Hu Hw Hl HF.
    destruct (unpack_arr_spec n t Hu cs [] [] Hl HF) as (t' & E & Hc & Hu' & Hs & _).
    exists t'. simpl in E. rewrite app_nil_r in E. unfold unpack_arr. rewrite E. cbn [bind snd].
    rewrite Hl, Nat.eqb_refl. repeat split; auto.
    destruct (pack_arr_uniform n t' Hu') as [H _]. rewrite H, Hc; [reflexivity|].
    rewrite <- cols_width, Hc, Hl. exact Hw.
  Qed.
End Pack.
