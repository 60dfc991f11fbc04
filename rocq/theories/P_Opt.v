(** * Proofs about the optimisation interface *)
From Coq Require Import Reals String List Bool Lia Lra.
From Verif Require Import PyBase M_Opt S_Opt.
Import ListNotations.
Local Open Scope R_scope.
Local Open Scope list_scope.

Lemma Rltb_true a b : Rltb a b = true <-> a < b.
Proof. unfold Rltb. destruct (Rlt_dec a b); split; auto; discriminate. Qed.
Lemma Rltb_false a b : Rltb a b = false <-> b <= a.
Proof. unfold Rltb. destruct (Rlt_dec a b); split; intros; try discriminate; auto; lra. Qed.

Lemma limit_val r : i_lo r <= i_up r ->
  i_lo r <= i_val (limit_up (limit_low r)) <= i_up r /\
  (i_lo r <= i_val r <= i_up r -> limit_up (limit_low r) = r) /\
  (i_val r < i_lo r -> i_val (limit_up (limit_low r)) = i_lo r) /\
  (i_up r < i_val r -> i_val (limit_up (limit_low r)) = i_up r).
Proof.
  intros H. unfold limit_up, limit_low.
  destruct (Rltb (i_val r) (i_lo r)) eqn:E1; [apply Rltb_true in E1|apply Rltb_false in E1]; cbn [with_val i_val i_lo i_up].
  - destruct (Rltb (i_up r) (i_lo r)) eqn:E2; [apply Rltb_true in E2; lra|]. cbn [with_val i_val]. repeat split; intros; lra.
  - destruct (Rltb (i_up r) (i_val r)) eqn:E2; [apply Rltb_true in E2|apply Rltb_false in E2]; cbn [with_val i_val];
      repeat split; intros; try lra; reflexivity.
Qed.
Lemma limit_fields r : i_name (limit_up (limit_low r)) = i_name r /\ i_lo (limit_up (limit_low r)) = i_lo r /\
  i_up (limit_up (limit_low r)) = i_up r /\ i_scale (limit_up (limit_low r)) = i_scale r /\
  i_units (limit_up (limit_low r)) = i_units r.
Proof.
  unfold limit_up, limit_low. destruct (Rltb (i_val r) (i_lo r)); cbn [with_val i_val i_lo i_up];
    match goal with |- context [if ?b then _ else _] => destruct b end; cbn; auto.
Qed.
Lemma limit_values_nth inputs n r : nth_error inputs n = Some r ->
  nth_error (limit_input_values inputs) n = Some (limit_up (limit_low r)).
Proof. intros H. unfold limit_input_values. rewrite map_map. apply (map_nth_error (fun x => limit_up (limit_low x))). exact H. Qed.

Lemma limit_idem inputs : Forall (fun r => i_lo r <= i_up r) inputs ->
  limit_input_values (limit_input_values inputs) = limit_input_values inputs.
Proof.
  unfold limit_input_values. rewrite !map_map. intros H. apply map_ext_in. intros r Hr.
  rewrite Forall_forall in H. specialize (H r Hr).
  destruct (limit_val r H) as [B _]. destruct (limit_fields r) as (_ & L & U & _).
  apply limit_val; rewrite L, U; auto.
Qed.

Lemma map2_length {X Y Z} (f : X -> Y -> Z) a b : List.length a = List.length b -> List.length (map2 f a b) = List.length a.
Proof. revert b. induction a; destruct b; simpl; intros; try discriminate; auto. Qed.
Lemma map2_nth {X Y Z} (f : X -> Y -> Z) a b n x y : nth_error a n = Some x -> nth_error b n = Some y ->
  nth_error (map2 f a b) n = Some (f x y).
Proof.
  revert a b. induction n; destruct a; destruct b; simpl; intros; try discriminate.
  - inversion H; inversion H0; reflexivity.
  - auto.
Qed.
Lemma scale_spec inputs x r : scale_input_values inputs x = Ok r ->
  List.length x = List.length inputs /\ List.length r = List.length inputs /\
  forall n i xi, nth_error inputs n = Some i -> nth_error x n = Some xi ->
    nth_error r n = Some (with_val i (xi * i_scale i)).
Proof.
  unfold scale_input_values. destruct (Nat.eqb_spec (List.length x) (List.length inputs)); [|discriminate].
  intros H. inversion H; subst. split; [auto|]. split; [apply map2_length; auto|].
  intros n i xi Hi Hx. apply (map2_nth (fun r xi => with_val r (xi * i_scale r))); auto.
Qed.
Lemma scale_ok inputs x : List.length x = List.length inputs <-> exists r, scale_input_values inputs x = Ok r.
Proof.
  unfold scale_input_values. destruct (Nat.eqb_spec (List.length x) (List.length inputs)); split; eauto; intros; try congruence.
  destruct H as [r H]; discriminate.
Qed.

(** solver start *)
Lemma start_roundtrip inputs : Forall (fun r => i_scale r <> 0) inputs ->
  scale_input_values inputs (solver_start inputs) = Ok inputs.
Proof.
  intros H. unfold scale_input_values, solver_start. rewrite map_length, Nat.eqb_refl. f_equal.
  induction H as [|r l Hr _ IH]; [reflexivity|]. cbn [map map2]. f_equal; [|exact IH].
  unfold with_val. destruct r; cbn in *. f_equal. field. exact Hr.
Qed.
Lemma bounds_equiv r x : 0 < i_scale r ->
  (i_lo r / i_scale r <= x <= i_up r / i_scale r) <-> (i_lo r <= x * i_scale r <= i_up r).
Proof.
  intros Hs.
  assert (E : forall a, a / i_scale r <= x <-> a <= x * i_scale r).
  { intros a. split; intros H.
    - apply (Rmult_le_compat_r (i_scale r)) in H; [|lra]. replace (a / i_scale r * i_scale r) with a in H by (field; lra). lra.
    - apply (Rmult_le_reg_r (i_scale r)); [lra|]. replace (a / i_scale r * i_scale r) with a by (field; lra). lra. }
  assert (E2 : forall a, x <= a / i_scale r <-> x * i_scale r <= a).
  { intros a. split; intros H.
    - apply (Rmult_le_compat_r (i_scale r)) in H; [|lra]. replace (a / i_scale r * i_scale r) with a in H by (field; lra). lra.
    - apply (Rmult_le_reg_r (i_scale r)); [lra|]. replace (a / i_scale r * i_scale r) with a by (field; lra). lra. }
  rewrite E, E2. reflexivity.
Qed.

(** constraints *)
Lemma sense_bools c :
  (c_sense c = ">"%string -> is_gt c = true /\ is_lt c = false /\ is_eq c = false) /\
  (c_sense c = "<"%string -> is_gt c = false /\ is_lt c = true /\ is_eq c = false) /\
  (c_sense c = "="%string -> is_gt c = false /\ is_lt c = false /\ is_eq c = true).
Proof. unfold is_gt, is_lt, is_eq. repeat split; rewrite H; reflexivity. Qed.

Definition ineq_value (c : constraint) (value : string -> R) : R :=
  let e := scale_const_value c (value (c_name c)) - scale_const_bnd c in if is_lt c then - e else e.
Lemma ineq_sign c value : c_sense c = ">"%string \/ c_sense c = "<"%string -> c_scale c = 1 ->
  (ineq_value c value >= 0 <-> satisfied c value).
Proof.
  intros Hs H1. unfold ineq_value, scale_const_value, scale_const_bnd, satisfied. rewrite H1.
  destruct (sense_bools c) as (G & L & E).
  replace (value (c_name c) / 1) with (value (c_name c)) by field.
  destruct Hs as [Hs|Hs].
  - destruct (G Hs) as (_ & -> & _). rewrite Hs. split; [intros H; repeat split; intros; try discriminate; lra|].
    intros (H & _ & _). specialize (H eq_refl). lra.
  - destruct (L Hs) as (_ & -> & _). rewrite Hs. split; [intros H; repeat split; intros; try discriminate; lra|].
    intros (_ & H & _). specialize (H eq_refl). lra.
Qed.
(** in general: the bound is implicitly multiplied by the scale *)
Lemma ineq_general c value : c_sense c = ">"%string \/ c_sense c = "<"%string -> 0 < c_scale c ->
  (ineq_value c value >= 0 <->
   (c_sense c = ">"%string /\ value (c_name c) >= c_scale c * (c_bound c * c_units c)) \/
   (c_sense c = "<"%string /\ value (c_name c) <= c_scale c * (c_bound c * c_units c))).
Proof.
  intros Hs H1. unfold ineq_value, scale_const_value, scale_const_bnd.
  destruct (sense_bools c) as (G & L & E).
  set (v := value (c_name c)). set (b := c_bound c * c_units c). set (s := c_scale c) in *.
  assert (D : v = s * (v / s)) by (field; lra).
  destruct Hs as [Hs|Hs].
  - destruct (G Hs) as (_ & -> & _). rewrite Hs. split.
    + intros H. left. split; [reflexivity|]. rewrite D. apply Rle_ge. apply Rmult_le_compat_l; lra.
    + intros [[_ H]|[H _]]; [|discriminate]. rewrite D in H. apply Rge_le in H. apply Rmult_le_reg_l in H; lra.
  - destruct (L Hs) as (_ & -> & _). rewrite Hs. split.
    + intros H. right. split; [reflexivity|]. rewrite D. apply Rmult_le_compat_l; lra.
    + intros [[H _]|[_ H]]; [discriminate|]. rewrite D in H. apply Rmult_le_reg_l in H; lra.
Qed.
Lemma pyopt_correct c value : known_sense c -> 0 < c_scale c ->
  (accepts (scale_const_value c (value (c_name c))) (pyopt_constraint c) <-> satisfied c value).
Proof.
  intros Hs H1. unfold pyopt_constraint, pyopt_edge, scale_const_value, scale_const_bnd, satisfied.
  destruct (sense_bools c) as (G & L & E).
  set (v := value (c_name c)). set (b := c_bound c * c_units c). set (s := c_scale c) in *.
  assert (M : forall a d, a / s <= d / s <-> a <= d).
  { intros a d. unfold Rdiv. split; intros H.
    - apply Rmult_le_reg_r in H; [exact H|]. apply Rinv_0_lt_compat; exact H1.
    - apply Rmult_le_compat_r; [|exact H]. left. apply Rinv_0_lt_compat; exact H1. }
  destruct Hs as [Hs|[Hs|Hs]].
  - destruct (G Hs) as (-> & -> & _). rewrite Hs. cbn [accepts]. split.
    + intros H. apply Rge_le in H; rewrite M in H. split; [intros _; lra|]. split; discriminate.
    + intros (H & _ & _). specialize (H eq_refl). apply Rle_ge; rewrite M. lra.
  - destruct (L Hs) as (_ & -> & _). rewrite Hs. cbn [accepts]. rewrite M. split.
    + intros H. split; [discriminate|]. split; [intros _; exact H|discriminate].
    + intros (_ & H & _). exact (H eq_refl).
  - destruct (E Hs) as (-> & -> & ->). rewrite Hs. cbn [accepts]. split.
    + intros H. repeat split; intros; try discriminate.
      apply Rle_antisym; apply M; rewrite H; lra.
    + intros (_ & _ & H). rewrite (H eq_refl). reflexivity.
Qed.

(** ** differential evolution: every constraint object reads the last constraint *)
Lemma de_loop_spec : forall cons env nlc acc l env', de_loop cons env nlc acc = Ok (l, env') ->
  env' = (match cons with [] => env | _ => Some (last cons {| c_name := ""; c_sense := ""; c_bound := 0; c_scale := 1; c_units := 1 |}) end).
Proof.
  induction cons as [|c r IH]; intros env nlc acc l env' H; cbn [de_loop] in H; [inversion H; reflexivity|].
  match type of H with match ?X with _ => _ end = _ => destruct X end; [|discriminate].
  apply IH in H. rewrite H. destruct r; reflexivity.
Qed.
Lemma de_loop_all : forall cons env nlc acc l env',
  Forall (fun k => de_fun k = de_closure) acc -> (forall k, nlc = Some k -> de_fun k = de_closure) ->
  de_loop cons env nlc acc = Ok (l, env') ->
  Forall (fun k => de_fun k = de_closure) l /\ List.length l = (List.length acc + List.length cons)%nat.
Proof.
  induction cons as [|c r IH]; intros env nlc acc l env' Ha Hn H; cbn [de_loop] in H.
  - inversion H; subst. split; [exact Ha|simpl; lia].
  - match type of H with match ?X with _ => _ end = _ => destruct X as [k|] eqn:E end; [|discriminate].
    assert (Hk : de_fun k = de_closure).
    { destruct (is_gt c); [inversion E; reflexivity|]. destruct (is_lt c); [inversion E; reflexivity|]. auto. }
    apply IH in H.
    + destruct H as [H1 H2]. split; [exact H1|]. rewrite H2, app_length. simpl. lia.
    + apply Forall_app. split; [exact Ha|]. constructor; auto.
    + intros k' Hk'. inversion Hk'; subst. exact Hk.
Qed.
Lemma de_all_last cons c value r : de_constraints (cons ++ [c]) value = Ok r ->
  List.length r = S (List.length cons) /\ Forall (fun vl => fst vl = value (c_name c)) r.
Proof.
  unfold de_constraints. destruct (de_loop (cons ++ [c]) None None []) as [[l env]|] eqn:E; [|discriminate].
  pose proof (de_loop_spec _ _ _ _ _ _ E) as Henv.
  assert (Hn : forall k : de_con, None = Some k -> de_fun k = de_closure) by (intros k Hk; discriminate Hk).
  destruct (de_loop_all _ _ _ _ _ _ (Forall_nil _) Hn E) as [Hall Hlen].
  assert (Henv' : env = Some c).
  { rewrite Henv. destruct (cons ++ [c]) eqn:Ec; [destruct cons; discriminate|]. rewrite <- Ec, last_last. reflexivity. }
  clear Henv. subst env. intros H.
  assert (G : forall l r, Forall (fun k => de_fun k = de_closure) l ->
     (fix go (l : list de_con) : result (list (R * limits)) :=
         match l with
         | [] => Ok []
         | k :: r => bind (de_fun k (Some c) value) (fun v => bind (go r) (fun vs => Ok ((v, de_lim k) :: vs)))
         end) l = Ok r -> List.length r = List.length l /\ Forall (fun vl => fst vl = value (c_name c)) r).
  { clear. induction l as [|k l IH]; intros r Ha H.
    - inversion H; subst. split; [reflexivity|constructor].
    - inversion Ha as [|? ? Hk Ha']; subst. rewrite Hk in H. cbn [de_closure bind] in H.
      match type of H with bind ?X _ = _ => destruct X as [vs|] eqn:E end; [|discriminate].
      cbn [bind] in H. inversion H; subst. destruct (IH vs Ha' eq_refl) as [L F].
      split; [simpl; congruence|constructor; [reflexivity|exact F]]. }
  destruct (G l r Hall H) as [L F]. split; [|exact F]. rewrite L, Hlen, app_length. simpl. lia.
Qed.

(** ** finite differences *)
Lemma set_nth_length n v l : List.length (set_nth n v l) = List.length l.
Proof. revert n. induction l as [|x l IH]; intros [|n]; simpl; auto. Qed.
Lemma dot_perturb a x i h : List.length x = List.length a -> (i < List.length a)%nat ->
  dot a (perturb x i h) = dot a x + h * nth i a 0.
Proof.
  unfold perturb. revert x i. induction a as [|c a IH]; intros [|y x] [|i] L Hi; simpl in *; try lia; try lra.
  rewrite (IH x i) by lia. lra.
Qed.
Lemma fd_affine_obj b a obj con x h : affine b a obj -> List.length x = List.length a -> h <> 0 ->
  fst (finite_difference obj con x (List.length a) h) = a.
Proof.
  intros Hf L Hh. unfold finite_difference. cbn [fst]. rewrite map_map.
  transitivity (map (fun i => nth i a 0) (seq 0 (List.length a))).
  - apply map_ext_in. intros i Hi. apply in_seq in Hi.
    rewrite (Hf (perturb x i h)) by (unfold perturb; rewrite set_nth_length; exact L).
    rewrite (Hf x L), dot_perturb by (auto; lia). field. exact Hh.
  - clear. induction a as [|c a IH]; [reflexivity|]. cbn [List.length seq map nth]. f_equal.
    rewrite <- seq_shift, map_map. exact IH.
Qed.
Lemma nth_map_lt {X} (f : X -> R) l j d : (j < List.length l)%nat -> nth j (map f l) 0 = f (nth j l d).
Proof. revert j. induction l as [|x l IH]; intros [|j] H; simpl in *; try lia; auto. apply IH; lia. Qed.
Lemma fd_affine_con (bs : list (R * list R)) obj con x n h :
  (forall y, List.length y = n -> con y = map (fun ba => fst ba + dot (snd ba) y) bs) ->
  Forall (fun ba => List.length (snd ba) = n) bs -> List.length x = n -> h <> 0 ->
  snd (finite_difference obj con x n h) = map snd bs.
Proof.
  intros Hc Hl L Hh. unfold finite_difference. cbn [snd]. rewrite (Hc x L), map_length.
  transitivity (map (fun j => snd (nth j bs (0, []))) (seq 0 (List.length bs))).
  - apply map_ext_in. intros j Hj. apply in_seq in Hj. rewrite map_map.
    assert (Hn : List.length (snd (nth j bs (0, []))) = n).
    { rewrite Forall_forall in Hl. apply Hl. apply nth_In. lia. }
    set (ba := nth j bs (0, [])) in *.
    transitivity (map (fun i => nth i (snd ba) 0) (seq 0 n)).
    + apply map_ext_in. intros i Hi. apply in_seq in Hi.
      rewrite (Hc (perturb x i h)) by (unfold perturb; rewrite set_nth_length; exact L).
      rewrite !(nth_map_lt _ bs j (0, [])) by lia. fold ba.
      rewrite dot_perturb by (try lia; congruence). field. exact Hh.
    + rewrite <- Hn. generalize (snd ba). clear. induction l as [|c a IH]; [reflexivity|]. cbn [List.length seq map nth]. f_equal.
      rewrite <- seq_shift, map_map. exact IH.
  - clear. induction bs as [|ba bs IH]; [reflexivity|]. cbn [List.length seq map nth]. f_equal.
    rewrite <- seq_shift, map_map. exact IH.
Qed.
Lemma perturb_spec x i h : (i < List.length x)%nat ->
  List.length (perturb x i h) = List.length x /\ nth i (perturb x i h) 0 = nth i x 0 + h /\
  forall j, j <> i -> nth j (perturb x i h) 0 = nth j x 0.
Proof.
  unfold perturb. generalize (nth i x 0 + h). intros v Hi. split; [apply set_nth_length|]. revert i Hi.
  induction x as [|y x IH]; intros i Hi; simpl in Hi; [lia|]. destruct i as [|i]; simpl.
  - split; [reflexivity|]. intros [|j] Hj; [congruence|reflexivity].
  - destruct (IH i ltac:(lia)) as [A B]. split; [exact A|]. intros [|j] Hj; [reflexivity|]. apply B. lia.
Qed.
(** one-sided differences of a quadratic are off by the step times the diagonal *)
Lemma fd_error g f x i h M : h > 0 -> (forall e, Rabs (f (perturb x i e) - f x - e * g) <= M * e * e) ->
  Rabs ((f (perturb x i h) - f x) / h - g) <= M * h.
Proof.
  intros Hh H. specialize (H h). replace ((f (perturb x i h) - f x) / h - g) with ((f (perturb x i h) - f x - h * g) / h) by (field; lra).
  unfold Rdiv. rewrite Rabs_mult, (Rabs_right (/ h)) by (left; apply Rinv_0_lt_compat; lra).
  apply (Rmult_le_reg_r h); [lra|]. rewrite Rmult_assoc, Rinv_l, Rmult_1_r by lra. exact H.
Qed.

(** ** Nexus caching *)
Section Nexus.
  Context {I X D S : Type}.
  Variable store : option X -> I -> I.
  Variable write : I -> D -> D.
  Variable same : I -> I -> bool.
  Variable procedure : D -> nat -> D * option pyerr.
  Variable summary : D -> S.
  Notation nexus := (nexus I D).
  Notation evaluate := (evaluate store write same procedure).
  Notation run_op := (run_op store write same procedure).
  Notation run_ops := (run_ops store write same procedure).

  Hypothesis same_eq : forall a b, same a b = true -> a = b.
  (** results do not depend on what earlier evaluations left behind, and setting the inputs
      does not touch them *)
  Hypothesis proc_det : forall i f d1 d2 d1' d2', procedure (write i d1) f = (d1', None) ->
    procedure (write i d2) f = (d2', None) -> summary d1' = summary d2'.
  Hypothesis write_summary : forall i d, summary (write i d) = summary d.

  Definition fresh (i : I) (f : nat) (s : S) : Prop :=
    exists d d', procedure (write i d) f = (d', None) /\ summary d' = s.

  Definition inv (n : nexus) : Prop :=
    match last_inputs n, last_fidelity n with
    | Some i, Some f => fresh i f (summary (data n))
    | None, None => True
    | _, _ => False
    end.

  Lemma inv_unpack x n : inv n -> inv (unpack_inputs store write x n).
  Proof.
    unfold inv. cbn [unpack_inputs last_inputs last_fidelity data].
    destruct (last_inputs n), (last_fidelity n); auto. rewrite write_summary. auto.
  Qed.
  Lemma evaluate_inv x n n' : inv n -> evaluate x n = (n', None) ->
    inv n' /\ fresh (inputs n') (fidelity n') (summary (data n')) /\
    inputs n' = store x (inputs n) /\
    fidelity n' = fidelity n /\ force n' = force n.
  Proof.
    intros Hi. unfold M_Opt.evaluate. pose proof (inv_unpack x n Hi) as Hu.
    destruct (up_to_date same (unpack_inputs store write x n)) eqn:E.
    - intros H. inversion H; subst. split; [exact Hu|]. split; [|repeat split].
      unfold up_to_date in E. unfold inv in Hu.
      destruct (last_inputs (unpack_inputs store write x n)) as [i|]; [|discriminate].
      destruct (last_fidelity (unpack_inputs store write x n)) as [f|]; [|discriminate].
      apply andb_prop in E as [E _]. apply andb_prop in E as [E1 E2].
      apply same_eq in E1. apply PeanoNat.Nat.eqb_eq in E2. subst. exact Hu.
    - unfold really_evaluate. destruct (procedure (data (unpack_inputs store write x n)) (fidelity (unpack_inputs store write x n))) as [d [e|]] eqn:Ep; [discriminate|].
      intros H. inversion H; subst. clear H.
      assert (F : fresh (store x (inputs n)) (fidelity n) (summary d)).
      { exists (data n), d. split; [exact Ep|reflexivity]. }
      split; [exact F|]. split; [exact F|]. repeat split.
  Qed.
  Lemma run_op_inv o n n' : inv n -> run_op o n = (n', None) -> inv n'.
  Proof.
    intros Hi H. destruct o as [x|f|b]; cbn [M_Opt.run_op] in H.
    - apply (evaluate_inv x n n' Hi H).
    - inversion H; subst. exact Hi.
    - inversion H; subst. exact Hi.
  Qed.
  Lemma run_ops_inv l : forall n n', inv n -> run_ops l n = (n', None) -> inv n'.
  Proof.
    induction l as [|o l IH]; intros n n' Hi H; cbn [M_Opt.run_ops] in H; [inversion H; subst; exact Hi|].
    destruct (run_op o n) as [n1 [e|]] eqn:E; [discriminate|]. eapply IH; [|exact H]. eapply run_op_inv; eauto.
  Qed.
  Lemma cache_transparent i0 d0 l x n n' :
    run_ops l (new_nexus i0 d0) = (n, None) -> evaluate x n = (n', None) ->
    inputs n' = store x (inputs n) /\
    fidelity n' = fidelity n /\
    forall d d', procedure (write (inputs n') d) (fidelity n') = (d', None) -> summary (data n') = summary d'.
  Proof.
    intros H1 H2. assert (Hi : inv n) by (eapply run_ops_inv; [|exact H1]; exact Logic.I).
    destruct (evaluate_inv x n n' Hi H2) as (_ & (d1 & d1' & E & Es) & A & B & _).
    repeat split; auto. intros d d' Hd. rewrite <- Es. eapply proc_det; eauto.
  Qed.
  Lemma run_exactly_when x n n' r : evaluate x n = (n', r) ->
    let i := store x (inputs n) in
    (evaluation_count n' = evaluation_count n \/ evaluation_count n' = Datatypes.S (evaluation_count n)) /\
    (evaluation_count n' = evaluation_count n <->
     exists j f, last_inputs n = Some j /\ last_fidelity n = Some f /\ same i j = true /\ f = fidelity n /\ force n = false).
  Proof.
    unfold M_Opt.evaluate. destruct (up_to_date same (unpack_inputs store write x n)) eqn:E; intros H.
    - inversion H; subst. cbn [unpack_inputs evaluation_count]. split; [auto|]. split; [intros _|auto].
      unfold up_to_date in E. cbn [unpack_inputs last_inputs last_fidelity inputs fidelity force] in E.
      destruct (last_inputs n) as [j|]; [|discriminate]. destruct (last_fidelity n) as [f|]; [|discriminate].
      apply andb_prop in E as [E E3]. apply andb_prop in E as [E1 E2].
      exists j, f. repeat split; auto; [apply PeanoNat.Nat.eqb_eq in E2; auto|].
      apply negb_true_iff in E3. exact E3.
    - assert (C : evaluation_count n' = Datatypes.S (evaluation_count n)).
      { unfold really_evaluate in H. destruct (procedure _ _) as [d [e|]]; inversion H; reflexivity. }
      split; [auto|]. split; [intros Hc; exfalso; rewrite C in Hc; lia|].
      intros (j & f & H1 & H2 & H3 & H4 & H5). exfalso.
      unfold up_to_date in E. cbn [unpack_inputs last_inputs last_fidelity inputs fidelity force] in E.
      rewrite H1, H2, H3, H4, H5, PeanoNat.Nat.eqb_refl in E. discriminate.
  Qed.

  (** evaluating twice at the same point runs the procedure at most once *)
  Lemma evaluate_force x n n' r : evaluate x n = (n', r) -> force n' = force n.
  Proof.
    unfold M_Opt.evaluate. destruct (up_to_date same (unpack_inputs store write x n)); intros H; [inversion H; reflexivity|].
    unfold really_evaluate in H. destruct (procedure _ _) as [d [e|]]; inversion H; reflexivity.
  Qed.
  Hypothesis same_refl : forall a, same a a = true.
  Hypothesis store_idem : forall x i, store x (store x i) = store x i.
  Lemma evaluate_twice x n n1 n2 r : force n = false -> evaluate x n = (n1, None) -> evaluate x n1 = (n2, r) ->
    r = None /\ evaluation_count n2 = evaluation_count n1 /\ (evaluation_count n1 <= Datatypes.S (evaluation_count n))%nat /\ force n2 = false.
  Proof.
    intros Hf H1 H2. pose proof (evaluate_force _ _ _ _ H1) as F1. pose proof (evaluate_force _ _ _ _ H2) as F2.
    assert (U : last_inputs n1 = Some (inputs n1) /\ last_fidelity n1 = Some (fidelity n1) /\ inputs n1 = store x (inputs n)).
    { clear H2. unfold M_Opt.evaluate in H1. destruct (up_to_date same (unpack_inputs store write x n)) eqn:E.
      - inversion H1; subst. unfold up_to_date in E.
        destruct (last_inputs (unpack_inputs store write x n)) as [i|]; [|discriminate].
        destruct (last_fidelity (unpack_inputs store write x n)) as [f|]; [|discriminate].
        apply andb_prop in E as [E _]. apply andb_prop in E as [E1 E2].
        apply same_eq in E1. apply PeanoNat.Nat.eqb_eq in E2. subst. repeat split.
      - unfold really_evaluate in H1. destruct (procedure _ _) as [d [e|]]; inversion H1; repeat split. }
    destruct U as (U1 & U2 & U3).
    assert (Up : up_to_date same (unpack_inputs store write x n1) = true).
    { unfold up_to_date. cbn [unpack_inputs last_inputs last_fidelity inputs fidelity force].
      rewrite U1, U2, U3, store_idem, same_refl, PeanoNat.Nat.eqb_refl, F1, Hf. reflexivity. }
    unfold M_Opt.evaluate in H2. rewrite Up in H2. inversion H2; subst. repeat split; try congruence.
    destruct (run_exactly_when x n n1 None H1) as [[C|C] _]; cbn in C |- *; rewrite C; lia.
  Qed.
  Lemma pairs_cost pts : forall n n' r, force n = false ->
    run_ops (flat_map (fun p => [Evaluate (Some p); Evaluate (Some p)]) pts) n = (n', r) ->
    (evaluation_count n' <= evaluation_count n + List.length pts)%nat.
  Proof.
    induction pts as [|p pts IH]; intros n n' r Hf H; cbn [flat_map app M_Opt.run_ops M_Opt.run_op] in H.
    - inversion H; subst. cbn. lia.
    - destruct (evaluate (Some p) n) as [n1 [e|]] eqn:E1.
      + inversion H; subst. destruct (run_exactly_when _ _ _ _ E1) as [[C|C] _]; rewrite C; cbn [List.length]; lia.
      + destruct (evaluate (Some p) n1) as [n2 r2] eqn:E2.
        destruct (evaluate_twice _ _ _ _ _ Hf E1 E2) as (-> & C1 & C2 & F2).
        apply IH in H; [|exact F2]. cbn [List.length]. lia.
  Qed.
End Nexus.

(** the concrete table update has the properties asked of [store] *)
Lemma scale_twice inputs x r : scale_input_values inputs x = Ok r -> scale_input_values r x = Ok r.
Proof.
  intros H. pose proof (scale_spec _ _ _ H) as (L1 & L2 & _).
  unfold scale_input_values in *. rewrite L2, L1, PeanoNat.Nat.eqb_refl in *. inversion H; subst. f_equal.
  clear. revert x. induction inputs as [|i l IH]; intros [|y x]; cbn [map2]; try reflexivity. rewrite IH. reflexivity.
Qed.
Lemma fd_points_pairs x n h :
  fd_points x n h = flat_map (fun p => [p; p]) (x :: map (fun i => perturb x i h) (seq 0 n)).
Proof.
  unfold fd_points. cbn [flat_map app]. f_equal. f_equal. generalize 0%nat. induction n as [|n IH]; intros k; [reflexivity|].
  cbn [seq map flat_map app]. rewrite IH. reflexivity.
Qed.
Lemma map2_map {X X' Y Z} (f : X' -> Y -> Z) (g : X -> X') a b : map2 f (map g a) b = map2 (fun x y => f (g x) y) a b.
Proof. revert b. induction a as [|x a IH]; intros [|y b]; cbn; try reflexivity. rewrite IH. reflexivity. Qed.
Lemma unpack_twice hard inputs x r : unpack_table hard (Some x) inputs = Ok r -> unpack_table hard (Some x) r = Ok r.
Proof.
  unfold unpack_table. destruct (scale_input_values inputs x) as [i|] eqn:E; [|discriminate]. cbn [bind].
  destruct hard; intros H; inversion H; subst; clear H; [|rewrite (scale_twice _ _ _ E); reflexivity].
  assert (S : scale_input_values (limit_input_values i) x = Ok i).
  { pose proof (scale_twice _ _ _ E) as E2. unfold scale_input_values in *. unfold limit_input_values.
    rewrite !map_length. destruct (Nat.eqb (List.length x) (List.length i)); [|discriminate].
    inversion E2 as [E3]. rewrite E3. f_equal. rewrite map_map, map2_map. rewrite <- E3 at 2.
    clear. revert x. induction i as [|a l IH]; intros [|y x]; cbn [map2]; try reflexivity. f_equal; [|apply IH].
    destruct (limit_fields a) as (A & B & C & D & F).
    unfold with_val. rewrite A, B, C, D, F. reflexivity. }
  rewrite S. reflexivity.
Qed.
