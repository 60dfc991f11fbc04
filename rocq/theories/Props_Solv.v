(** * Further solver set-ups: the properties *)
From Coq Require Import Reals String List Bool Arith ZArith Lia Lra.
From Verif Require Import PyBase M_Opt S_Opt P_Opt M_Solv.
Import ListNotations.
Local Open Scope R_scope.
Local Open Scope list_scope.

(** ** specification words *)
(** a value within bounds that may be absent *)
Definition within (v : R) (b : option R * option R) : Prop :=
  match fst b with Some l => l <= v | None => True end /\ match snd b with Some u => v <= u | None => True end.
Definition at_least (v : R) (e : ext) : Prop := match e with NegInf => True | Fin x => x <= v | PosInf => False end.
Definition at_most (v : R) (e : ext) : Prop := match e with NegInf => False | Fin x => v <= x | PosInf => True end.
(** two tests disagree at some value of the output *)
Definition disagree (c : constraint) (P : R -> Prop) : Prop := exists v, ~ (P (v / c_scale c) <-> satisfied c (fun _ => v)).

Lemma senses c : known_sense c -> (is_gt c = true /\ is_lt c = false /\ is_eq c = false /\ c_sense c = ">"%string) \/
  (is_lt c = true /\ is_gt c = false /\ is_eq c = false /\ c_sense c = "<"%string) \/ (is_eq c = true /\ is_gt c = false /\ is_lt c = false /\ c_sense c = "="%string).
Proof. unfold known_sense, is_gt, is_lt, is_eq. intros [E|[E|E]]; rewrite E; cbn; tauto. Qed.
Lemma div_le a b k : 0 < k -> (a / k <= b <-> a <= b * k).
Proof.
  intro K. split; intro H.
  - apply (Rmult_le_compat_r k) in H; [|lra]. unfold Rdiv in H. rewrite Rmult_assoc, Rinv_l in H by lra. lra.
  - apply (Rmult_le_reg_r k); [exact K|]. unfold Rdiv. rewrite Rmult_assoc, Rinv_l by lra. lra.
Qed.
Lemma le_div a b k : 0 < k -> (b <= a / k <-> b * k <= a).
Proof.
  intro K. split; intro H.
  - apply (Rmult_le_compat_r k) in H; [|lra]. unfold Rdiv in H. rewrite Rmult_assoc, Rinv_l in H by lra. lra.
  - apply (Rmult_le_reg_r k); [exact K|]. unfold Rdiv. rewrite Rmult_assoc, Rinv_l by lra. lra.
Qed.
Lemma sat_gt c v : c_sense c = ">"%string -> (satisfied c (fun _ => v) <-> c_bound c * c_units c <= v).
Proof. intro E. unfold satisfied. rewrite E. split; [intros (H & _); specialize (H eq_refl); lra|]. intro H. repeat split; intro X; try discriminate. lra. Qed.
Lemma sat_lt c v : c_sense c = "<"%string -> (satisfied c (fun _ => v) <-> v <= c_bound c * c_units c).
Proof. intro E. unfold satisfied. rewrite E. split; [intros (_ & H & _); exact (H eq_refl)|]. intro H. repeat split; intro X; try discriminate. exact H. Qed.
Lemma sat_eq c v : c_sense c = "="%string -> (satisfied c (fun _ => v) <-> v = c_bound c * c_units c).
Proof. intro E. unfold satisfied. rewrite E. split; [intros (_ & _ & H); exact (H eq_refl)|]. intro H. repeat split; intro X; try discriminate. exact H. Qed.
Lemma edge_times c k : 0 < c_scale c -> k = c_bound c * c_units c / c_scale c -> k * c_scale c = c_bound c * c_units c.
Proof. intros S ->. field. lra. Qed.

(** ** C195: pyOptSparse *)
(** every constraint is handed over under its name, with bounds that hold exactly when it is satisfied *)
Theorem C195_constraints c value : known_sense c -> 0 < c_scale c ->
  exists b, sparse_constraint c = Some (c_name c, b) /\ (within (value (c_name c) / c_scale c) b <-> satisfied c (fun _ => value (c_name c))).
Proof.
  intros K S. unfold sparse_constraint. set (e := pyopt_edge c). assert (E : e * c_scale c = c_bound c * c_units c) by (apply edge_times; [exact S|reflexivity]).
  destruct (senses c K) as [(A & B & C & D)|[(A & B & C & D)|(A & B & C & D)]]; rewrite ?A, ?B, ?C; eexists; (split; [reflexivity|]); unfold within; cbn [fst snd].
  - rewrite (sat_gt _ _ D), <- E, (le_div _ _ _ S). tauto.
  - rewrite (sat_lt _ _ D), <- E, (div_le _ _ _ S). tauto.
  - rewrite (sat_eq _ _ D), <- E, (le_div _ _ _ S), (div_le _ _ _ S). split; [lra|intros ->; lra].
Qed.
Lemma dset_new {V} k (v : V) d : ~ In k (dkeys d) -> dset k v d = d ++ [(k, v)].
Proof.
  induction d as [|[k' v'] d IH]; intro N; [reflexivity|]. cbn. destruct (String.eqb_spec k k'); [subst; exfalso; apply N; now left|]. rewrite IH; [reflexivity|]. intro I. apply N. now right.
Qed.
Lemma fill_new names : forall vals d, List.length names = List.length vals -> NoDup names -> (forall k, In k names -> ~ In k (dkeys d)) -> fill d names vals = d ++ combine names vals.
Proof.
  induction names as [|k names IH]; intros [|v vals] d L N H; try discriminate; [cbn; now rewrite app_nil_r|]. unfold fill. cbn [combine fold_left fst snd].
  fold (fill (dset k v d) names vals). inversion N as [|? ? N1 N2]. subst. rewrite dset_new by (apply H; now left). rewrite IH.
  - now rewrite <- app_assoc.
  - now injection L.
  - exact N2.
  - intros k' I J. unfold dkeys in J. rewrite map_app in J. apply in_app_or in J as [J|[<-|[]]]; [exact (H k' (or_intror I) J)|contradiction].
Qed.
Lemma dkeys_combine (names : list string) (vals : list R) : List.length names = List.length vals -> dkeys (combine names vals) = names.
Proof. revert vals. induction names as [|k names IH]; intros [|v vals] L; try discriminate; [reflexivity|]. cbn. f_equal. apply IH. now injection L. Qed.
(** the answers: with distinct names one entry each, objectives first *)
Theorem C195_answers onames cnames obj con : List.length onames = List.length obj -> List.length cnames = List.length con -> NoDup (onames ++ cnames) ->
  sparse_funcs onames cnames obj con = combine onames obj ++ combine cnames con.
Proof.
  intros LO LC N. unfold sparse_funcs.
  assert (NO : NoDup onames /\ NoDup cnames /\ forall k, In k onames -> ~ In k cnames).
  { clear LO LC. induction onames as [|k l IH]; cbn in N; [repeat split; [constructor|exact N|intros ? []]|]. inversion N as [|? ? A B]. subst. destruct (IH B) as (X & Y & Z).
    repeat split; [constructor; [intro; apply A, in_or_app; now left|exact X]|exact Y|]. intros k' [<-|I]; [intro; apply A, in_or_app; now right|auto]. }
  destruct NO as (A & B & C). rewrite (fill_new onames obj []) by (try assumption; intros ? _ []). cbn [app].
  apply fill_new; try assumption. intros k I J. rewrite dkeys_combine in J by exact LO. exact (C k J I).
Qed.
(** an output that is objective and constraint at once has one entry: the constraint's scaling is given as the objective *)
Theorem C195_shared_refuted k (o c : R) : o <> c -> dget k (sparse_funcs [k] [k] [o] [c]) <> Some o.
Proof. intro N. cbn. rewrite String.eqb_refl. cbn. rewrite String.eqb_refl. congruence. Qed.
(** the problem is asked for the values in the solver's order: the right ones if that is the order of the table *)
Theorem C195_variables (xdict : dict R) names i k : dkeys xdict = names -> NoDup names -> nth_error names i = Some k -> nth_error (sparse_x xdict) i = dget k xdict.
Proof.
  intros <- N E. unfold sparse_x, dkeys, dvals in *. revert i E. induction xdict as [|[k' v] d IH]; intros i E; [destruct i; discriminate|]. cbn [map fst snd] in *. inversion N as [|? ? A B]. subst.
  destruct i as [|i]; cbn in *.
  - injection E as ->. now rewrite String.eqb_refl.
  - rewrite (IH B i E). destruct (String.eqb_spec k k') as [->|]; [|reflexivity]. exfalso. apply A. exact (nth_error_In _ _ E).
Qed.
Theorem C195_order_refuted : exists (xdict : dict R) names, (forall k, In k names <-> In k (dkeys xdict)) /\ NoDup names /\ exists i k, nth_error names i = Some k /\ nth_error (sparse_x xdict) i <> dget k xdict.
Proof.
  exists [("b", 1); ("a", 2)]%string, ["a"; "b"]%string. split; [intro k; cbn; tauto|]. split; [repeat constructor; cbn; intuition discriminate|].
  exists 0%nat, "a"%string. split; [reflexivity|]. cbn. intro E. injection E. lra.
Qed.
(** a failure is reported exactly when the one objective is not a number; constraints that are not numbers never are, and two objectives cannot be used *)
Theorem C195_failure o con : fails [o] con = Ok (match o with None => true | Some _ => false end).
Proof. reflexivity. Qed.
Theorem C195_nan_constraint_refuted : exists con, In None con /\ forall o, fails [Some o] con = Ok false.
Proof. exists [None]. split; [now left|reflexivity]. Qed.
Theorem C195_two_objectives o1 o2 r con : fails (o1 :: o2 :: r) con = Err ValueError.
Proof. reflexivity. Qed.
Example C195_case : let c := {| c_name := "range"%string; c_sense := ">"%string; c_bound := 10; c_scale := 1000; c_units := 1852 |} in
  known_sense c /\ sparse_constraint c = Some ("range"%string, (Some (10 * 1852 / 1000), None)) /\ sparse_funcs ["w"%string] ["range"%string] [1] [2] = [("w", 1); ("range", 2)]%string.
Proof. split; [now left|]. split; [reflexivity|reflexivity]. Qed.

(** ** C196: Ipopt *)
(** where scale and units agree the limits hold exactly when the constraint is satisfied *)
Theorem C196_constraints c v : known_sense c -> 0 < c_scale c -> c_scale c = c_units c ->
  (at_least (v / c_scale c) (fst (ipopt_limits c)) /\ at_most (v / c_scale c) (snd (ipopt_limits c)) <-> satisfied c (fun _ => v)).
Proof.
  intros K S U. unfold ipopt_limits.
  destruct (senses c K) as [(A & B & C & D)|[(A & B & C & D)|(A & B & C & D)]]; rewrite ?A, ?B, ?C; cbn [fst snd at_least at_most].
  - rewrite (sat_gt _ _ D), (le_div _ _ _ S), U. tauto.
  - rewrite (sat_lt _ _ D), (div_le _ _ _ S), U. tauto.
  - rewrite (sat_eq _ _ D), (le_div _ _ _ S), (div_le _ _ _ S), U. split; [lra|intros ->; lra].
Qed.
(** and only there: any other scale makes solver and problem disagree *)
Theorem C196_scale_refuted c : known_sense c -> 0 < c_scale c -> c_bound c <> 0 -> c_scale c <> c_units c ->
  disagree c (fun s => at_least s (fst (ipopt_limits c)) /\ at_most s (snd (ipopt_limits c))).
Proof.
  intros K S N U. assert (NE : c_bound c * c_scale c <> c_bound c * c_units c) by (intro E; apply Rmult_eq_reg_l in E; [exact (U E)|exact N]).
  unfold ipopt_limits, disagree.
  destruct (senses c K) as [(A & B & C & D)|[(A & B & C & D)|(A & B & C & D)]]; rewrite ?A, ?B, ?C; cbn [fst snd at_least at_most].
  - exists (Rmin (c_bound c * c_scale c) (c_bound c * c_units c)). rewrite (sat_gt _ _ D), (le_div _ _ _ S). unfold Rmin. destruct (Rle_dec _ _); intros (X & Y); [specialize (X ltac:(split; [lra|exact I]))|destruct (Y ltac:(lra))]; lra.
  - exists (Rmax (c_bound c * c_scale c) (c_bound c * c_units c)). rewrite (sat_lt _ _ D), (div_le _ _ _ S). unfold Rmax. destruct (Rle_dec _ _); intros (X & Y); [destruct (Y ltac:(lra))|specialize (X ltac:(split; [exact I|lra]))]; lra.
  - exists (c_bound c * c_scale c). rewrite (sat_eq _ _ D), (le_div _ _ _ S), (div_le _ _ _ S). intros (X & _). specialize (X ltac:(lra)). contradiction.
Qed.
(** the limits come as tables with five equal columns: read one after the other, number k is that of constraint k / 5 *)
Lemma concat_fives {A} (f : constraint -> A) : forall cons k, nth_error (concat (map (fun c => repeat (f c) 5) cons)) k = option_map f (nth_error cons (k / 5)).
Proof.
  induction cons as [|c cons IH]; intro k; [cbn [map concat]; destruct (k / 5)%nat; destruct k; reflexivity|]. destruct (Nat.lt_ge_cases k 5) as [L|L].
  - rewrite Nat.div_small by exact L. do 5 (destruct k as [|k]; [reflexivity|]). lia.
  - cbn [map concat]. rewrite nth_error_app2 by (rewrite repeat_length; exact L). rewrite repeat_length, IH.
    replace (k / 5)%nat with (S ((k - 5) / 5)); [reflexivity|]. replace k with ((k - 5) + 1 * 5)%nat at 2 by lia. rewrite Nat.div_add by lia. lia.
Qed.
Theorem C196_shape cons k : let a := ipopt_arrays cons in
  List.length (fst a) = List.length cons /\ List.length (snd a) = List.length cons /\
  nth_error (concat (fst a)) k = option_map (fun c => fst (ipopt_limits c)) (nth_error cons (k / 5)) /\
  nth_error (concat (snd a)) k = option_map (fun c => snd (ipopt_limits c)) (nth_error cons (k / 5)).
Proof. cbn zeta. unfold ipopt_arrays. cbn [fst snd]. rewrite !map_length. repeat split; apply concat_fives. Qed.
(** every pair of a constraint and a variable has one place in the Jacobian's pattern *)
Theorem C196_pattern nvar ncon : combine (fst (structure nvar ncon)) (snd (structure nvar ncon)) = list_prod (seq 0 ncon) (seq 0 nvar).
Proof.
  unfold structure. cbn [fst snd]. destruct nvar as [|n]; [cbn; induction (seq 0 ncon); [reflexivity|exact IHl]|]. set (v := S n).
  assert (G : forall k s, map (fun nn => (nn / v, nn mod v)%nat) (seq (s * v) (v * k)) = list_prod (seq s k) (seq 0 v)).
  { induction k as [|k IH]; intro s; [now rewrite Nat.mul_0_r|]. cbn [seq list_prod]. replace (v * S k)%nat with (v + v * k)%nat by lia. rewrite seq_app, map_app. f_equal.
    - replace (s * v)%nat with (s * v + 0)%nat at 1 by lia. assert (H : forall m o, (o + m <= v)%nat -> map (fun nn => (nn / v, nn mod v)%nat) (seq (s * v + o) m) = map (fun y => (s, y)) (seq o m)).
      { induction m as [|m IHm]; intros o L; [reflexivity|]. cbn [seq map]. f_equal.
        - f_equal; [rewrite Nat.add_comm, Nat.div_add by (unfold v; lia); rewrite Nat.div_small by lia; lia|rewrite Nat.add_comm, Nat.mod_add by (unfold v; lia); apply Nat.mod_small; lia].
        - rewrite <- Nat.add_succ_r. apply IHm. lia. }
      apply H. lia.
    - replace (s * v + v)%nat with (S s * v)%nat by lia. apply IH. }
  specialize (G ncon 0%nat). rewrite Nat.mul_0_l in G. rewrite <- G. generalize (seq 0 (v * ncon)). induction l as [|x l IHl]; [reflexivity|]. cbn [map combine]. now rewrite IHl.
Qed.
(** and the values stand in that order: number nn is the difference quotient of constraint nn / n along variable nn mod n *)
Lemma concat_rows (n : nat) : forall rows nn, Forall (fun r => List.length r = n) rows -> (nn < n * List.length rows)%nat -> nth nn (concat rows) 0 = nth (nn mod n) (nth (nn / n) rows []) 0.
Proof.
  induction rows as [|r rows IH]; intros nn F L; [cbn in L; lia|]. apply Forall_cons_iff in F as (F1 & F2). cbn [concat List.length] in *.
  destruct (Nat.lt_ge_cases nn n) as [H|H].
  - rewrite Nat.div_small, Nat.mod_small by exact H. rewrite app_nth1 by lia. reflexivity.
  - rewrite app_nth2 by lia. rewrite F1, IH by (try assumption; lia).
    assert (N : n <> 0%nat) by lia. assert (E : nn = ((nn - n) + 1 * n)%nat) by lia. rewrite E at 3 4. rewrite Nat.div_add, Nat.mod_add by exact N. replace ((nn - n) / n + 1)%nat with (S ((nn - n) / n)) by lia. reflexivity.
Qed.
Theorem C196_jacobian obj con x n h nn : (nn < n * List.length (con x))%nat ->
  let j := nth nn (fst (structure n (List.length (con x)))) 0%nat in let i := nth nn (snd (structure n (List.length (con x)))) 0%nat in
  List.length (jacobian_values obj con x n h) = (n * List.length (con x))%nat /\
  nth nn (jacobian_values obj con x n h) 0 = (nth j (con (perturb x i h)) 0 - nth j (con x) 0) / h.
Proof.
  intro L. cbn zeta. unfold structure. cbn [fst snd].
  assert (SQ : forall f : nat -> nat, nth nn (map f (seq 0 (n * List.length (con x)))) 0%nat = f nn).
  { intro f. rewrite (nth_indep _ _ (f 0%nat)) by (rewrite map_length, seq_length; exact L). rewrite map_nth. now rewrite seq_nth by exact L. }
  rewrite !SQ. unfold jacobian_values, finite_difference. cbn [snd].
  set (row := fun j => map (fun r => (nth j r 0 - nth j (con x) 0) / h) (map (fun i => con (perturb x i h)) (seq 0 n))).
  assert (F : Forall (fun r => List.length r = n) (map row (seq 0 (List.length (con x))))).
  { apply Forall_map, Forall_forall. intros j _. unfold row. now rewrite !map_length, seq_length. }
  split.
  - assert (G : forall rows, Forall (fun r : list R => List.length r = n) rows -> List.length (concat rows) = (n * List.length rows)%nat).
    { induction 1 as [|r rows E F' IH]; [cbn; lia|]. cbn [concat List.length]. rewrite app_length, E, IH. lia. }
    rewrite (G _ F). now rewrite map_length, seq_length.
  - rewrite (concat_rows n _ _ F) by (rewrite map_length, seq_length; exact L).
    assert (N : n <> 0%nat) by (intros ->; cbn in L; lia). assert (J : (nn / n < List.length (con x))%nat) by (apply Nat.div_lt_upper_bound; [exact N|exact L]).
    assert (RN : nth (nn / n) (map row (seq 0 (List.length (con x)))) [] = row (nn / n)%nat).
    { rewrite (nth_indep _ [] (row 0%nat)) by (rewrite map_length, seq_length; exact J). rewrite map_nth. now rewrite seq_nth by exact J. }
    rewrite RN. unfold row. rewrite map_map. set (g := fun i : nat => _). rewrite (nth_indep _ 0 (g 0%nat)) by (rewrite map_length, seq_length; apply Nat.mod_upper_bound; exact N).
    rewrite map_nth. rewrite seq_nth by (apply Nat.mod_upper_bound; exact N). reflexivity.
Qed.
Example C196_case : structure 2 2 = ([0; 0; 1; 1]%nat, [0; 1; 0; 1]%nat) /\
  (let c := {| c_name := "range"%string; c_sense := ">"%string; c_bound := 10; c_scale := 1000; c_units := 1852 |} in known_sense c /\ c_scale c <> c_units c).
Proof. split; [reflexivity|]. split; [now left|]. cbn. lra. Qed.

(** ** C197: surrogates *)
(** in SI units the surrogate's limits are those of the problem *)
Theorem C197_constraints c v : c_sense c = ">"%string \/ c_sense c = "<"%string -> 0 < c_scale c -> c_units c = 1 ->
  (accepts (v / c_scale c) (surrogate_constraint c) <-> satisfied c (fun _ => v)).
Proof.
  intros K S U. assert (K' : known_sense c) by (unfold known_sense; tauto). unfold surrogate_constraint. set (e := surrogate_edge c).
  assert (E : e * c_scale c = c_bound c * c_units c) by (unfold e, surrogate_edge; rewrite U, Rmult_1_r; unfold pyopt_edge, scale_const_value, scale_const_bnd; rewrite U; field; lra).
  destruct (senses c K') as [(A & B & C & D)|[(A & B & C & D)|(A & B & C & D)]]; rewrite ?A, ?B, ?C; cbn [accepts].
  - rewrite (sat_gt _ _ D), <- E, <- (le_div _ _ _ S). split; intro H; lra.
  - rewrite (sat_lt _ _ D), <- E. apply (div_le _ _ _ S).
  - rewrite D in K. destruct K; discriminate.
Qed.
(** in other units they are not *)
Theorem C197_units_refuted c : c_sense c = ">"%string \/ c_sense c = "<"%string -> 0 < c_scale c -> c_units c <> 1 -> c_units c <> 0 -> c_bound c <> 0 ->
  disagree c (fun s => accepts s (surrogate_constraint c)).
Proof.
  intros K S U U0 N. assert (K' : known_sense c) by (unfold known_sense; tauto). unfold surrogate_constraint, disagree. set (e := surrogate_edge c).
  assert (E : e * c_scale c = c_bound c * c_units c * c_units c) by (unfold e, surrogate_edge, pyopt_edge, scale_const_value, scale_const_bnd; field; lra).
  assert (NE : e * c_scale c <> c_bound c * c_units c).
  { rewrite E. intro H. assert (Z : c_bound c * c_units c * (c_units c - 1) = 0) by lra. apply Rmult_integral in Z as [Z|Z]; [apply Rmult_integral in Z; tauto|lra]. }
  destruct (senses c K') as [(A & B & C & D)|[(A & B & C & D)|(A & B & C & D)]]; rewrite ?A, ?B, ?C; cbn [accepts].
  - exists (Rmin (e * c_scale c) (c_bound c * c_units c)). rewrite (sat_gt _ _ D). assert (G : forall v, v / c_scale c >= e <-> e * c_scale c <= v) by (intro v; rewrite <- (le_div _ _ _ S); split; intro; lra). rewrite G.
    unfold Rmin. destruct (Rle_dec _ _); intros (X & Y); [specialize (X ltac:(lra))|specialize (Y ltac:(lra))]; lra.
  - exists (Rmax (e * c_scale c) (c_bound c * c_units c)). rewrite (sat_lt _ _ D), (div_le _ _ _ S). unfold Rmax. destruct (Rle_dec _ _); intros (X & Y); [specialize (Y ltac:(lra))|specialize (X ltac:(lra))]; lra.
  - rewrite D in K. destruct K; discriminate.
Qed.
(** equality constraints are dropped *)
Theorem C197_equality_refuted c : c_sense c = "="%string -> surrogate_constraint c = NoLimit.
Proof. intro E. unfold surrogate_constraint, is_lt, is_gt. rewrite E. reflexivity. Qed.
(** one surrogate for each column of the constraints; where the regression passes through its data the whole answers with the data *)
Theorem C197_through_data {model} (fit : list (list R) -> list R -> model) predict obj inputs rows m i :
  (forall ys, List.length ys = List.length inputs -> predict (fit inputs ys) (nth i inputs []) = nth i ys 0) ->
  (i < List.length inputs)%nat -> List.length obj = List.length inputs -> List.length rows = List.length inputs -> (forall r, In r rows -> List.length r = List.length (hd [] rows)) ->
  build_models fit obj inputs rows = Ok m -> compute predict m (nth i inputs []) = (nth i obj 0, nth i rows []).
Proof.
  intros P L LO LR W B. destruct rows as [|r0 rows]; [discriminate|]. cbn [build_models] in B. injection B as <-. unfold compute. cbn [fst snd]. f_equal; [now apply P|].
  rewrite map_map. cbn [hd] in W. assert (I : In (nth i (r0 :: rows) []) (r0 :: rows)) by (apply nth_In; lia). specialize (W _ I).
  assert (E : forall j, predict (fit inputs (column j (r0 :: rows))) (nth i inputs []) = nth j (nth i (r0 :: rows) []) 0).
  { intro j. rewrite P by (unfold column; rewrite map_length; exact LR). unfold column. set (f := fun r : list R => nth j r 0).
    rewrite (nth_indep _ 0 (f [])) by (rewrite map_length; lia). now rewrite map_nth. }
  rewrite (map_ext _ _ E). revert W. generalize (nth i (r0 :: rows) []). intros l W. rewrite <- W. clear. apply (nth_ext _ _ 0 0); [now rewrite map_length, seq_length|].
  intros k K. rewrite map_length, seq_length in K. set (g := fun j => nth j l 0). rewrite (nth_indep _ 0 (g 0%nat)) by (rewrite map_length, seq_length; exact K). rewrite map_nth. now rewrite seq_nth by exact K.
Qed.
Theorem C197_no_data {model} (fit : list (list R) -> list R -> model) obj inputs : build_models fit obj inputs [] = Err IndexError.
Proof. reflexivity. Qed.
(** leaving one point out: works for positions counted from the front and for those from the end but the last *)
Theorem C197_left_out {A} (a b : list A) x : left_out (Z.of_nat (List.length a)) (a ++ x :: b) = a ++ b.
Proof.
  unfold left_out. destruct (Z.eqb_spec (Z.of_nat (List.length a)) 0) as [E|E].
  - destruct a; [reflexivity|cbn in E; lia].
  - unfold slice_to, slice_from. destruct (Z.ltb_spec (Z.of_nat (List.length a)) 0); [lia|]. destruct (Z.ltb_spec (Z.of_nat (List.length a) + 1) 0); [lia|].
    replace (Z.to_nat (Z.of_nat (List.length a) + 1)) with (List.length a + 1)%nat by lia. rewrite Nat2Z.id, firstn_app, firstn_all, Nat.sub_diag. cbn [firstn]. rewrite app_nil_r, skipn_app.
    rewrite skipn_all2 by lia. replace (List.length a + 1 - List.length a)%nat with 1%nat by lia. reflexivity.
Qed.
Theorem C197_left_out_from_end {A} (a b : list A) x : b <> [] -> left_out (- Z.of_nat (List.length b) - 1) (a ++ x :: b) = a ++ b.
Proof.
  intro NE. assert (L : (0 < List.length b)%nat) by (destruct b; [congruence|cbn; lia]). unfold left_out. destruct (Z.eqb_spec (- Z.of_nat (List.length b) - 1) 0); [lia|]. unfold slice_to, slice_from.
  destruct (Z.ltb_spec (- Z.of_nat (List.length b) - 1) 0); [|lia]. destruct (Z.ltb_spec (- Z.of_nat (List.length b) - 1 + 1) 0); [|lia]. rewrite app_length. cbn [List.length].
  replace (Z.to_nat (Z.of_nat (List.length a + S (List.length b)) + (- Z.of_nat (List.length b) - 1))) with (List.length a) by lia.
  replace (Z.to_nat (Z.of_nat (List.length a + S (List.length b)) + (- Z.of_nat (List.length b) - 1 + 1))) with (List.length a + 1)%nat by lia.
  rewrite firstn_app, firstn_all, Nat.sub_diag. cbn [firstn]. rewrite app_nil_r, skipn_app, skipn_all2 by lia. replace (List.length a + 1 - List.length a)%nat with 1%nat by lia. reflexivity.
Qed.
(** the default, the last point, is not left out: all points are used, and all others twice *)
Theorem C197_last_refuted {A} (a : list A) x : left_out (-1) (a ++ [x]) = a ++ (a ++ [x]).
Proof.
  unfold left_out. cbn [Z.eqb]. unfold slice_to, slice_from. cbn [Z.ltb Z.compare Z.add Z.opp]. rewrite app_length. cbn [List.length].
  change ((-1 + 1)%Z) with 0%Z. cbn [Z.ltb Z.compare Z.to_nat skipn]. replace (Z.to_nat (Z.of_nat (List.length a + 1) + -1)) with (List.length a) by lia. rewrite firstn_app, firstn_all, Nat.sub_diag. cbn [firstn]. now rewrite app_nil_r.
Qed.
(** and whichever point is left out, the prediction is made at the last one *)
Theorem C197_elsewhere_refuted {model} (fit : list (list R) -> list R -> model) predict a x b ra r rb z : List.length a = List.length ra -> b = z :: nil -> rb <> [] ->
  forall j, (j < List.length (hd r ra))%nat ->
  nth j (svr_predictions fit predict (Z.of_nat (List.length a)) (a ++ x :: b) (ra ++ r :: rb)) 0 = predict (fit (a ++ b) (column j (ra ++ rb))) z.
Proof.
  intros L -> _ j J. unfold svr_predictions. rewrite (C197_left_out a [z] x). rewrite L, (C197_left_out ra rb r).
  assert (H : hd [] (ra ++ r :: rb) = hd r ra) by now destruct ra.
  rewrite H. set (g := fun j : nat => _). rewrite (nth_indep _ 0 (g 0%nat)) by (rewrite map_length, seq_length; exact J). rewrite map_nth. rewrite seq_nth by exact J. unfold g. cbn [Nat.add].
  do 1 f_equal. replace (a ++ [x; z]) with ((a ++ [x]) ++ [z]) by now rewrite <- app_assoc. apply last_last.
Qed.
Example C197_case : left_out 1 [5; 6; 7]%nat = [5; 7]%nat /\ left_out (-1) [5; 6; 7]%nat = [5; 6; 5; 6; 7]%nat /\
  build_models (fun x y => (x, y)) [1; 2] [[0]; [1]] [[3; 4]; [5; 6]] = Ok (([[0]; [1]], [1; 2]), [([[0]; [1]], [3; 5]); ([[0]; [1]], [4; 6])]).
Proof. repeat split. Qed.
Print Assumptions C195_constraints.
Print Assumptions C195_answers.
Print Assumptions C195_shared_refuted.
Print Assumptions C195_variables.
Print Assumptions C195_order_refuted.
Print Assumptions C195_failure.
Print Assumptions C195_nan_constraint_refuted.
Print Assumptions C195_two_objectives.
Print Assumptions C196_constraints.
Print Assumptions C196_scale_refuted.
Print Assumptions C196_shape.
Print Assumptions C196_pattern.
Print Assumptions C196_jacobian.
Print Assumptions C197_constraints.
Print Assumptions C197_units_refuted.
Print Assumptions C197_equality_refuted.
Print Assumptions C197_through_data.
Print Assumptions C197_no_data.
Print Assumptions C197_left_out.
Print Assumptions C197_left_out_from_end.
Print Assumptions C197_last_refuted.
Print Assumptions C197_elsewhere_refuted.
