(** * Sweeps, records and surrogate based optimisation: properties C172 - C175 *)
From Coq Require Import Reals List Arith Ascii String Bool Lia Lra.
From Verif Require Import PyBase M_Opt P_Opt M_Noise P_Noise M_Sweep S_Sweep P_Sweep.
Import ListNotations.
Local Open Scope R_scope.

(** ** C172 *)
(** a line plot evaluates the problem at evenly spaced values of one input between its bounds, all others as given *)
Theorem C172_line : forall p t n i r, nth_error t i = Some r -> (2 <= n)%nat ->
  exists t' xs res, line_plot p t n i = Ok (t', xs, res) /\ List.length xs = n /\ List.length res = n /\
  forall k, (k < n)%nat -> nth k xs 0 = i_lo r + (i_up r - i_lo r) * (INR k / INR (n - 1)) /\
    exists q, List.length q = List.length t /\ nth_error q i = Some (nth k xs 0) /\ (forall j, j <> i -> nth_error q j = option_map i_val (nth_error t j)) /\
      nth k res (0, []) = (sw_f p q * sw_scale p, sw_g p q).
Proof.
  intros p t n i r H N. unfold line_plot, at_index. rewrite H. cbn [bind]. cbv zeta. rewrite line_loop_is. cbn [app]. do 3 eexists. split; [reflexivity|]. rewrite map_length, linspace_length. split; [reflexivity|]. split; [reflexivity|].
  intros k K. split; [now apply linspace_nth|]. set (xs := linspace (i_lo r) (i_up r) n). assert (L : List.length xs = n) by apply linspace_length.
  exists (values (set_val i (nth k xs 0) t)). split; [unfold values; now rewrite map_length, set_val_len|]. split; [rewrite values_nth, (set_val_same _ _ _ _ H); reflexivity|]. split; [intros j J; now rewrite values_nth, set_val_other|].
  set (h := fun x => (sw_f p (values (set_val i x t)) * sw_scale p, sw_g p (values (set_val i x t)))). rewrite (nth_indep _ (0, []) (h 0)) by (rewrite map_length; lia). now rewrite map_nth.
Qed.
Theorem C172_index : forall p t n i j, nth_error t i = None -> line_plot p t n i = Err IndexError /\ carpet_plot p t n i j = Err IndexError /\ carpet_plot p t n j i = Err IndexError.
Proof. intros p t n i j H. unfold line_plot, carpet_plot, at_index. rewrite H. cbn [bind]. repeat split. now destruct (nth_error t j). Qed.
(** a carpet plot evaluates every pair of a grid; row = second input, column = first *)
Theorem C172_carpet : forall p t n i0 i1 r0 r1, nth_error t i0 = Some r0 -> nth_error t i1 = Some r1 -> i0 <> i1 -> (2 <= n)%nat ->
  exists t' x0 x1 m, carpet_plot p t n i0 i1 = Ok (t', (x0, x1), m) /\ List.length x0 = n /\ List.length x1 = n /\
  forall i j, (i < n)%nat -> (j < n)%nat ->
    nth i x0 0 = i_lo r0 + (i_up r0 - i_lo r0) * (INR i / INR (n - 1)) /\ nth j x1 0 = i_lo r1 + (i_up r1 - i_lo r1) * (INR j / INR (n - 1)) /\
    exists q, List.length q = List.length t /\ nth_error q i0 = Some (nth i x0 0) /\ nth_error q i1 = Some (nth j x1 0) /\ (forall k, k <> i0 -> k <> i1 -> nth_error q k = option_map i_val (nth_error t k)) /\
      m j i = (sw_f p q * sw_scale p, sw_g p q).
Proof.
  intros p t n i0 i1 r0 r1 H0 H1 D N. unfold carpet_plot, at_index. rewrite H0, H1. cbn [bind]. cbv zeta. set (x0 := linspace (i_lo r0) (i_up r0) n). set (x1 := linspace (i_lo r1) (i_up r1) n).
  destruct (fold_left _ _ _) as [t' m] eqn:E. exists t', x0, x1, m. split; [reflexivity|]. split; [apply linspace_length|]. split; [apply linspace_length|]. intros i j I J.
  split; [now apply linspace_nth|]. split; [now apply linspace_nth|]. pose proof (carpet_fold p i0 i1 x0 x1 t _ _ _ (fun a b => eq_refl) t' m E) as (G & _).
  exists (values (set_val i1 (nth j x1 0) (set_val i0 (nth i x0 0) t))). split; [unfold values; now rewrite map_length, !set_val_len|]. split; [|split; [|split]].
  - rewrite values_nth, set_val_other by exact D. now rewrite (set_val_same _ _ _ _ H0).
  - rewrite values_nth. rewrite (set_val_same _ _ _ r1); [reflexivity|]. now rewrite set_val_other by congruence.
  - intros k K0 K1. now rewrite values_nth, !set_val_other by assumption.
  - now rewrite (G i j (in_square n i j I J)).
Qed.
(** what is plotted is the objective in its own units *)
Theorem C172_units : forall o F g t n i r, nth_error t i = Some r -> o_scale o <> 0 -> o_units o <> 0 ->
  exists t' xs res, line_plot (Sweep (fun q => scale_obj_value o (F q)) g (o_scale o)) t n i = Ok (t', xs, res) /\
  map fst res = map (fun x => F (map i_val (set_val i x t)) / o_units o) xs.
Proof.
  intros o F g t n i r H S U. unfold line_plot, at_index. rewrite H. cbn [bind]. cbv zeta. rewrite line_loop_is. cbn [app sw_f sw_scale sw_g]. do 3 eexists. split; [reflexivity|]. rewrite map_map. apply map_ext. intro x. cbn [fst]. unfold scale_obj_value, values.
  field. now split.
Qed.
(** the inputs are not restored: afterwards the swept input is at its upper bound, the rest of the table is as before *)
Theorem C172_left : forall p t n i r, nth_error t i = Some r -> (2 <= n)%nat ->
  exists t' xs res, line_plot p t n i = Ok (t', xs, res) /\ nth_error t' i = Some (with_val r (i_up r)) /\ (forall j, j <> i -> nth_error t' j = nth_error t j).
Proof.
  intros p t n i r H N. unfold line_plot, at_index. rewrite H. cbn [bind]. cbv zeta. rewrite line_loop_is. do 3 eexists. split; [reflexivity|].
  assert (E : match linspace (i_lo r) (i_up r) n with [] => t | _ => set_val i (last (linspace (i_lo r) (i_up r) n) 0) t end = set_val i (i_up r) t).
  { rewrite linspace_last by exact N. destruct (linspace (i_lo r) (i_up r) n) eqn:X; [|reflexivity]. apply (f_equal (@List.length R)) in X. rewrite linspace_length in X. cbn in X. lia. }
  rewrite E. split; [now apply set_val_same|]. intros j J. now apply set_val_other.
Qed.
Theorem C172_restored_refuted : ~ (forall p t n i t' xs res, line_plot p t n i = Ok (t', xs, res) -> t' = t).
Proof.
  intro H. set (r := {| i_name := "x"; i_val := 1; i_lo := 0; i_up := 3; i_scale := 1; i_units := 1 |}).
  destruct (C172_left (Sweep (fun _ => 0) (fun _ => []) 1) [r] 2 0 r eq_refl (le_n 2)) as (t' & xs & res & E & L & _). specialize (H _ _ _ _ _ _ _ E). subst t'. cbn in L. injection L as L. unfold r in L. lra.
Qed.
Example C172_example : exists t' xs res, line_plot (Sweep (fun q => nth 0 q 0 + nth 1 q 0) (fun q => q) 2)
  [{| i_name := "x"; i_val := 7; i_lo := 0; i_up := 3; i_scale := 1; i_units := 1 |}; {| i_name := "y"; i_val := 1; i_lo := 0; i_up := 4; i_scale := 1; i_units := 1 |}] 3 1 = Ok (t', xs, res) /\
  nth 1 res (0, []) = (18, [7; 2]).
Proof.
  match goal with |- context [line_plot ?p ?t 3 1] => destruct (C172_line p t 3 1 _ eq_refl ltac:(lia)) as (t' & xs & res & E & _ & _ & G) end.
  exists t', xs, res. split; [exact E|]. destruct (G 1%nat ltac:(lia)) as (X & q & L & Q1 & Q0 & ->). specialize (Q0 0%nat ltac:(lia)). cbn in Q0. rewrite X in Q1. destruct q as [|a [|b [|]]]; try discriminate. cbn in Q0, Q1. injection Q0 as ->. injection Q1 as ->. cbn [sw_f sw_g sw_scale nth].
  replace (0 + (4 - 0) * (1 / 2)) with 2 by field. replace (0 + (4 - 0) * (1 / (1 + 1))) with 2 by field. f_equal. ring.
Qed.

(** ** C173 *)
(** reading the file back gives exactly what was written *)
Theorem C173_round_trip : forall A show parse, @faithful A show parse -> forall ni nc es, (0 < ni)%nat -> (0 < nc)%nat -> es <> [] ->
  (forall e, In e es -> List.length (e_in e) = ni /\ List.length (e_con e) = nc) ->
  read_outputs A parse (write_all A show [] es) ni nc = Ok (map e_iter es, map e_obj es, map e_in es, map e_con es).
Proof. intros A show parse FA ni nc es. now apply read_written. Qed.
(** each entry is added at the end: writing in two goes is writing at once *)
Theorem C173_append : forall A show (es es' : list (entry A)), write_all A show (write_all A show [] es) es' = write_all A show [] (es ++ es').
Proof. intros. unfold write_all. now rewrite fold_left_app. Qed.
(** a problem without constraints (or without inputs) cannot be read back *)
Theorem C173_no_constraints : forall A show parse, @faithful A show parse -> forall ni nc es e, In e es -> e_in e = [] \/ e_con e = [] ->
  read_outputs A parse (write_all A show [] es) ni nc = Err ValueError.
Proof. intros A show parse FA ni nc es e I B. apply read_bad; [exact FA|eauto]. Qed.
Theorem C173_empty : forall A parse ni nc, read_outputs A parse [] ni nc = Err IndexError.
Proof. reflexivity. Qed.
(** the inputs recorded are the optimiser's: scaling them gives the table back, if bounds are given in pairs *)
Theorem C173_scaled : forall t, (forall r, In r t -> i_scale r <> 0) -> scale_input_values t (recorded false t) = Ok t.
Proof.
  intros t H. unfold scale_input_values, recorded. rewrite map_length, Nat.eqb_refl. f_equal. induction t as [|r t IH]; [reflexivity|]. cbn [map map2]. rewrite IH by (intros q Q; apply H; now right). f_equal. destruct r as [nm v lo up sc u]. unfold with_val. cbn [i_name i_val i_lo i_up i_scale i_units]. f_equal. specialize (H _ (or_introl eq_refl)). cbn in H. now field.
Qed.
Theorem C173_scaled_refuted : ~ (forall t, (forall r, In r t -> 0 < i_scale r /\ i_lo r < i_val r < i_up r) -> scale_input_values t (recorded true t) = Ok t).
Proof.
  intro H. set (r := {| i_name := "x"; i_val := 1; i_lo := 0; i_up := 2; i_scale := 1; i_units := 1 |}).
  assert (E : scale_input_values [r] (recorded true [r]) = Ok [r]) by (apply H; intros q [<-|[]]; cbn; lra). cbn in E. injection E as E. lra.
Qed.
Definition show_bit (b : bool) : text := if b then ["1"%char] else ["0"%char].
Definition parse_bit (s : text) : option bool :=
  match s with ["1"%char] | ["1"; "010"]%char => Some true | ["0"%char] | ["0"; "010"]%char => Some false | _ => None end.
Example C173_example : @faithful bool show_bit parse_bit /\
  read_outputs bool parse_bit (write_all bool show_bit [] [Entry true false [true; false] [false]; Entry false true [false; false] [true]]) 2 1 =
  Ok ([true; false], [false; true], [[true; false]; [false; false]], [[false]; [true]]).
Proof.
  split; [|reflexivity]. split; [|now split]. intros [|]; (split; [discriminate|]); (split; [|now split]); intros c [<-|[]]; unfold separators; cbn [In]; intros H; repeat (destruct H as [H|H]; [discriminate|]); exact H.
Qed.

(** ** C174 *)
(** every point kept was evaluated at both fidelities; never more iterations than allowed; one new point per iteration *)
Theorem C174_data : forall f1 f2 search final m tol max xs a, additive f1 f2 search final m tol max xs = Ok a ->
  d_lo (a_data a) = map f1 (d_x (a_data a)) /\ d_hi (a_data a) = map f2 (d_x (a_data a)) /\ (0 < a_iter a <= max)%nat /\
  exists pts, d_x (a_data a) = xs ++ pts /\ (List.length pts = a_iter a \/ (S (List.length pts) = a_iter a /\ snd (search (a_iter a - 1)%nat (a_data a)) = None)).
Proof.
  intros f1 f2 search final m tol max xs a E. destruct max as [|n]; [discriminate|]. cbn [additive] in E.
  destruct (iterate_is _ _ _ _ _ _ _ _ _ _ E) as ((A & B) & I & (pts & P & Q) & _); [now split|]. repeat split; try assumption; try lia.
  exists pts. split; [exact P|]. destruct Q as [[Q _]|(Q & _ & S)]; [left|right; split]; [lia|lia|exact S].
Qed.
(** the answer of the basic method is a point it evaluated; if it says it converged, its value is the high fidelity
    one to within the tolerance, otherwise it is the high fidelity one and all iterations were used *)
Theorem C174_basic : forall f1 f2 search final tol max xs a, additive f1 f2 search final basic tol max xs = Ok a ->
  (a_f a = None /\ a_x a = None) \/
  exists v x, a_f a = Some v /\ a_x a = Some x /\ In x (d_x (a_data a)) /\
    (if a_conv a then Rabs (v - f2 x) < tol /\ (a_iter a < max)%nat else v = f2 x /\ a_iter a = max).
Proof.
  intros f1 f2 search final tol max xs a E. destruct max as [|n]; [discriminate|]. cbn [additive] in E.
  destruct (iterate_is _ _ _ _ _ _ _ _ _ _ E) as (_ & I & _ & [H|(x & X & Y & [(A & B & D)|(A & B & v & V & T)])]); [now split|left; tauto|right|right].
  - exists (f2 x), x. rewrite B. repeat split; try assumption; lia.
  - exists v, x. rewrite A. repeat split; try assumption; lia.
Qed.
(** 'MEI' gives the high fidelity value at its own final point and never says it converged *)
Theorem C174_mei : forall f1 f2 search final tol max xs a, additive f1 f2 search final mei tol max xs = Ok a ->
  exists y, a_x a = Some y /\ a_f a = Some (f2 y) /\ y = final (a_data a) /\ a_conv a = false /\ (a_iter a = max \/ snd (search (a_iter a - 1)%nat (a_data a)) = None).
Proof.
  intros f1 f2 search final tol max xs a E. destruct max as [|n]; [discriminate|]. cbn [additive] in E.
  assert (U : forall left k d, iterate f1 f2 search final mei tol k left d = Ok a -> a_iter a = (k + S left)%nat \/ snd (search (a_iter a - 1)%nat (a_data a)) = None).
  { induction left as [|left IH]; intros k d H; cbn [iterate] in H; destruct (search k d) as [fo [x|]] eqn:S.
    - destruct (Nat.ltb (List.length x) 2); [discriminate|]. injection H as <-. cbn [a_iter]. left. lia.
    - injection H as <-. cbn [a_iter a_data]. right. replace (Datatypes.S k - 1)%nat with k by lia. now rewrite S.
    - destruct (Nat.ltb (List.length x) 2); [discriminate|]. destruct (IH _ _ H) as [L|L]; [left; lia|now right].
    - injection H as <-. cbn [a_iter a_data]. right. replace (Datatypes.S k - 1)%nat with k by lia. now rewrite S. }
  specialize (U _ _ _ E). destruct (iterate_is _ _ _ _ _ _ _ _ _ _ E) as (_ & _ & _ & (y & Y & X & V & C)); [now split|]. exists y. repeat split; try assumption.
Qed.
(** problems it cannot treat: no iterations, or a single input *)
Theorem C174_errors : forall f1 f2 search final m tol xs,
  additive f1 f2 search final m tol 0 xs = Err UnboundLocalError /\
  (forall n fo x, search 0%nat (first_data f1 f2 xs) = (fo, Some [x]) -> additive f1 f2 search final m tol (S n) xs = Err IndexError).
Proof. intros. split; [reflexivity|]. intros n fo x H. cbn [additive]. destruct n; cbn [iterate]; rewrite H; reflexivity. Qed.
(** the corrected model agrees with the high fidelity one wherever both were evaluated, if the surrogate of the
    differences passes through them *)
Theorem C174_corrected : forall f1 f2 predict (d : data), (forall k x lo hi, nth_error (d_x d) k = Some x -> nth_error (d_lo d) k = Some lo -> nth_error (d_hi d) k = Some hi -> predict x = hi - lo) ->
  d_lo d = map f1 (d_x d) -> d_hi d = map f2 (d_x d) -> forall x, In x (d_x d) -> corrected f1 predict x = f2 x.
Proof.
  intros f1 f2 predict d P L H x I. apply In_nth_error in I. destruct I as [k K]. unfold corrected. rewrite (P k x (f1 x) (f2 x) K); [ring|rewrite L; now apply map_nth_error|rewrite H; now apply map_nth_error].
Qed.
(** the edges given to the other optimisers say what the constraint says *)
Theorem C174_edges : forall c x lo up, 0 < c_scale c -> edges c = Some (lo, up) ->
  let v := x / c_scale c in
  ((match lo with Some e => e <= v | None => True end /\ match up with Some e => v <= e | None => True end) <->
   match c_sense c with "<"%string => x <= c_bound c * c_units c | ">"%string => c_bound c * c_units c <= x | _ => x = c_bound c * c_units c end).
Proof.
  intros c x lo up S E v. unfold edges, scale_const_value, scale_const_bnd, is_lt, is_gt, is_eq in E. set (b := c_bound c * c_units c) in *.
  assert (Q1 : v <= b / c_scale c <-> x <= b).
  { unfold v, Rdiv. split; intro Q; [apply (Rmult_le_reg_r (/ c_scale c)); [now apply Rinv_0_lt_compat|exact Q]|apply Rmult_le_compat_r; [left; now apply Rinv_0_lt_compat|exact Q]]. }
  assert (Q2 : b / c_scale c <= v <-> b <= x).
  { unfold v, Rdiv. split; intro Q; [apply (Rmult_le_reg_r (/ c_scale c)); [now apply Rinv_0_lt_compat|exact Q]|apply Rmult_le_compat_r; [left; now apply Rinv_0_lt_compat|exact Q]]. }
  destruct (String.eqb_spec (c_sense c) "<") as [-> |N1]; [injection E as <- <-; tauto|]. destruct (String.eqb_spec (c_sense c) ">") as [-> |N2]; [injection E as <- <-; tauto|].
  destruct (String.eqb_spec (c_sense c) "=") as [-> |N3]; [|discriminate]. injection E as <- <-. rewrite Q1, Q2. split; [intros []; lra|intros ->; split; lra].
Qed.
(** those given to SLSQP and SHGO do when the units are the scale *)
Theorem C174_slsqp : forall c x, 0 < c_scale c -> c_units c = c_scale c -> forall eq w, slsqp_constraint c (x / c_scale c) = Ok (eq, w) ->
  ((if eq then w = 0 else 0 <= w) <-> match c_sense c with "<"%string => x <= c_bound c * c_units c | ">"%string => c_bound c * c_units c <= x | _ => x = c_bound c * c_units c end).
Proof.
  intros c x S U eq w E. unfold slsqp_constraint, is_lt, is_gt, is_eq in E. rewrite U. set (s := c_scale c) in *. set (b := c_bound c) in *. assert (X : x = (x / s) * s) by (field; lra). set (v := x / s) in *. rewrite X.
  destruct (String.eqb_spec (c_sense c) "<") as [-> |N1]; [cbn in E; injection E as <- <-; split; intro; nra|].
  destruct (String.eqb_spec (c_sense c) ">") as [-> |N2]; [cbn in E; injection E as <- <-; split; intro; nra|].
  destruct (String.eqb_spec (c_sense c) "=") as [-> |N3]; [|discriminate]. cbn in E. injection E as <- <-. split; intro; nra.
Qed.
Theorem C174_slsqp_refuted : ~ (forall c x, 0 < c_scale c -> 0 < c_units c -> is_lt c = true -> forall eq w, slsqp_constraint c (x / c_scale c) = Ok (eq, w) -> 0 <= w -> x <= c_bound c * c_units c).
Proof.
  intro H. set (c := {| c_name := "m"; c_sense := "<"; c_bound := 10; c_scale := 100; c_units := 1 |}).
  assert (E : slsqp_constraint c (500 / 100) = Ok (false, (500 / 100 - 10) * -1)) by reflexivity.
  assert (L : 500 <= c_bound c * c_units c) by (apply (H c 500) with (eq := false) (w := (500 / 100 - 10) * -1); cbn; try reflexivity; lra). cbn in L. lra.
Qed.
Example C174_example : additive (fun x => nth 0 x 0) (fun x => nth 0 x 0 + 1) (fun k _ => (INR k, Some [INR k; 0])) (fun _ => [0; 0]) basic (1 / 2) 2 [[5; 5]] =
  Ok (Answer (Some (1 + 1)) (Some [1; 0]) false (Dat [[5; 5]; [0; 0]; [1; 0]] [5; 0; 1] [5 + 1; 0 + 1; 1 + 1]) 2).
Proof.
  cbn. destruct (Rltb (Rabs (0 - (0 + 1))) (1 / 2)) eqn:T; [|reflexivity]. apply Rltb_true in T. rewrite Rabs_left in T; lra.
Qed.

(** ** C175 *)
(** the value returned is the objective at the last optimum evaluated; at most the allowed evaluations; it stops early
    only when, after two or more, the next optimum is where it was *)
Theorem C175_refine : forall optimum objective max v x es, iterative_optimization optimum objective max = Ok (v, x, es) ->
  exists k, (0 < k <= max)%nat /\ es = map optimum (seq 0 k) /\ x = optimum (k - 1)%nat /\ v = objective x /\
  ((k < max)%nat -> (2 <= k)%nat /\ distance (optimum k) x < 1 / 10000) /\
  (forall i, (2 <= i < k)%nat -> 1 / 10000 <= distance (optimum i) (optimum (i - 1)%nat)).
Proof.
  intros optimum objective max v x es E. unfold iterative_optimization in E. destruct (refine_is optimum max 0 [] eq_refl) as (k & K1 & K2 & K3 & K4). rewrite K2 in E.
  destruct k as [|k]; [discriminate|]. assert (LA : last (map optimum (seq 0 (S k))) [] = optimum k) by (rewrite seq_S, map_app; cbn [map]; apply last_app1).
  assert (E' : Ok (objective (last (map optimum (seq 0 (S k))) []), last (map optimum (seq 0 (S k))) [], map optimum (seq 0 (S k))) = Ok (v, x, es)) by (rewrite <- E; reflexivity).
  rewrite LA in E'. injection E' as <- <- <-. exists (S k). replace (S k - 1)%nat with k in * by lia.
  split; [lia|]. split; [reflexivity|]. split; [reflexivity|]. split; [reflexivity|]. split; [intro L; apply K4 in L; split; [lia|tauto]|]. intros i I. apply Rnot_lt_le. apply K3; lia.
Qed.
Theorem C175_none : forall optimum objective, iterative_optimization optimum objective 0 = Err UnboundLocalError /\ forall max, (0 < max)%nat -> exists r, iterative_optimization optimum objective max = Ok r.
Proof.
  intros. split; [reflexivity|]. intros max M. unfold iterative_optimization. destruct (refine_is optimum max 0 [] eq_refl) as (k & K1 & K2 & K3 & K4). rewrite K2.
  destruct k as [|k]; [exfalso; assert ((1 < 0)%nat) by (apply K4; lia); lia|]. cbn [seq map]. eauto.
Qed.
(** the value returned is near the surrogate's, when the objective is (Lipschitz) near: the returned point is within
    1/10000 of the optimum of the surrogate built with all evaluations *)
Theorem C175_near : forall optimum objective max v x es K, iterative_optimization optimum objective max = Ok (v, x, es) -> 0 <= K -> (List.length es < max)%nat ->
  (forall a b, Rabs (objective a - objective b) <= K * distance a b) -> Rabs (objective (optimum (List.length es)) - v) <= K / 10000.
Proof.
  intros optimum objective max v x es K E HK L H. destruct (C175_refine _ _ _ _ _ _ E) as (k & K1 & -> & X & V & C & _). rewrite map_length, seq_length in *. destruct (C L) as [_ D]. subst v. eapply Rle_trans; [apply H|]. nra.
Qed.
(** points of the sampling plan are within the bounds of the inputs *)
Theorem C175_plan : forall t x, (forall r, In r t -> 0 < i_scale r) -> Forall2 (fun b v => fst b <= v <= snd b) (plan_bounds t) x ->
  Forall2 (fun r v => i_lo r <= v <= i_up r) t (plan_values t x).
Proof.
  intros t. induction t as [|r t IH]; intros x S F; inversion F as [|b v bs vs B F' EB]; subst; [constructor|]. cbn [fst snd] in B. unfold plan_values. cbn [map2]. constructor.
  - assert (P : 0 < i_scale r) by (apply S; now left). destruct B as [B1 B2]. apply (Rmult_le_compat_r (i_scale r)) in B1, B2; try lra. replace (i_lo r / i_scale r * i_scale r) with (i_lo r) in B1 by (field; lra). replace (i_up r / i_scale r * i_scale r) with (i_up r) in B2 by (field; lra). lra.
  - apply IH; [intros q Q; apply S; now right|exact F'].
Qed.
Example C175_example : exists r, iterative_optimization (fun k => [INR (Nat.min k 3)]) (fun x => nth 0 x 0) 10 = Ok r /\ r = (3, [3], [[0]; [1]; [2]; [3]]).
Proof.
  assert (D : forall a b, distance [a] [b] = Rabs (a - b)). { intros a b. unfold distance. cbn [map2 fold_right]. rewrite Rplus_0_r, <- Rsqr_pow2. apply sqrt_Rsqr_abs. }
  eexists. split; [|reflexivity]. unfold iterative_optimization. cbn [refine Nat.min Nat.ltb Nat.leb andb app].
  cbn [last]. rewrite !D. cbn [INR].
  rewrite (proj2 (Rltb_false _ _)) by (rewrite Rabs_right; lra).
  rewrite (proj2 (Rltb_false (Rabs (1 + 1 + 1 - (1 + 1))) _)) by (rewrite Rabs_right; lra).
  rewrite (proj2 (Rltb_true _ _)) by (rewrite Rminus_diag_eq by reflexivity; rewrite Rabs_R0; lra). cbn [last nth].
  replace (1 + 1 + 1) with 3 by ring. replace (1 + 1) with 2 by ring. reflexivity.
Qed.
Print Assumptions C172_line.
Print Assumptions C172_index.
Print Assumptions C172_carpet.
Print Assumptions C172_units.
Print Assumptions C172_left.
Print Assumptions C172_restored_refuted.
Print Assumptions C173_round_trip.
Print Assumptions C173_append.
Print Assumptions C173_no_constraints.
Print Assumptions C173_empty.
Print Assumptions C173_scaled.
Print Assumptions C173_scaled_refuted.
Print Assumptions C174_data.
Print Assumptions C174_basic.
Print Assumptions C174_mei.
Print Assumptions C174_errors.
Print Assumptions C174_corrected.
Print Assumptions C174_edges.
Print Assumptions C174_slsqp.
Print Assumptions C174_slsqp_refuted.
Print Assumptions C175_refine.
Print Assumptions C175_none.
Print Assumptions C175_near.
Print Assumptions C175_plan.
