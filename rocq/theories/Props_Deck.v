(** * Engine decks: theorems (C202, C203) *)
From Coq Require Import Reals List Bool Arith Lra Lia Psatz.
From Verif Require Import PyBase M_Opt P_Opt M_Noise M_Util Props_Util P_Super M_Deck.
Import ListNotations.
Local Open Scope R_scope.
Local Open Scope list_scope.

(** ** Vocabulary *)
(** the straight line through the predictions at throttle 0 and 1 *)
Definition line (p : cond -> R) (c : cond) : R := p (with_thr c 0) + c_thr c * (p (with_thr c 1) - p (with_thr c 0)).
(** [x] lies between [a] and [b] *)
Definition amid (x a b : R) : Prop := Rmin a b <= x <= Rmax a b.

Lemma mix_amid : forall w a b, 0 <= w <= 1 -> amid (a * w + b * (1 - w)) a b.
Proof. intros w a b W. unfold amid, Rmin, Rmax. destruct (Rle_dec a b); split; nra. Qed.

(** *** C202: the extended surrogate *)
Theorem C202_inside : forall p c, 1 / 100 <= c_thr c <= 99 / 100 -> extended_thrust p c = p c /\ extended_sfc p c = p c.
Proof.
  intros p c [L H]. unfold extended_thrust, extended_sfc. cbv zeta.
  rewrite (proj2 (Rltb_false (c_thr c) 0)) by lra. rewrite (proj2 (Rltb_false (c_thr c) (1 / 100))) by lra.
  destruct (Rltb (c_thr c) (99 / 100)) eqn:E; [split; reflexivity|]. apply Rltb_false in E.
  rewrite (proj2 (Rltb_true (c_thr c) 1)) by lra. unfold hi_blender.
  rewrite (proj1 (C39_ends (99 / 100) 1 (c_thr c) ltac:(lra))) by lra. split; ring.
Qed.
(** beyond both ends the thrust goes on along one straight line and the consumption stays constant *)
Theorem C202_outside : forall p c, c_thr c <= 0 \/ 1 <= c_thr c ->
  extended_thrust p c = line p c /\ extended_sfc p c = p (with_thr c (if Rltb (c_thr c) 1 then 0 else 1)).
Proof.
  intros p c H. unfold extended_thrust, extended_sfc, line. cbv zeta.
  destruct (Rltb (c_thr c) 0) eqn:E0.
  - apply Rltb_true in E0. rewrite (proj2 (Rltb_true (c_thr c) 1)) by lra. split; reflexivity.
  - apply Rltb_false in E0. destruct H as [H|H].
    + assert (Z : c_thr c = 0) by lra. rewrite Z. rewrite (proj2 (Rltb_true 0 (1 / 100))) by lra. rewrite (proj2 (Rltb_true 0 1)) by lra.
      unfold lo_blender. rewrite (proj1 (C39_ends 0 (1 / 100) 0 ltac:(lra))) by lra. split; ring.
    + rewrite (proj2 (Rltb_false (c_thr c) (1 / 100))) by lra. rewrite (proj2 (Rltb_false (c_thr c) (99 / 100))) by lra. rewrite (proj2 (Rltb_false (c_thr c) 1)) by lra.
      split; [ring | reflexivity].
Qed.
(** in the two narrow bands between it lies between the prediction and what holds beyond *)
Theorem C202_bands : forall p c, 0 <= c_thr c <= 1 ->
  amid (extended_thrust p c) (line p c) (p c) /\
  amid (extended_sfc p c) (p (with_thr c (if Rltb (c_thr c) (1 / 2) then 0 else 1))) (p c).
Proof.
  intros p c [L H]. assert (SELF : forall a b, amid a a b /\ amid b a b).
  { intros a b. unfold amid, Rmin, Rmax. destruct (Rle_dec a b); lra. }
  destruct (Rlt_dec (c_thr c) (1 / 100)) as [A|A].
  - unfold extended_thrust, extended_sfc. cbv zeta. rewrite (proj2 (Rltb_false (c_thr c) 0)) by lra. rewrite (proj2 (Rltb_true (c_thr c) (1 / 100))) by lra.
    rewrite (proj2 (Rltb_true (c_thr c) (1 / 2))) by lra. pose proof (C39_range 0 (1 / 100) (c_thr c)). fold (lo_blender (c_thr c)) in *.
    split; apply mix_amid; assumption.
  - destruct (Rle_dec (c_thr c) (99 / 100)) as [B|B].
    + destruct (C202_inside p c ltac:(lra)) as [-> ->]. split; apply SELF.
    + unfold extended_thrust, extended_sfc. cbv zeta. rewrite (proj2 (Rltb_false (c_thr c) 0)) by lra. rewrite (proj2 (Rltb_false (c_thr c) (1 / 100))) by lra.
      rewrite (proj2 (Rltb_false (c_thr c) (99 / 100))) by lra. rewrite (proj2 (Rltb_false (c_thr c) (1 / 2))) by lra.
      pose proof (C39_range (99 / 100) 1 (c_thr c)) as W. fold (hi_blender (c_thr c)) in *. set (w := hi_blender (c_thr c)) in *.
      assert (W' : 0 <= 1 - w <= 1) by lra.
      destruct (Rltb (c_thr c) 1).
      * split.
        -- replace (p c * w + (p (with_thr c 1) + (c_thr c - 1) * (p (with_thr c 1) - p (with_thr c 0))) * (1 - w)) with (line p c * (1 - w) + p c * (1 - (1 - w))) by (unfold line; ring).
           apply mix_amid, W'.
        -- replace (p c * w + p (with_thr c 1) * (1 - w)) with (p (with_thr c 1) * (1 - w) + p c * (1 - (1 - w))) by ring. apply mix_amid, W'.
      * split; [|apply SELF]. replace (p (with_thr c 1) + (c_thr c - 1) * (p (with_thr c 1) - p (with_thr c 0))) with (line p c) by (unfold line; ring). apply SELF.
Qed.
(** if the prediction is continuous in the throttle, so are the extended thrust and consumption, at every throttle *)
Theorem C202_continuous : forall p c x, (forall t, continuity_pt (fun t => p (with_thr c t)) t) ->
  continuity_pt (fun t => extended_thrust p (with_thr c t)) x /\ continuity_pt (fun t => extended_sfc p (with_thr c t)) x.
Proof.
  intros p c x P. assert (B0 : lo_blender 0 = 1) by (apply (proj1 (C39_ends 0 (1 / 100) 0 ltac:(lra))); lra).
  assert (B1 : lo_blender (1 / 100) = 0) by (apply (proj2 (C39_ends 0 (1 / 100) (1 / 100) ltac:(lra))); lra).
  assert (B2 : hi_blender (99 / 100) = 1) by (apply (proj1 (C39_ends (99 / 100) 1 (99 / 100) ltac:(lra))); lra).
  assert (B3 : hi_blender 1 = 0) by (apply (proj2 (C39_ends (99 / 100) 1 1 ltac:(lra))); lra).
  assert (CL : forall t, continuity_pt lo_blender t) by (intro t; apply cont_blend; lra).
  assert (CH : forall t, continuity_pt hi_blender t) by (intro t; apply cont_blend; lra).
  unfold extended_thrust, extended_sfc. cbn [with_thr c_thr c_alt c_mach]. fold (with_thr c 0). fold (with_thr c 1).
  set (mn := p (with_thr c 0)). set (mx := p (with_thr c 1)).
  assert (PC : forall t, continuity_pt (fun t => p (Cond (c_alt c) (c_mach c) t)) t) by exact P.
  assert (Z0 : p (Cond (c_alt c) (c_mach c) 0) = mn) by reflexivity. assert (Z1 : p (Cond (c_alt c) (c_mach c) 1) = mx) by reflexivity.
  assert (LO : forall f t, continuity_pt f t -> continuity_pt (fun t => f t * lo_blender t + p (Cond (c_alt c) (c_mach c) t) * (1 - lo_blender t)) t).
  { intros f t F. apply (continuity_pt_plus (fun t => f t * lo_blender t) (fun t => p (Cond (c_alt c) (c_mach c) t) * (1 - lo_blender t))).
    - apply (continuity_pt_mult f lo_blender); [exact F | apply CL].
    - apply (continuity_pt_mult (fun t => p (Cond (c_alt c) (c_mach c) t)) (fun t => 1 - lo_blender t)); [apply PC|].
      apply (continuity_pt_minus (fun _ => 1) lo_blender); [apply cont_const | apply CL]. }
  assert (HI : forall f t, continuity_pt f t -> continuity_pt (fun t => p (Cond (c_alt c) (c_mach c) t) * hi_blender t + f t * (1 - hi_blender t)) t).
  { intros f t F. apply (continuity_pt_plus (fun t => p (Cond (c_alt c) (c_mach c) t) * hi_blender t) (fun t => f t * (1 - hi_blender t))).
    - apply (continuity_pt_mult (fun t => p (Cond (c_alt c) (c_mach c) t)) hi_blender); [apply PC | apply CH].
    - apply (continuity_pt_mult f (fun t => 1 - hi_blender t)); [exact F|].
      apply (continuity_pt_minus (fun _ => 1) hi_blender); [apply cont_const | apply CH]. }
  assert (PIECES : forall f g, (forall t, continuity_pt f t) -> (forall t, continuity_pt g t) -> f 0 = mn -> g 1 = mx ->
    continuity_pt (fun t => if Rltb t 0 then f t else if Rltb t (1 / 100) then f t * lo_blender t + p (Cond (c_alt c) (c_mach c) t) * (1 - lo_blender t)
       else if Rltb t (99 / 100) then p (Cond (c_alt c) (c_mach c) t) else if Rltb t 1 then p (Cond (c_alt c) (c_mach c) t) * hi_blender t + g t * (1 - hi_blender t) else g t) x).
  { intros f g Cf Cg F0 G1.
    apply (cont_piece f (fun t => if Rltb t (1 / 100) then f t * lo_blender t + p (Cond (c_alt c) (c_mach c) t) * (1 - lo_blender t)
       else if Rltb t (99 / 100) then p (Cond (c_alt c) (c_mach c) t) else if Rltb t 1 then p (Cond (c_alt c) (c_mach c) t) * hi_blender t + g t * (1 - hi_blender t) else g t)); [intro; apply Cf| |].
    - intros _. apply (cont_piece (fun t => f t * lo_blender t + p (Cond (c_alt c) (c_mach c) t) * (1 - lo_blender t))
        (fun t => if Rltb t (99 / 100) then p (Cond (c_alt c) (c_mach c) t) else if Rltb t 1 then p (Cond (c_alt c) (c_mach c) t) * hi_blender t + g t * (1 - hi_blender t) else g t)); [intro; apply LO, Cf| |].
      + intros _. apply (cont_piece (fun t => p (Cond (c_alt c) (c_mach c) t))
          (fun t => if Rltb t 1 then p (Cond (c_alt c) (c_mach c) t) * hi_blender t + g t * (1 - hi_blender t) else g t)); [intro; apply PC| |].
        * intros _. apply (cont_piece (fun t => p (Cond (c_alt c) (c_mach c) t) * hi_blender t + g t * (1 - hi_blender t)) g); [intro; apply HI, Cg | intro; apply Cg|].
          rewrite B3. ring.
        * rewrite (proj2 (Rltb_true (99 / 100) 1)) by lra. rewrite B2. ring.
      + rewrite (proj2 (Rltb_true (1 / 100) (99 / 100))) by lra. rewrite B1. ring.
    - rewrite (proj2 (Rltb_true 0 (1 / 100))) by lra. rewrite B0, F0. ring. }
  split.
  - apply (PIECES (fun t => mn + t * (mx - mn)) (fun t => mx + (t - 1) * (mx - mn))); [intro; cnt | intro; cnt | ring | ring].
  - apply (PIECES (fun _ => mn) (fun _ => mx)); [intro; cnt | intro; cnt | reflexivity | reflexivity].
Qed.

(** *** C203: the deck *)
(** the regression passes through its data *)
Definition passes (fit : kind -> list cond -> list R -> cond -> R) (kd : kind) (xs : list cond) (ys : list R) : Prop :=
  forall i x y, nth_error xs i = Some x -> nth_error ys i = Some y -> fit kd xs ys x = y.
Definition plain (k : deck) : Prop :=
  (k_kind k = Gaussian \/ k_kind k = Knn \/ k_kind k = Linear) /\ k_extended k = false /\ k_thrust_anchor k = None /\ k_sfc_anchor k = None.

Lemma kind_case : forall k, (k_kind k = Gaussian \/ k_kind k = Knn \/ k_kind k = Linear) -> forall A (x y z : A),
  match k_kind k with Svr => x | Other => y | _ => z end = z.
Proof. intros k H A x y z. destruct H as [-> | [-> | ->]]; reflexivity. Qed.
(** where the regression passes through its data, the deck answers each row with its own thrust and the fuel flow of its consumption *)
Theorem C203_rows : forall fit k data b r, plain k -> build fit k data = Ok b -> In r data ->
  let rows := nodup drow_dec data in
  0 < b_thrust b -> 0 < b_sfc b ->
  passes fit (k_kind k) (map (fun r => scaled (b_alt b) (d_at r)) rows) (map (fun r => d_thrust r / b_thrust b) rows) ->
  passes fit (k_kind k) (map (fun r => scaled (b_alt b) (d_at r)) rows) (map (fun r => d_sfc r / b_sfc b) rows) ->
  k_negative k = true \/ 0 < c_thr (d_at r) ->
  evaluate k b (d_at r) = Ok (d_thrust r, d_thrust r * d_sfc r * k_engines k).
Proof.
  intros fit k data b r (K & X & T & S0) B I rows PT PS FT FS N.
  assert (E : exists n, nth_error rows n = Some r) by (apply In_nth_error, nodup_In, I). destruct E as [n E].
  destruct data as [|r0 data0]; [contradiction|]. unfold build in B. fold rows in B.
  assert (B' : b = Built (maxl (map (fun r => c_alt (d_at r)) rows)) (maxl (map d_thrust rows)) (maxl (map d_sfc rows))
     (fit (k_kind k) (map (fun r => scaled (maxl (map (fun r => c_alt (d_at r)) rows)) (d_at r)) rows) (map (fun r => d_thrust r / maxl (map d_thrust rows)) rows))
     (fit (k_kind k) (map (fun r => scaled (maxl (map (fun r => c_alt (d_at r)) rows)) (d_at r)) rows) (map (fun r => d_sfc r / maxl (map d_sfc rows)) rows)) 1 1).
  { cbv zeta in B. rewrite T, S0 in B. destruct K as [K | [K | K]]; rewrite K in *; injection B as B; subst b; reflexivity. }
  unfold evaluate. rewrite X.
  replace (negb (k_negative k) && negb (Rltb 0 (c_thr (d_at r)))) with false
    by (destruct N as [N|N]; [rewrite N; reflexivity | rewrite (proj2 (Rltb_true _ _) N), andb_false_r; reflexivity]).
  assert (PRT : b_pthrust b (scaled (b_alt b) (d_at r)) = d_thrust r / b_thrust b).
  { subst b. cbn [b_pthrust b_alt b_thrust] in *. apply (FT n); rewrite nth_error_map, E; reflexivity. }
  assert (PRS : b_psfc b (scaled (b_alt b) (d_at r)) = d_sfc r / b_sfc b).
  { subst b. cbn [b_psfc b_alt b_sfc] in *. apply (FS n); rewrite nth_error_map, E; reflexivity. }
  rewrite PRT, PRS. replace (b_kthrust b) with 1 by (subst b; reflexivity). replace (b_ksfc b) with 1 by (subst b; reflexivity).
  assert (Z : forall x y, (x, y) = (d_thrust r, d_thrust r * d_sfc r * k_engines k) -> match k_kind k with Svr => Err IndexError | _ => Ok (x, y) end
     = Ok (d_thrust r, d_thrust r * d_sfc r * k_engines k)) by (intros x y Q; destruct K as [K | [K | K]]; rewrite K, Q; reflexivity).
  destruct K as [K | [K | K]]; rewrite K; repeat f_equal; field; lra.
Qed.
(** rows that are there twice do not matter *)
Theorem C203_twice : forall fit k r data, In r data -> build fit k (r :: data) = build fit k data.
Proof.
  intros fit k r data I. unfold build. destruct data as [|x data]; [contradiction|].
  replace (nodup drow_dec (r :: x :: data)) with (nodup drow_dec (x :: data)); [reflexivity|].
  cbn [nodup]. destruct (in_dec drow_dec r (x :: data)) as [_|N]; [reflexivity | contradiction].
Qed.
(** an anchored deck gives the anchored thrust, and consumption, at the anchored condition, unless the prediction there is zero *)
Theorem C203_anchor : forall fit k data b t ct s cs, (k_kind k = Gaussian \/ k_kind k = Knn \/ k_kind k = Linear) -> k_extended k = false ->
  k_thrust_anchor k = Some (t, ct) -> k_sfc_anchor k = Some (s, cs) -> build fit k data = Ok b ->
  b_pthrust b (scaled (b_alt b) ct) * b_thrust b <> 0 -> b_psfc b (scaled (b_alt b) cs) * b_sfc b <> 0 ->
  (0 < c_thr ct -> exists m, evaluate k b ct = Ok (t, m)) /\
  (0 < c_thr cs -> exists f, evaluate k b cs = Ok (f, f * s * k_engines k)).
Proof.
  intros fit k data b t ct s cs K X T S0 B NT NS. unfold build in B. destruct data as [|r0 data]; [discriminate|]. cbv zeta in B. rewrite T, S0 in B.
  assert (KT : b_kthrust b = t / (b_pthrust b (scaled (b_alt b) ct) * b_thrust b)) by (destruct K as [K | [K | K]]; rewrite K in B; injection B as B; subst b; reflexivity).
  assert (KS : b_ksfc b = s / (b_psfc b (scaled (b_alt b) cs) * b_sfc b)) by (destruct K as [K | [K | K]]; rewrite K in B; injection B as B; subst b; reflexivity).
  assert (NZ : forall a c, a * c <> 0 -> a <> 0 /\ c <> 0) by (intros a c Q; split; intro Q'; apply Q; rewrite Q'; ring).
  destruct (NZ _ _ NT) as [N1 N2]. destruct (NZ _ _ NS) as [N3 N4].
  unfold evaluate. rewrite X. split; intro P; rewrite (proj2 (Rltb_true _ _) P), andb_false_r.
  - rewrite KT. eexists. destruct K as [K | [K | K]]; rewrite K; f_equal; apply f_equal2; try reflexivity; field; split; assumption.
  - rewrite KS. eexists. destruct K as [K | [K | K]]; rewrite K; f_equal; apply f_equal2; try reflexivity; f_equal; f_equal; field; split; assumption.
Qed.
(** at or below zero throttle there is neither thrust nor fuel flow, unless negative throttles are asked for *)
Theorem C203_idle : forall k b c, (k_kind k <> Svr \/ k_extended k = true) -> k_negative k = false -> c_thr c <= 0 -> evaluate k b c = Ok (0, 0).
Proof.
  intros k b c K N L. unfold evaluate. rewrite N, (proj2 (Rltb_false _ _) L). simpl. destruct (k_kind k), (k_extended k); try reflexivity.
  destruct K as [K|K]; [contradiction | discriminate].
Qed.
(** the fuel flow is the thrust times the consumption times the number of engines, at every condition *)
Theorem C203_flow : forall k b c t m, evaluate k b c = Ok (t, m) -> exists s, m = t * s * k_engines k.
Proof.
  intros k b c t m E. unfold evaluate in E. destruct (k_kind k), (k_extended k); try discriminate; cbv zeta in E;
    (destruct (negb (k_negative k) && negb (Rltb 0 (c_thr c))); injection E as E1 E2; subst t m; [exists 0; ring | eexists; reflexivity]).
Qed.
(** "twice the engines give twice the thrust" is false: the thrust stays and only the fuel flow is doubled *)
Theorem C203_engines_refuted : forall kd n ng ex ta sa b c t m, evaluate (Deck kd n ng ex ta sa) b c = Ok (t, m) -> evaluate (Deck kd (2 * n) ng ex ta sa) b c = Ok (t, 2 * m).
Proof.
  intros kd n ng ex ta sa b c t m E. unfold evaluate in *. cbn [k_kind k_engines k_negative k_extended] in *.
  destruct kd, ex; try discriminate; cbv zeta in *; destruct (negb ng && negb (Rltb 0 (c_thr c))); injection E as E1 E2; subst t m; f_equal; apply f_equal2; try reflexivity; ring.
Qed.
(** support vector regression cannot be evaluated, and unknown names are refused *)
Theorem C203_kinds : (forall k b c, k_kind k = Svr -> k_extended k = false -> evaluate k b c = Err IndexError) /\
  (forall fit k r data, k_kind k = Other -> build fit k (r :: data) = Err GenericException).
Proof.
  split; [intros k b c K X; unfold evaluate; rewrite K, X; reflexivity|]. intros fit k r data K. unfold build. rewrite K. reflexivity.
Qed.
(** the thrust vector of a rotation is as long as the thrust, and without a rotation it points forwards *)
Theorem C203_vector : forall a b c d e f g h i F, a ^ 2 + d ^ 2 + g ^ 2 = 1 ->
  (let '(x, y, z) := thrust_vector ((a, b, c), (d, e, f), (g, h, i)) F in x ^ 2 + y ^ 2 + z ^ 2 = F ^ 2) /\ thrust_vector ((1, 0, 0), (0, 1, 0), (0, 0, 1)) F = (F, 0, 0).
Proof.
  intros a b c d e f g h i F O. split.
  - cbn [thrust_vector]. transitivity ((a ^ 2 + d ^ 2 + g ^ 2) * F ^ 2); [ring | rewrite O; ring].
  - cbn [thrust_vector]. repeat f_equal; ring.
Qed.
(** with the extended surrogate and no negative throttle the thrust jumps at zero throttle: just above it is near the prediction at zero, at zero it is 0 *)
Theorem C203_jump_refuted : exists k b, k_extended k = true /\ k_negative k = false /\ evaluate k b (Cond 0 0 0) = Ok (0, 0) /\
  forall e, 0 < e -> exists t m, evaluate k b (Cond 0 0 e) = Ok (t, m) /\ t = 1.
Proof.
  exists (Deck Gaussian 1 false true None None), (Built 1 1 1 (fun _ => 1) (fun _ => 1) 1 1). split; [reflexivity|]. split; [reflexivity|]. split.
  - apply C203_idle; [right; reflexivity | reflexivity | simpl; lra].
  - intros e E. unfold evaluate. cbn [k_kind k_extended k_negative c_thr]. rewrite (proj2 (Rltb_true _ _) E). cbn [negb andb].
    do 2 eexists. split; [reflexivity|]. cbn [b_pthrust b_alt b_thrust b_kthrust].
    assert (X : extended_thrust (fun _ => 1) (scaled 1 (Cond 0 0 e)) = 1); [|rewrite X; ring].
    unfold extended_thrust. cbn [scaled c_thr]. cbv zeta.
    destruct (Rltb e 0); [ring|]. destruct (Rltb e (1 / 100)); [ring|]. destruct (Rltb e (99 / 100)); [ring|]. destruct (Rltb e 1); ring.
Qed.
(** a deck of two rows, one of them twice, with the regression that takes the nearest row *)
Definition pick (_ : kind) (xs : list cond) (ys : list R) (c : cond) : R :=
  match find (fun p => if Req_EM_T (c_thr (fst p)) (c_thr c) then true else false) (combine xs ys) with Some p => snd p | None => 0 end.
Definition some_rows : list drow := [DRow (Cond 10 0 (1 / 2)) 40 2; DRow (Cond 10 0 1) 100 3; DRow (Cond 10 0 1) 100 3].
Example C203_rows_case : exists b, build pick (Deck Knn 2 false false None None) some_rows = Ok b /\
  evaluate (Deck Knn 2 false false None None) b (Cond 10 0 (1 / 2)) = Ok (40, 40 * 2 * 2).
Proof.
  eexists. split; [reflexivity|].
  assert (ND : nodup drow_dec some_rows = [DRow (Cond 10 0 (1 / 2)) 40 2; DRow (Cond 10 0 1) 100 3]).
  { unfold some_rows. cbn [nodup]. destruct (in_dec drow_dec _ _) as [I|_]; [exfalso; simpl in I; destruct I as [I|[I|[]]]; injection I; lra|].
    destruct (in_dec drow_dec _ _) as [_|N]; [|exfalso; apply N; left; reflexivity]. destruct (in_dec drow_dec _ _) as [[]|_]. reflexivity. }
  assert (MT : maxl (map d_thrust (nodup drow_dec some_rows)) = 100) by (rewrite ND; simpl; rewrite Rmax_right; lra).
  assert (MS : maxl (map d_sfc (nodup drow_dec some_rows)) = 3) by (rewrite ND; simpl; rewrite Rmax_right; lra).
  apply (C203_rows pick (Deck Knn 2 false false None None) some_rows _ (DRow (Cond 10 0 (1 / 2)) 40 2)).
  - repeat split; simpl; tauto.
  - reflexivity.
  - left. reflexivity.
  - cbn [b_thrust]. rewrite MT. lra.
  - cbn [b_sfc]. rewrite MS. lra.
  - rewrite ND. intros i x y Hx Hy. unfold pick. destruct i as [|[|[|i]]]; simpl in Hx, Hy; try discriminate; injection Hx as Hx; injection Hy as Hy; subst x y; simpl;
      repeat (destruct (Req_EM_T _ _); try (exfalso; lra)); reflexivity.
  - rewrite ND. intros i x y Hx Hy. unfold pick. destruct i as [|[|[|i]]]; simpl in Hx, Hy; try discriminate; injection Hx as Hx; injection Hy as Hy; subst x y; simpl;
      repeat (destruct (Req_EM_T _ _); try (exfalso; lra)); reflexivity.
  - right. simpl. lra.
Qed.
Example C202_case : continuity_pt (fun t => extended_thrust (fun c => c_thr c ^ 2 + 1) (with_thr (Cond 0 0 0) t)) 0 /\
  extended_thrust (fun c => c_thr c ^ 2 + 1) (Cond 0 0 2) = 3.
Proof.
  split.
  - apply (C202_continuous (fun c => c_thr c ^ 2 + 1) (Cond 0 0 0) 0). intro t. cbn [with_thr c_thr]. apply (continuity_pt_plus (fun t => t ^ 2) (fun _ => 1)); [apply (cont_pow (fun t => t) 2), cont_id | apply cont_const].
  - rewrite (proj1 (C202_outside (fun c => c_thr c ^ 2 + 1) (Cond 0 0 2) ltac:(simpl; lra))). unfold line. simpl. ring.
Qed.
Print Assumptions C202_inside.
Print Assumptions C202_outside.
Print Assumptions C202_bands.
Print Assumptions C202_continuous.
Print Assumptions C203_rows.
Print Assumptions C203_twice.
Print Assumptions C203_anchor.
Print Assumptions C203_idle.
Print Assumptions C203_flow.
Print Assumptions C203_engines_refuted.
Print Assumptions C203_kinds.
Print Assumptions C203_vector.
Print Assumptions C203_jump_refuted.
