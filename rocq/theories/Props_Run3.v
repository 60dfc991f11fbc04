(** C214: containers of analyses.  C215: convergence of a vortex wake. *)
From Coq Require Import Reals List Bool Arith String Lra Lia.
From Verif Require Import PyBase M_Opt P_Opt M_Run3.
Import ListNotations.
Local Open Scope R_scope.

(** * C214 *)
Section Analyses.
Variable World Value : Type.
Notation member := (member World Value).
Notation container := (container World Value).

(** Specification: the members are run one after the other, each from the
    world its predecessors left, all succeed, and [vs] are what they return. *)
Inductive all_run : container -> World -> list (string * Value) -> World -> Prop :=
| run_nil : forall w, all_run [] w [] w
| run_cons : forall tag (a : member) t w v w1 vs w2,
    (match ev_evaluate a, ev_call a with
     | Some f, _ => f w = (w1, Ok v)
     | None, Some f => f w = (w1, Ok v)
     | None, None => False
     end) ->
    all_run t w1 vs w2 ->
    all_run ((tag, a) :: t) w ((tag, v) :: vs) w2.

Lemma run_one_ok (a : member) w w1 v :
  run_one a w = (w1, Ok v) <->
  (match ev_evaluate a, ev_call a with
   | Some f, _ => f w = (w1, Ok v)
   | None, Some f => f w = (w1, Ok v)
   | None, None => False
   end).
Proof.
  unfold run_one. destruct (ev_evaluate a); [tauto|]. destruct (ev_call a); [tauto|].
  split; [discriminate|tauto].
Qed.

Lemma put_new (tag : string) (v : Value) l :
  ~ In tag (map fst l) -> put tag v l = l ++ [(tag, v)].
Proof.
  induction l as [|[k x] t IH]; cbn; intro N; [reflexivity|].
  destruct (String.eqb_spec k tag); [subst; tauto|]. rewrite IH by tauto. reflexivity.
Qed.

Lemma eval_from_len (c : container) : forall acc w w2 r,
  NoDup (map fst acc ++ map fst c) ->
  eval_from acc c w = (w2, Ok r) -> exists vs, r = acc ++ vs /\ List.length vs = List.length c.
Proof.
  induction c as [|[tag a] t IH]; intros acc w w2 r D; cbn.
  - intro E. injection E as _ <-. exists []. now rewrite app_nil_r.
  - destruct (run_one a w) as [w1 [v|e]]; [|discriminate]. intro E.
    assert (N : ~ In tag (map fst acc)).
    { intro I. cbn in D. apply NoDup_remove_2 in D. apply D. apply in_or_app; auto. }
    rewrite put_new in E by exact N.
    apply IH in E. 2:{ rewrite map_app; cbn; rewrite <- app_assoc; exact D. }
    destruct E as (vs & -> & L). exists ((tag, v) :: vs). rewrite <- app_assoc. cbn. auto.
Qed.

Lemma eval_from_spec (c : container) : forall acc w w2 vs,
  NoDup (map fst acc ++ map fst c) ->
  (eval_from acc c w = (w2, Ok (acc ++ vs)) /\ List.length vs = List.length c) <-> all_run c w vs w2.
Proof.
  induction c as [|[tag a] t IH]; intros acc w w2 vs D; cbn.
  - split.
    + intros [E L]. destruct vs; [|discriminate L]. injection E as <-. constructor.
    + intro R. inversion R; subst. rewrite app_nil_r. auto.
  - assert (N : ~ In tag (map fst acc)).
    { intro I. cbn in D. apply NoDup_remove_2 in D. apply D. apply in_or_app; auto. }
    assert (D2 : forall v, NoDup (map fst (acc ++ [(tag, v)]) ++ map fst t)).
    { intro v. rewrite map_app. cbn. rewrite <- app_assoc. exact D. }
    destruct (run_one a w) as [w1 [v|e]] eqn:Q.
    + rewrite put_new by exact N. split.
      * intros [E L]. destruct vs as [|[k x] vs]; [discriminate L|].
        assert (T : exists vs', eval_from (acc ++ [(tag, v)]) t w1 = (w2, Ok ((acc ++ [(tag, v)]) ++ vs'))
                     /\ List.length vs' = List.length t /\ (k, x) :: vs = (tag, v) :: vs').
        { destruct (eval_from_len _ _ _ _ _ (D2 v) E) as (r' & X & L').
          rewrite <- app_assoc in X. apply app_inv_head in X. exists r'. rewrite E.
          rewrite X. rewrite <- app_assoc. cbn. auto. }
        destruct T as (vs' & E' & L' & X). injection X as -> -> ->.
        econstructor; [apply run_one_ok; exact Q|]. apply (IH _ _ _ _ (D2 v)). auto.
      * intro R. inversion R; subst.
        match goal with H : match ev_evaluate a with _ => _ end |- _ => apply run_one_ok in H; rewrite Q in H; injection H as <- <- end.
        match goal with H : all_run t _ _ _ |- _ => apply (IH _ _ _ _ (D2 v)) in H; destruct H as [E L] end.
        rewrite <- app_assoc in E. cbn in E. split; [exact E|cbn; congruence].
    + split; [intros [E _]; discriminate E|]. intro R. inversion R; subst.
      match goal with H : match ev_evaluate a with _ => _ end |- _ => apply run_one_ok in H; rewrite Q in H; discriminate H end.
Qed.

(** Evaluating a container (or calling it) returns exactly when its members
    run one after the other without failing, and the results are theirs, each
    under its member's tag, in the members' order. *)
Theorem C214_evaluate (c : container) w w2 r :
  NoDup (map fst c) ->
  (evaluate c w = (w2, Ok r) <-> all_run c w r w2) /\ call_container c w = evaluate c w.
Proof.
  intro D. split; [|reflexivity]. unfold evaluate. rewrite <- (eval_from_spec c [] w w2 r) by exact D.
  cbn [app]. split; [|tauto]. intro E. split; [exact E|].
  destruct (eval_from_len c [] w w2 r D E) as (vs & X & L). cbn in X. subst. exact L.
Qed.

(** The tags of the results are the members' tags. *)
Theorem C214_tags (c : container) w w2 r :
  NoDup (map fst c) -> evaluate c w = (w2, Ok r) -> map fst r = map fst c.
Proof.
  intros D E. apply (C214_evaluate c w w2 r D) in E. induction E as [|tag a t w v w1 vs w2 H R IH]; cbn; auto.
  rewrite IH; auto. cbn in D. now inversion D.
Qed.

(** The first member that fails ends the evaluation: its exception is what
    the caller sees, and no later member is run. *)
Theorem C214_stop (before after : container) tag (a : member) w w1 w2 vs e :
  NoDup (map fst (before ++ (tag, a) :: after)) ->
  all_run before w vs w1 ->
  (forall f, ev_evaluate a = Some f -> f w1 = (w2, Err e)) ->
  (ev_evaluate a = None -> forall f, ev_call a = Some f -> f w1 = (w2, Err e)) ->
  (ev_evaluate a <> None \/ ev_call a <> None) ->
  evaluate (before ++ (tag, a) :: after) w = (w2, Err e).
Proof.
  intros D R F1 F2 F3. unfold evaluate.
  assert (G : forall acc, eval_from acc (before ++ (tag, a) :: after) w = (w2, Err e)); [|apply G].
  clear D. induction R as [w|k b t w v w1' vs w2' H R IH]; intro acc; cbn.
  - assert (Q : run_one a w = (w2, Err e)); [|rewrite Q; reflexivity].
    unfold run_one. destruct (ev_evaluate a) as [f|]; [apply F1; auto|].
    destruct (ev_call a) as [f|]; [apply F2; auto|]. destruct F3; congruence.
  - apply run_one_ok in H. rewrite H. apply IH; auto.
Qed.

(** Compiling and finalizing reach every member that has the method, in
    order, and pass over the others. *)
Inductive each_run (m : member -> option (call World unit)) : container -> World -> World -> Prop :=
| er_nil : forall w, each_run m [] w w
| er_skip : forall tag a t w w2, m a = None -> each_run m t w w2 -> each_run m ((tag, a) :: t) w w2
| er_run : forall tag a t f w w1 w2, m a = Some f -> f w = (w1, Ok tt) -> each_run m t w1 w2 ->
    each_run m ((tag, a) :: t) w w2.

Theorem C214_compile (c : container) w w2 :
  (compile c w = (w2, Ok tt) <-> each_run (fun a => ev_compile a) c w w2) /\
  (finalize c w = (w2, Ok tt) <-> each_run (fun a => ev_finalize a) c w w2).
Proof.
  assert (G : forall m, each m c w = (w2, Ok tt) <-> each_run m c w w2); [|split; apply G].
  intro m. revert w. induction c as [|[tag a] t IH]; intro w; cbn.
  - split; [intro E; injection E as <-; constructor|intro R; inversion R; reflexivity].
  - destruct (m a) as [f|] eqn:Q.
    + destruct (f w) as [w1 [[]|e]] eqn:F.
      * rewrite IH. split; [intro R; eapply er_run; eauto|].
        intro R. inversion R; subst; [congruence|]. assert (f0 = f) by congruence. subst.
        rewrite F in *. match goal with H : (_, _) = (_, _) |- _ => injection H as <- end. assumption.
      * split; [discriminate|]. intro R. inversion R; subst; [congruence|].
        assert (f0 = f) by congruence. subst. rewrite F in *. discriminate.
    + rewrite IH. split; [intro R; now apply er_skip|]. intro R. inversion R; subst; [assumption|congruence].
Qed.

(** Initializing fails for every container, even an empty one, and runs none
    of its members (Analysis.py 217: [self.items] is not called). *)
Theorem C214_initialize_refuted (c : container) w :
  initialize c w = (w, Err TypeError).
Proof. reflexivity. Qed.
End Analyses.

Local Open Scope string_scope.
Definition counter (k : nat) : member nat nat :=
  mk_member (Some (fun w => (w + k, Ok tt)%nat)) None (Some (fun w => (w + k, Ok w)%nat)) None None.
Example C214_case :
  evaluate [("aerodynamics", counter 2); ("weights", counter 3)] 10%nat
  = (15%nat, Ok [("aerodynamics", 10%nat); ("weights", 12%nat)]) /\
  evaluate [("aerodynamics", counter 2); ("base", plain); ("weights", counter 3)] 10%nat
  = (12%nat, Err GenericException) /\
  compile [("aerodynamics", counter 2); ("weights", counter 3)] 10%nat = (15%nat, Ok tt) /\
  finalize [("aerodynamics", counter 2); ("weights", counter 3)] 10%nat = (10%nat, Ok tt).
Proof. repeat split. Qed.

Local Close Scope string_scope.

(** * C215 *)
Section Wake.
Variable Wake : Type.
Variable shape : Wake -> list num -> Wake.
Variable inflow : Wake -> list num * list num.
Variable loss : list num -> list num -> list num.
Notation one_round := (one_round shape inflow loss).
Notation spin := (spin shape inflow loss).
Notation converge := (converge shape inflow loss).

(** The velocities, with tip loss, that the wake shaped by [disc] induces. *)
Definition induced (w : Wake) (disc : list num) : list num :=
  let (va, vt) := inflow (shape w disc) in map2 nmul (loss va vt) va.

(** Specification: [n] passes from ([w],[d]), the disc velocity of each being
    what the previous wake induces; [diffs] are the changes. *)
Inductive passes : nat -> Wake -> list num -> list (Wake * list num * num) -> Prop :=
| ps_nil : forall w d, passes 0 w d []
| ps_cons : forall n w d w1 d1 x rest,
    w1 = shape w d -> d1 = induced w d ->
    nmax (map2 ndist d1 d) = Ok x ->
    passes n w1 d1 rest ->
    passes (S n) w d ((w1, d1, x) :: rest).

Lemma one_round_ok w d o : one_round w d = Ok o ->
  o_wake o = shape w d /\ o_disc o = induced w d /\
  inflow (o_wake o) = (o_va o, o_vt o) /\ nmax (map2 ndist (o_disc o) d) = Ok (o_diff o).
Proof.
  unfold M_Run3.one_round, induced. destruct (inflow (shape w d)) as [va vt] eqn:I.
  destruct (nmax _) as [x|e] eqn:N; [|discriminate]. intro E. injection E as <-. cbn. auto.
Qed.

(** What the loop has done when it ends: every change but the last is above
    the tolerance, and the last is not, or the limit is reached. *)
Lemma spin_spec fuel : forall ii_max ii tol diff w d last w2 d2 last2 n,
  (ii < max 1 ii_max)%nat -> ngt diff tol = true ->
  spin fuel ii_max ii tol diff w d last = Some (Ok (w2, d2, last2, n)) ->
  exists k hist x, passes (S k) w d (hist ++ [(w2, d2, x)]) /\ n = (ii + S k)%nat /\
    (n <= max 1 ii_max)%nat /\
    (forall h, In h hist -> ngt (snd h) tol = true) /\
    (ngt x tol = false \/ n = max 1 ii_max) /\
    last2 = Some (inflow w2).
Proof.
  induction fuel as [|k IH]; intros ii_max ii tol diff w d last w2 d2 last2 n B G; cbn [M_Run3.spin]; rewrite G; [discriminate|].
  destruct (one_round w d) as [o|e] eqn:O; [|discriminate].
  pose proof (one_round_ok _ _ _ O) as (Q1 & Q2 & Q3 & Q4). cbv zeta.
  destruct (Nat.leb_spec ii_max (S ii)) as [L|L]; cbn [andb].
  - assert (N : (S ii = max 1 ii_max)%nat) by lia.
    destruct (ngt (o_diff o) tol) eqn:T.
    + intro E. injection E as <- <- <- <-. exists 0%nat, [], (o_diff o).
      cbn [app]. refine (conj _ (conj _ (conj _ (conj _ (conj _ _))))); [|lia|lia| | |].
      * econstructor; eauto. constructor.
      * intros h [].
      * right; lia.
      * rewrite Q3; reflexivity.
    + assert (S0 : spin k ii_max (S ii) tol (o_diff o) (o_wake o) (o_disc o) (Some (o_va o, o_vt o))
               = Some (Ok (o_wake o, o_disc o, Some (o_va o, o_vt o), S ii))).
      { destruct k; cbn; rewrite T; reflexivity. }
      rewrite S0. intro E. injection E as <- <- <- <-. exists 0%nat, [], (o_diff o).
      cbn [app]. refine (conj _ (conj _ (conj _ (conj _ (conj _ _))))); [|lia|lia| | |].
      * econstructor; eauto. constructor.
      * intros h [].
      * left; exact T.
      * rewrite Q3; reflexivity.
  - destruct (ngt (o_diff o) tol) eqn:T.
    + intro E. apply IH in E; [|lia|exact T].
      destruct E as (k' & hist & x & P & N & B2 & A & C & La).
      exists (S k'), ((o_wake o, o_disc o, o_diff o) :: hist), x. cbn [app].
      repeat split; try lia; auto.
      * econstructor; eauto.
      * intros h [<-|I]; [exact T|apply A; exact I].
    + assert (S0 : spin k ii_max (S ii) tol (o_diff o) (o_wake o) (o_disc o) (Some (o_va o, o_vt o))
               = Some (Ok (o_wake o, o_disc o, Some (o_va o, o_vt o), S ii))).
      { destruct k; cbn; rewrite T; reflexivity. }
      rewrite S0. intro E. injection E as <- <- <- <-. exists 0%nat, [], (o_diff o).
      cbn [app]. refine (conj _ (conj _ (conj _ (conj _ (conj _ _))))); [|lia|lia| | |].
      * econstructor; eauto. constructor.
      * intros h [].
      * left; exact T.
      * rewrite Q3; reflexivity.
Qed.

Lemma spin_ends fuel : forall ii_max ii tol diff w d last,
  (max 1 ii_max - ii <= fuel)%nat -> (ii < max 1 ii_max)%nat ->
  spin fuel ii_max ii tol diff w d last <> None.
Proof.
  induction fuel as [|k IH]; intros ii_max ii tol diff w d last B C; cbn.
  - lia.
  - destruct (ngt diff tol); [|discriminate]. destruct (one_round w d) as [o|e]; [|discriminate].
    cbv zeta. destruct (Nat.leb_spec ii_max (S ii)) as [L|L]; cbn [andb].
    + destruct (ngt (o_diff o) tol) eqn:T; [discriminate|]. destruct k; cbn; rewrite T; discriminate.
    + apply IH; lia.
Qed.

Definition limit (semi : bool) (max_iteration : nat) : nat :=
  if semi then max 1 max_iteration else 1%nat.
Lemma limit_eq (semi : bool) (m : nat) : (max 1 (if semi then m else 1) = limit semi m)%nat.
Proof. destruct semi; reflexivity. Qed.

(** The iteration always ends, whatever the wake does, within the maximum
    number of passes (one for a prescribed wake). *)
Theorem C215_ends semi m tol w d fuel :
  (limit semi m <= fuel)%nat -> converge fuel semi m tol w d <> None.
Proof.
  intro B. unfold M_Run3.converge.
  destruct (spin fuel (if semi then m else 1%nat) 0 tol (Some 1) w d None) as [[r|e]|] eqn:E; try discriminate.
  - destruct r as [[[w1 d1] [[va vt]|]] n]; discriminate.
  - exfalso. revert E. apply spin_ends; rewrite limit_eq; unfold limit in *; destruct semi; lia.
Qed.

Lemma gt1 tol : tol < 1 -> ngt (Some 1) tol = true.
Proof. intro H. cbn. apply Rltb_true. exact H. Qed.

(** When it returns: the disc velocity of every pass is what the wake shaped by
    the one before induces, every change but the last exceeded the tolerance,
    and the last did not or the limit was reached.  The velocities returned are
    those of the last pass, and the wake returned is shaped by the last disc
    velocity. *)
Theorem C215_result semi m tol w d fuel w2 d2 va vt n :
  tol < 1 ->
  converge fuel semi m tol w d = Some (Ok (w2, d2, va, vt, n)) ->
  exists w1 hist x,
    passes n w d (hist ++ [(w1, d2, x)]) /\ (1 <= n <= limit semi m)%nat /\
    (forall h, In h hist -> ngt (snd h) tol = true) /\
    (ngt x tol = false \/ n = limit semi m) /\
    inflow w1 = (va, vt) /\ w2 = shape w1 d2.
Proof.
  intros T. unfold M_Run3.converge.
  destruct (spin fuel (if semi then m else 1%nat) 0 tol (Some 1) w d None) as [[[[[w1 d1] last] k]|e]|] eqn:E; try discriminate.
  apply spin_spec in E; [|destruct semi; lia|apply gt1; exact T].
  destruct E as (k' & hist & x & P & N & B & A & C & L). rewrite limit_eq in B, C.
  destruct last as [[va' vt']|]; [|discriminate]. intro X. injection X as <- <- <- <- <-.
  exists w1, hist, x. cbn in N. subst k. repeat split; auto; try lia. congruence.
Qed.

(** A prescribed wake takes exactly one pass. *)
Theorem C215_prescribed m tol w d fuel w2 d2 va vt n :
  tol < 1 -> converge fuel false m tol w d = Some (Ok (w2, d2, va, vt, n)) ->
  n = 1%nat /\ d2 = induced w d /\ w2 = shape (shape w d) (induced w d).
Proof.
  intros T E. apply C215_result in E; [|exact T].
  destruct E as (w1 & hist & x & P & B & _ & _ & I & ->). cbn in B. assert (n = 1)%nat by lia. subst n.
  inversion P as [|n0 w0 d0 w1' d1' x' rest Q1 Q2 Q3 R]; subst.
  assert (rest = []) by (inversion R; reflexivity). subst rest.
  destruct hist as [|h [|]]; try discriminate. cbn in *.
  match goal with H : [_] = [_] |- _ => injection H as <- <- <- end. auto.
Qed.

Lemma fold_max_none l : fold_left nmax2 l None = None.
Proof. induction l; cbn; auto. Qed.
Lemma fold_max_bound l : forall a v, fold_left nmax2 l (Some a) = Some v ->
  a <= v /\ Forall (fun q => exists y, q = Some y /\ y <= v) l.
Proof.
  induction l as [|q t IH]; cbn; intros a v E.
  - injection E as <-. split; [lra|constructor].
  - destruct q as [y|]; cbn in E; [|rewrite fold_max_none in E; discriminate].
    apply IH in E. destruct E as [E F].
    pose proof (Rmax_l a y). pose proof (Rmax_r a y). split; [lra|]. constructor; [exists y; split; auto; lra|exact F].
Qed.

(** Converged means converged everywhere: if the last change is a number not
    above the tolerance, the velocities at every station changed by at most
    the tolerance in the last pass. *)
Theorem C215_everywhere (new old : list num) x tol :
  nmax (map2 ndist new old) = Ok (Some x) -> ngt (Some x) tol = false ->
  forall i a b, nth_error new i = Some a -> nth_error old i = Some b ->
  exists u v, a = Some u /\ b = Some v /\ Rabs (u - v) <= tol.
Proof.
  intros N G i a b Ha Hb. cbn in G. apply Rltb_false in G.
  assert (F : Forall (fun q => exists y, q = Some y /\ y <= x) (map2 ndist new old)).
  { destruct (map2 ndist new old) as [|q t]; [constructor|]. cbn in N. injection N as N.
    destruct q as [y|]; [|rewrite fold_max_none in N; discriminate].
    apply fold_max_bound in N. destruct N as [N1 N2]. constructor; eauto. }
  clear N. revert new old F Ha Hb. induction i as [|i IH]; intros [|p new] [|q old] F Ha Hb; cbn in *; try discriminate.
  - injection Ha as ->. injection Hb as ->. inversion F as [|? ? (y & E & L) _]; subst.
    destruct a as [u|], b as [v|]; cbn in E; try discriminate. injection E as <-. exists u, v. repeat split; auto. lra.
  - inversion F; subst. eapply IH; eauto.
Qed.

(** The disc velocity at a station is the velocity induced there times the tip
    loss factor, and their change is the distance between numbers. *)
Theorem C215_loss w d i va vt f v :
  inflow (shape w d) = (va, vt) ->
  nth_error (loss va vt) i = Some (Some f) -> nth_error va i = Some (Some v) ->
  nth_error (induced w d) i = Some (Some (f * v)).
Proof.
  intros I Hf Hv. unfold induced. rewrite I. clear I. revert Hf Hv. generalize (loss va vt). revert va.
  induction i as [|i IH]; intros [|a va] [|b l] Hf Hv; cbn in *; try discriminate.
  - injection Hf as ->. injection Hv as ->. reflexivity.
  - apply IH; assumption.
Qed.

(** A tolerance of one metre per second or more: the loop is never entered and
    the call fails, for every rotor, since the first change is put at 1. *)
Theorem C215_tolerance_refuted semi m tol w d fuel :
  1 <= tol -> converge fuel semi m tol w d = Some (Err UnboundLocalError).
Proof.
  intro T. unfold M_Run3.converge.
  assert (G : ngt (Some 1) tol = false) by (cbn; apply Rltb_false; lra).
  assert (E : spin fuel (if semi then m else 1%nat) 0 tol (Some 1) w d None = Some (Ok (w, d, None, 0%nat))).
  { destruct fuel; cbn -[ngt]; rewrite G; reflexivity. }
  rewrite E. reflexivity.
Qed.

Lemma nmax_none l : In None l -> nmax l = Ok None.
Proof.
  destruct l as [|a t]; [intros []|]. intros [->|I]; cbn.
  - now rewrite fold_max_none.
  - f_equal. revert a. induction t as [|q t IH]; intro a; [destruct I|]. destruct I as [->|I]; cbn.
    + destruct a; cbn; apply fold_max_none.
    + apply IH; exact I.
Qed.

(** If the wake induces nan anywhere, the iteration takes it for converged: it
    stops at that pass, whatever the limit, and returns. *)
Theorem C215_nan_refuted m tol w d k :
  tol < 1 -> In None (map2 ndist (induced w d) d) ->
  exists va vt, inflow (shape w d) = (va, vt) /\
  converge (S k) true m tol w d
  = Some (Ok (shape (shape w d) (induced w d), induced w d, va, vt, 1%nat)).
Proof.
  intros T I. destruct (inflow (shape w d)) as [va vt] eqn:F. exists va, vt. split; [reflexivity|].
  assert (O : one_round w d = Ok (mk_round (shape w d) (induced w d) va vt None)).
  { unfold M_Run3.one_round. apply nmax_none in I. unfold induced in *. rewrite F in *. rewrite I. reflexivity. }
  unfold M_Run3.converge.
  assert (E : spin (S k) m 0 tol (Some 1) w d None = Some (Ok (shape w d, induced w d, Some (va, vt), 1%nat))).
  { cbn -[ngt]. rewrite (gt1 _ T), O. cbn -[ngt Nat.leb]. cbn [ngt]. rewrite andb_false_r. destruct k; reflexivity. }
  rewrite E. reflexivity.
Qed.
End Wake.

Lemma spin_S Wake shape inflow loss k ii_max ii tol diff (w : Wake) d last :
  spin shape inflow loss (S k) ii_max ii tol diff w d last =
  if ngt diff tol then
    match one_round shape inflow loss w d with
    | Err e => Some (Err e)
    | Ok o =>
        if Nat.leb ii_max (S ii) && ngt (o_diff o) tol
        then Some (Ok (o_wake o, o_disc o, Some (o_va o, o_vt o), S ii))
        else spin shape inflow loss k ii_max (S ii) tol (o_diff o) (o_wake o) (o_disc o) (Some (o_va o, o_vt o))
    end
  else Some (Ok (w, d, last, ii)).
Proof. reflexivity. Qed.

(** A wake that induces half the disc velocity plus one: from 0 the changes
    are 1 and 1/2, and 1/2 is within the tolerance. *)
Definition half_inflow (w : list num) : list num * list num :=
  (map (fun a => match a with Some x => Some (x / 2 + 1) | None => None end) w, w).
Example C215_case :
  exists w2 d2 va vt,
  converge (fun _ d => d) half_inflow (fun va _ => map (fun _ => Some 1) va) 10 true 10 (1 / 2) [] [Some 0]
  = Some (Ok (w2, d2, va, vt, 2%nat)) /\ d2 = [Some (1 * ((1 * (0 / 2 + 1)) / 2 + 1))].
Proof.
  assert (A : ngt (Some (Rabs (1 * (0 / 2 + 1) - 0))) (1 / 2) = true).
  { cbn. apply Rltb_true. replace (1 * (0 / 2 + 1) - 0) with 1 by field. rewrite Rabs_R1. lra. }
  assert (B : ngt (Some (Rabs (1 * (1 * (0 / 2 + 1) / 2 + 1) - 1 * (0 / 2 + 1)))) (1 / 2) = false).
  { cbn. apply Rltb_false. replace (1 * (1 * (0 / 2 + 1) / 2 + 1) - 1 * (0 / 2 + 1)) with (1 / 2) by field.
    rewrite Rabs_right by lra. lra. }
  do 4 eexists. split; [|reflexivity]. unfold converge.
  rewrite spin_S, (gt1 (1 / 2)) by lra. unfold one_round at 1.
  cbn [half_inflow map map2 nmul ndist nmax fold_left o_diff o_wake o_disc o_va o_vt].
  rewrite A. cbn [Nat.leb andb].
  rewrite spin_S, A. unfold one_round at 1.
  cbn [half_inflow map map2 nmul ndist nmax fold_left o_diff o_wake o_disc o_va o_vt].
  rewrite B. cbn [Nat.leb andb].
  rewrite spin_S, B. reflexivity.
Qed.

Print Assumptions C214_evaluate.
Print Assumptions C214_tags.
Print Assumptions C214_stop.
Print Assumptions C214_compile.
Print Assumptions C214_initialize_refuted.
Print Assumptions C215_ends.
Print Assumptions C215_result.
Print Assumptions C215_prescribed.
Print Assumptions C215_everywhere.
Print Assumptions C215_loss.
Print Assumptions C215_tolerance_refuted.
Print Assumptions C215_nan_refuted.
