(** * Proofs about Process.evaluate *)
From Coq Require Import String List Bool.
From Verif Require Import PyBase M_Data P_Dict M_Process S_Process.
Import ListNotations.
Local Open Scope list_scope.

Section Process.
  Context {St R : Type}.
  Notation process := (process St R).
  Notation output := (output R).

  Section Ind.
    Variable P : process -> Prop.
    Hypothesis HS : forall f, P (Step f).
    Hypothesis HP : forall items, Forall (fun it => P (snd it)) items -> P (Proc items).
    Fixpoint process_ind' (p : process) : P p :=
      match p with
      | Step f => HS f
      | Proc items => HP items ((fix go (l : list (string * process)) : Forall (fun it => P (snd it)) l :=
           match l with [] => Forall_nil _ | it :: r => Forall_cons it (process_ind' (snd it)) (go r) end) items)
      end.
  End Ind.

  Fixpoint eval_items (items : list (string * process)) (s : St) (results : dict output)
    : St * result (dict output) :=
    match items with
    | [] => (s, Ok results)
    | (tag, p) :: rest =>
        match evaluate p s with
        | (s', Ok out) => eval_items rest s' (dset tag out results)
        | (s', Err e) => (s', Err e)
        end
    end.
  Lemma evaluate_Proc items s : evaluate (Proc items) s =
    (let '(s', r) := eval_items items s [] in (s', match r with Ok d => Ok (Results d) | Err e => Err e end)).
  Proof.
    cbn [evaluate]. generalize (@nil (string * output)). revert s.
    induction items as [|[tag p] r IH]; intros s acc; cbn [eval_items]; [reflexivity|].
    destruct (evaluate p s) as [s1 [o|e]]; [apply IH|reflexivity].
  Qed.

  Fixpoint steps_items (items : list (string * process)) :=
    match items with
    | [] => []
    | (tag, q) :: rest => map (fun '(path, f) => (tag :: path, f)) (steps q) ++ steps_items rest
    end.
  Lemma steps_Proc items : steps (Proc items) = steps_items items.
  Proof. cbn [steps]. induction items as [|[t q] r IH]; cbn [steps_items]; [reflexivity|]. rewrite <- IH. reflexivity. Qed.
  Fixpoint leaves_items (d : list (string * output)) :=
    match d with
    | [] => []
    | (tag, q) :: rest => map (fun '(path, f) => (tag :: path, f)) (leaves q) ++ leaves_items rest
    end.
  Lemma leaves_Results d : leaves (Results d) = leaves_items d.
  Proof. cbn [leaves]. induction d as [|[t q] r IH]; cbn [leaves_items]; [reflexivity|]. rewrite <- IH. reflexivity. Qed.
  Lemma leaves_items_app a b : leaves_items (a ++ b) = leaves_items a ++ leaves_items b.
  Proof. induction a as [|[t q] r IH]; cbn [leaves_items app]; [reflexivity|]. rewrite IH, app_assoc. reflexivity. Qed.

  Lemma runs_app l1 l2 s s1 s2 o1 o2 : @runs St R l1 s o1 s1 -> runs l2 s1 o2 s2 -> runs (l1 ++ l2) s (o1 ++ o2) s2.
  Proof. induction 1; intros H2; cbn [app]; [exact H2|]. econstructor; eauto. Qed.
  Lemma runs_tag tag l s s1 o : @runs St R l s o s1 ->
    runs (map (fun '(path, f) => (tag :: path, f)) l) s (map (fun '(path, r) => (tag :: path, r)) o) s1.
  Proof. induction 1; cbn [map]; econstructor; eauto. Qed.
  Lemma runs_det l s o1 s1 o2 s2 : @runs St R l s o1 s1 -> runs l s o2 s2 -> o1 = o2 /\ s1 = s2.
  Proof.
    intros H. revert o2 s2. induction H; intros o2 s3 H2; inversion H2; subst; [auto|].
    rewrite H in H8. inversion H8; subst. destruct (IHruns _ _ H9) as [-> ->]. auto.
  Qed.

  Definition eval_spec (p : process) : Prop := forall s,
    match evaluate p s with
    | (s', Ok out) => runs (steps p) s (leaves out) s' /\ mirrors p out
    | (s', Err e) => exists l1 path f l2 outs s1,
        steps p = l1 ++ (path, f) :: l2 /\ runs l1 s outs s1 /\ f s1 = (s', Err e)
    end.

  Lemma eval_items_spec items : Forall (fun it => eval_spec (snd it)) items -> forall s acc,
    NoDup (map fst acc ++ map fst items) ->
    match eval_items items s acc with
    | (s', Ok d) => exists d2, d = acc ++ d2 /\ runs (steps_items items) s (leaves_items d2) s' /\
                    Forall2 (fun it o => fst it = fst o /\ mirrors (snd it) (snd o)) items d2
    | (s', Err e) => exists l1 path f l2 outs s1,
        steps_items items = l1 ++ (path, f) :: l2 /\ runs l1 s outs s1 /\ f s1 = (s', Err e)
    end.
  Proof.
    induction items as [|[tag p] rest IH]; intros Hall s acc Hnd; cbn [eval_items].
    - exists []. rewrite app_nil_r. repeat split; constructor.
    - inversion Hall as [|? ? Hp Hall']; subst. cbn [snd] in Hp. specialize (Hp s).
      destruct (evaluate p s) as [s1 [out|e]].
      + destruct Hp as [Hr Hm].
        assert (Hfresh : ~ In tag (map fst acc)).
        { cbn [map fst] in Hnd. apply NoDup_remove_2 in Hnd. intros Hin. apply Hnd. apply in_or_app. auto. }
        rewrite (dset_new tag out acc Hfresh).
        specialize (IH Hall' s1 (acc ++ [(tag, out)])%list).
        assert (Hnd' : NoDup (map fst (acc ++ [(tag, out)]) ++ map fst rest)).
        { rewrite map_app, <- app_assoc. exact Hnd. }
        specialize (IH Hnd'). destruct (eval_items rest s1 (acc ++ [(tag, out)])) as [s2 [d|e]].
        * destruct IH as (d2 & -> & Hr2 & Hm2). exists ((tag, out) :: d2). rewrite <- app_assoc. split; [reflexivity|].
          split.
          -- cbn [steps_items leaves_items]. eapply runs_app; [apply runs_tag; exact Hr|exact Hr2].
          -- constructor; [split; [reflexivity|exact Hm]|exact Hm2].
        * destruct IH as (l1 & path & f & l2 & outs & s3 & E & Hr2 & Hf).
          cbn [steps_items]. rewrite E.
          exists (map (fun '(path, f) => (tag :: path, f)) (steps p) ++ l1), path, f, l2,
                 (map (fun '(path, r) => (tag :: path, r)) (leaves out) ++ outs), s3.
          rewrite <- app_assoc. split; [reflexivity|]. split; [|exact Hf].
          eapply runs_app; [apply runs_tag; exact Hr|exact Hr2].
      + destruct Hp as (l1 & path & f & l2 & outs & s3 & E & Hr2 & Hf).
        cbn [steps_items]. rewrite E, map_app. cbn [map].
        exists (map (fun '(path, f) => (tag :: path, f)) l1), (tag :: path), f,
          (map (fun '(path, f) => (tag :: path, f)) l2 ++ steps_items rest),
          (map (fun '(path, r) => (tag :: path, r)) outs), s3.
        rewrite <- app_assoc. split; [reflexivity|]. split; [apply runs_tag; exact Hr2|exact Hf].
  Qed.

  Lemma evaluate_spec p : tagged p -> eval_spec p.
  Proof.
    induction p as [f|items IH] using process_ind'; intros Ht s.
    - cbn [evaluate steps]. destruct (f s) as [s1 [r|e]] eqn:E.
      + cbn [leaves]. split; [econstructor; [exact E|constructor]|constructor].
      + exists [], [], f, [], [], s. split; [reflexivity|]. split; [constructor|exact E].
    - inversion Ht as [|? Hnd Hall]; subst.
      assert (Hs : Forall (fun it => eval_spec (snd it)) items).
      { rewrite Forall_forall in *. intros it Hin. apply IH; auto. }
      rewrite evaluate_Proc. pose proof (eval_items_spec items Hs s [] Hnd) as G.
      destruct (eval_items items s []) as [s1 [d|e]].
      + destruct G as (d2 & -> & Hr & Hm). cbn [app]. rewrite steps_Proc, leaves_Results.
        split; [exact Hr|constructor; exact Hm].
      + rewrite steps_Proc. exact G.
  Qed.

  Lemma evaluate_ok (p : process) s s' out : tagged p -> evaluate p s = (s', Ok out) ->
    runs (steps p) s (leaves out) s' /\ mirrors p out.
  Proof. intros Ht H. pose proof (evaluate_spec p Ht s) as G. rewrite H in G. exact G. Qed.
  Lemma evaluate_err (p : process) s s' e : tagged p -> evaluate p s = (s', Err e) ->
    exists l1 path f l2 outs s1,
        steps p = l1 ++ (path, f) :: l2 /\ runs l1 s outs s1 /\ f s1 = (s', Err e).
  Proof. intros Ht H. pose proof (evaluate_spec p Ht s) as G. rewrite H in G. exact G. Qed.
  Lemma runs_no_err l1 path f l2 s outs s1 s' e o s2 : runs l1 s outs s1 -> f s1 = (s', Err e) ->
    @runs St R (l1 ++ (path, f) :: l2) s o s2 -> False.
  Proof.
    intros H. revert o s2. induction H; intros o s3 Hf Hr; cbn [app] in Hr; inversion Hr; subst.
    - congruence.
    - rewrite H in H7. inversion H7; subst. eapply IHruns; eauto.
  Qed.
  Lemma evaluate_complete (p : process) s outs s' : tagged p -> runs (steps p) s outs s' ->
    exists out, evaluate p s = (s', Ok out) /\ leaves out = outs.
  Proof.
    intros Ht Hr. pose proof (evaluate_spec p Ht s) as G. destruct (evaluate p s) as [s1 [out|e]].
    - destruct G as [G _]. destruct (runs_det _ _ _ _ _ _ G Hr) as [E1 E2]. subst. eauto.
    - destruct G as (l1 & path & f & l2 & o & s2 & E & H1 & H2). rewrite E in Hr.
      exfalso. eapply runs_no_err; eauto.
  Qed.
  Lemma runs_prefix_det l1 f1 path1 l1' l2 f2 path2 l2' s o1 s1 o2 s2 e1 e2 sa sb :
    @runs St R l1 s o1 s1 -> f1 s1 = (sa, Err e1) -> runs l2 s o2 s2 -> f2 s2 = (sb, Err e2) ->
    l1 ++ (path1, f1) :: l1' = l2 ++ (path2, f2) :: l2' -> sa = sb /\ e1 = e2.
  Proof.
    intros H. revert l2 o2. induction H; intros l2 o2 Hf1 Hr2 Hf2 E.
    - inversion Hr2; subst; cbn [app] in E; inversion E; subst; [split; congruence|congruence].
    - inversion Hr2; subst; cbn [app] in E; inversion E; subst; [congruence|].
      rewrite H in H1. inversion H1; subst. eapply IHruns; eauto.
  Qed.
  Lemma evaluate_err_complete (p : process) s l1 path f l2 outs s1 s' e : tagged p ->
    steps p = l1 ++ (path, f) :: l2 -> runs l1 s outs s1 -> f s1 = (s', Err e) ->
    evaluate p s = (s', Err e).
  Proof.
    intros Ht E H1 H2. pose proof (evaluate_spec p Ht s) as G. destruct (evaluate p s) as [s2 [out|e2]].
    - destruct G as [G _]. rewrite E in G. exfalso. exact (runs_no_err _ _ _ _ _ _ _ _ _ _ _ H1 H2 G).
    - destruct G as (m1 & path' & f' & m2 & o & s3 & E2 & H3 & H4). rewrite E in E2.
      destruct (runs_prefix_det _ _ _ _ _ _ _ _ _ _ _ _ _ _ _ _ _ H1 H2 H3 H4 E2) as [-> ->]. reflexivity.
  Qed.
End Process.
