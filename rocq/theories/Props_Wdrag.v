(** * Wave drag with OpenVSP and its file of results: property C210 *)
From Coq Require Import Reals ZArith Lra Bool List.
From Verif Require Import PyBase M_Opt P_Opt M_Wdrag.
Import ListNotations.
Local Open Scope R_scope.

(** what a drag coefficient at a Mach number should be: none below 1.05; OpenVSP's answer otherwise, at 1.05 with the default numbers of slices and rotations *)
Definition right (vsp : setting -> R -> option R) (area : R) (st : setting) (M c : R) : Prop :=
  (M < 105 / 100 /\ c = 0) \/ (exists a, M = 105 / 100 /\ vsp defaults M = Some a /\ c = a * 100 / area) \/ (exists a, 105 / 100 < M /\ vsp st M = Some a /\ c = a * 100 / area).

Lemma filter_none M : forall l : rows, ~ In M (map fst l) -> filter (fun r => Reqb (fst r) M) l = [].
Proof. induction l as [|[a b] l IH]; cbn; intro N; [reflexivity|]. unfold Reqb at 1. destruct (Req_EM_T a M); [exfalso; apply N; left; assumption|]. apply IH. tauto. Qed.
Lemma lookup_in M c : forall l : rows, NoDup (map fst l) -> In (M, c) l -> lookup M l = Ok (Some c).
Proof.
  intros l N I. unfold lookup. assert (F : filter (fun r => Reqb (fst r) M) l = [(M, c)]); [|rewrite F; reflexivity]. induction l as [|[a b] l IH]; [destruct I|]. cbn in *. inversion N as [|x y N1 N2]; subst. destruct I as [I|I].
  - inversion I; subst. unfold Reqb at 1. destruct (Req_EM_T M M); [|congruence]. rewrite filter_none by exact N1. reflexivity.
  - unfold Reqb at 1. destruct (Req_EM_T a M) as [E|E]; [subst; exfalso; apply N1; apply (in_map fst _ _ I)|]. apply IH; assumption.
Qed.
Lemma lookup_out M l : ~ In M (map fst l) -> lookup M l = Ok None.
Proof. intro N. unfold lookup. rewrite filter_none by exact N. reflexivity. Qed.
Lemma in_dec_R M (l : rows) : In M (map fst l) \/ ~ In M (map fst l).
Proof. destruct (in_dec Req_EM_T M (map fst l)); tauto. Qed.
Lemma nodup_snoc (l : list R) a : NoDup l -> ~ In a l -> NoDup (l ++ [a]).
Proof.
  induction l as [|b l IH]; cbn; intros N I; [constructor; [tauto|constructor]|]. inversion N; subst. constructor; [|apply IH; tauto]. intro Q. apply in_app_or in Q. destruct Q as [Q|[Q|[]]]; [contradiction|subst; tauto].
Qed.
Section P.
Variable vsp : setting -> R -> option R.
Variable area : R.
Variable st : setting.
Definition good (f : file) : Prop :=
  match f with
  | None => True
  | Some l => NoDup (map fst l) /\ In (105 / 100) (map fst l) /\ Forall (fun r => 105 / 100 <= fst r /\ right vsp area st (fst r) (snd r)) l
  end.
Lemma one_good f M : good f -> good (fst (one vsp area st f M)) /\ (forall c, snd (one vsp area st f M) = Ok c -> right vsp area st M c) /\
  (forall l, f = Some l -> exists x, fst (one vsp area st f M) = Some (l ++ x)) /\
  (forall c l, snd (one vsp area st f M) = Ok c -> fst (one vsp area st f M) = Some l -> ~ M < 105 / 100 -> In (M, c) l) /\
  (forall e, snd (one vsp area st f M) = Err e -> fst (one vsp area st f M) = f).
Proof.
  intro G. unfold one. destruct (Rltb M (105 / 100)) eqn:L.
  { apply Rltb_true in L. cbn. split; [exact G|]. split; [intros c H; inversion H; subst; left; split; [exact L|reflexivity]|]. split; [intros l E; exists []; rewrite app_nil_r; exact E|]. split; [intros c l _ _ H; contradiction|intros e H; discriminate]. }
  apply Rltb_false in L. destruct f as [l|]; cbn [fst snd].
  2:{ split; [exact I|]. split; [intros c H; discriminate|]. split; [intros l E; discriminate|]. split; [intros c l H; discriminate|intros; reflexivity]. }
  destruct G as [N [J F]]. destruct (in_dec_R M l) as [Q|Q].
  - apply in_map_iff in Q. destruct Q as [[a c] [E Q]]. cbn in E. subst a. rewrite (lookup_in M c l N Q). cbn [fst snd]. split; [repeat split; assumption|]. split.
    { intros c' H. inversion H; subst. rewrite Forall_forall in F. apply (F (M, c') Q). }
    split; [intros l0 E; inversion E; subst; exists []; rewrite app_nil_r; reflexivity|]. split; [intros c' l' H E _; inversion H; inversion E; subst; exact Q|intros e H; discriminate].
  - rewrite (lookup_out M l Q). assert (NE : M <> 105 / 100) by (intro E; subst; contradiction). unfold drag. destruct (vsp st M) as [a|] eqn:V; cbn [fst snd].
    + assert (RI : right vsp area st M (a * 100 / area)) by (right; right; exists a; repeat split; [lra|exact V]). split.
      { cbn. rewrite map_app. cbn. split; [apply nodup_snoc; assumption|]. split; [apply in_or_app; left; exact J|]. apply Forall_app. split; [exact F|]. constructor; [|constructor]. cbn. split; [lra|exact RI]. }
      split; [intros c H; inversion H; subst; exact RI|]. split; [intros l0 E; inversion E; subst; eexists; reflexivity|].
      split; [intros c l' H E _; inversion H; inversion E; subst; apply in_or_app; right; left; reflexivity|intros e H; discriminate].
    + split; [cbn; repeat split; assumption|]. split; [intros c H; discriminate|]. split; [intros l0 E; inversion E; subst; exists []; rewrite app_nil_r; reflexivity|]. split; [intros c l' H; discriminate|intros; reflexivity].
Qed.
Lemma volume_good : forall Ms f, good f -> good (fst (volume vsp area st f Ms)).
Proof.
  induction Ms as [|M Ms IH]; intros f G; [exact G|]. cbn. destruct (one_good f M G) as [G1 _]. destruct (one vsp area st f M) as [f1 [c|e]]; [|exact G1]. cbn in G1. pose proof (IH f1 G1) as G2. destruct (volume vsp area st f1 Ms) as [f2 t]. exact G2.
Qed.
Lemma at_105_good f : good f -> good (fst (at_105 vsp area f)).
Proof.
  intro G. unfold at_105. destruct f as [l|].
  - destruct (lookup _ l) as [[c|]|e]; try exact G. destruct (drag vsp area defaults _); exact G.
  - rewrite lookup_out by (cbn; intros [E|[]]; lra). unfold drag. destruct (vsp defaults (105 / 100)) as [a|] eqn:V; [|exact I]. cbn. split; [constructor; [tauto|constructor]|]. split; [left; reflexivity|].
    constructor; [|constructor]. cbn. split; [lra|]. right; left. exists a. repeat split. exact V.
Qed.
Lemma history_good : forall os f, good f -> good (history vsp area st f os).
Proof.
  induction os as [|o os IH]; intros f G; [exact G|]. cbn [history]. apply IH. destruct o; cbn [step].
  - exact I.
  - unfold total. pose proof (at_105_good f G) as A. destruct (at_105 vsp area f) as [f' r]. exact A.
  - apply volume_good. exact G.
Qed.
Lemma volume_right : forall Ms f f' cs, good f -> volume vsp area st f Ms = (f', Ok cs) -> Forall2 (right vsp area st) Ms cs.
Proof.
  induction Ms as [|M Ms IH]; intros f f' cs G H; cbn in H; [inversion H; subst; constructor|]. destruct (one_good f M G) as [G1 [V _]]. destruct (one vsp area st f M) as [f1 [c|e]]; [|discriminate]. cbn in G1, V.
  destruct (volume vsp area st f1 Ms) as [f2 t] eqn:E. destruct t as [t|]; cbn in H; inversion H; subst. constructor; [apply V; reflexivity|]. exact (IH f1 f' t G1 E).
Qed.
Lemma volume_grows : forall Ms f f' r l, good f -> volume vsp area st f Ms = (f', r) -> f = Some l -> exists x, f' = Some (l ++ x).
Proof.
  induction Ms as [|M Ms IH]; intros f f' r l G H E; cbn in H; [inversion H; subst; exists []; rewrite app_nil_r; reflexivity|]. destruct (one_good f M G) as [G1 [_ [X _]]]. destruct (X l E) as [x1 E1]. destruct (one vsp area st f M) as [f1 [c|e]]; cbn in *.
  - destruct (volume vsp area st f1 Ms) as [f2 t] eqn:Q. inversion H; subst. destruct (IH _ _ _ _ G1 Q eq_refl) as [x2 E2]. exists (x1 ++ x2). rewrite app_assoc. exact E2.
  - inversion H; subst. exists x1. reflexivity.
Qed.
Lemma volume_stored : forall Ms f f' cs, good f -> volume vsp area st f Ms = (f', Ok cs) -> Forall2 (fun M c => (M < 105 / 100 /\ c = 0) \/ (~ M < 105 / 100 /\ exists l, f' = Some l /\ In (M, c) l)) Ms cs.
Proof.
  induction Ms as [|M Ms IH]; intros f f' cs G H; cbn in H; [inversion H; subst; constructor|]. destruct (one_good f M G) as [G1 [V [_ [S _]]]]. destruct (one vsp area st f M) as [f1 [c|e]] eqn:O; [|discriminate]. cbn in G1, S, V.
  destruct (volume vsp area st f1 Ms) as [f2 t] eqn:E. destruct t as [t|]; cbn in H; inversion H; subst. constructor; [|exact (IH f1 f' t G1 E)].
  destruct (Rlt_or_le M (105 / 100)) as [L|L]; [left; split; [exact L|]|].
  - destruct (V c eq_refl) as [[_ Q]|[[a [Q _]]|[a [Q _]]]]; [exact Q|lra|lra].
  - right. split; [lra|]. destruct f1 as [l1|]; [|unfold one in O; replace (Rltb M (105 / 100)) with false in O by (symmetry; apply Rltb_false; lra); destruct f; [destruct (lookup M r) as [[?|]|]; try discriminate O; destruct (drag vsp area st M); discriminate O|discriminate O]].
    destruct (volume_grows Ms (Some l1) f' _ l1 G1 E eq_refl) as [x Q]. exists (l1 ++ x). split; [exact Q|]. apply in_or_app. left. apply (S c l1 eq_refl eq_refl). lra.
Qed.
End P.

(** whatever has been done before, the drag is right at each Mach number *)
Theorem C210_values : forall vsp area st os Ms f cs, volume vsp area st (history vsp area st None os) Ms = (f, Ok cs) -> Forall2 (right vsp area st) Ms cs.
Proof. intros vsp area st os Ms f cs H. refine (volume_right vsp area st Ms _ f cs _ H). apply history_good. exact I. Qed.
(** a Mach number once answered is answered the same from the file, without asking OpenVSP again, until the analysis begins anew *)
Theorem C210_cached : forall vsp area st os Ms f cs, volume vsp area st (history vsp area st None os) Ms = (f, Ok cs) -> forall vsp' area' st', volume vsp' area' st' f Ms = (f, Ok cs).
Proof.
  intros vsp area st os Ms f cs H vsp' area' st'. assert (G : good vsp area st (history vsp area st None os)) by (apply history_good; exact I). assert (G' : good vsp area st f) by (pose proof (volume_good vsp area st Ms _ G) as Q; rewrite H in Q; exact Q).
  pose proof (volume_stored vsp area st Ms _ f cs G H) as S. clear H. induction S as [|M c Ms cs S1 S2 IH]; [reflexivity|]. cbn. unfold one. destruct S1 as [[L E]|[L [l [E J]]]].
  - replace (Rltb M (105 / 100)) with true by (symmetry; apply Rltb_true; exact L). rewrite IH, E. reflexivity.
  - replace (Rltb M (105 / 100)) with false by (symmetry; apply Rltb_false; lra). rewrite E in G' |- *. destruct G' as [N _]. rewrite (lookup_in M c l N J). rewrite <- E, IH. reflexivity.
Qed.
(** with a file, a call fails only if OpenVSP does; without, always if a Mach number is 1.05 or more *)
Theorem C210_succeeds : forall vsp area st os Ms,
  (forall l, history vsp area st None os = Some l -> (forall M, In M Ms -> 105 / 100 < M -> vsp st M <> None) -> exists f cs, volume vsp area st (Some l) Ms = (f, Ok cs)) /\
  (history vsp area st None os = None -> (forall M, In M Ms -> M < 105 / 100) \/ volume vsp area st None Ms = (None, Err GenericException)).
Proof.
  intros vsp area st os Ms. split.
  - intros l E. assert (G : good vsp area st (Some l)) by (rewrite <- E; apply history_good; exact I). clear E. revert l G. induction Ms as [|M Ms IH]; intros l G A; [do 2 eexists; reflexivity|].
    assert (X : exists l' c, one vsp area st (Some l) M = (Some l', Ok c)).
    { unfold one. destruct (Rltb M (105 / 100)) eqn:L; [do 2 eexists; reflexivity|]. apply Rltb_false in L. destruct G as [N [J F]]. destruct (in_dec_R M l) as [Q|Q].
      - apply in_map_iff in Q. destruct Q as [[a c] [E Q]]. cbn in E. subst a. rewrite (lookup_in M c l N Q). do 2 eexists; reflexivity.
      - rewrite (lookup_out M l Q). assert (M <> 105 / 100) by (intro E; subst; contradiction). unfold drag. destruct (vsp st M) eqn:V; [do 2 eexists; reflexivity|]. exfalso. apply (A M (or_introl eq_refl)); [lra|exact V]. }
    destruct X as (l' & c & X). cbn [volume]. rewrite X. pose proof (proj1 (one_good vsp area st (Some l) M G)) as G'. rewrite X in G'. destruct (IH l' G') as (f & cs & Q); [intros M' I'; apply A; right; exact I'|]. rewrite Q. do 2 eexists. reflexivity.
  - intros _. induction Ms as [|M Ms IH]; [left; intros M []|]. cbn [volume]. unfold one. destruct (Rltb M (105 / 100)) eqn:L; [|right; reflexivity]. apply Rltb_true in L. destruct IH as [IH|IH]; [left; intros M' [E|E]; [subst; exact L|apply IH; exact E]|right; rewrite IH; reflexivity].
Qed.
(** if OpenVSP fails, what it answered before stays in the file *)
Theorem C210_failure : forall vsp area st os before M after f1 cs, volume vsp area st (history vsp area st None os) before = (f1, Ok cs) -> 105 / 100 <= M -> vsp st M = None ->
  (forall l, f1 = Some l -> ~ In M (map fst l)) -> volume vsp area st (history vsp area st None os) (before ++ M :: after) = (f1, Err GenericException).
Proof.
  intros vsp area st os before M after f1 cs. generalize (history vsp area st None os) as f. revert cs. induction before as [|B bs IH]; intros cs f H L V N.
  - cbn in H. inversion H; subst. cbn. unfold one. replace (Rltb M (105 / 100)) with false by (symmetry; apply Rltb_false; lra). destruct f1 as [l|]; [|reflexivity]. rewrite (lookup_out M l (N l eq_refl)). unfold drag. rewrite V. reflexivity.
  - cbn [app volume] in *. destruct (one vsp area st f B) as [f2 [c|e]]; [|discriminate]. destruct (volume vsp area st f2 bs) as [f3 [t|e]] eqn:E; cbn in H; inversion H; subst. rewrite (IH t f2 E L V N). reflexivity.
Qed.
(** finding: the compressibility drag of this analysis never comes back: TypeError with wings, UnboundLocalError without *)
Theorem C210_total_refuted : forall vsp area st os wings Ms, exists f e, total vsp area wings st (history vsp area st None os) Ms = (f, Err e) /\
  ((exists c, snd (at_105 vsp area (history vsp area st None os)) = Ok c) -> e = match wings with O => UnboundLocalError | _ => TypeError end).
Proof.
  intros. unfold total. destruct (at_105 vsp area _) as [f [c|e]]; cbn; [destruct wings|]; do 2 eexists; (split; [reflexivity|]); intros; try reflexivity. destruct H as [c H]; discriminate.
Qed.
(** it does leave the file, so that drags can be asked for, if OpenVSP answers *)
Theorem C210_file : forall vsp area st os wings Ms a, vsp defaults (105 / 100) = Some a -> exists l, history vsp area st None (os ++ [Total wings Ms]) = Some l.
Proof.
  intros vsp area st os wings Ms a V. assert (H : forall f, history vsp area st f (os ++ [Total wings Ms]) = fst (step vsp area st (history vsp area st f os) (Total wings Ms))) by (induction os as [|o os IH]; intro f; [reflexivity|cbn; apply IH]).
  rewrite H. cbn [step]. unfold total, at_105. destruct (history vsp area st None os) as [l|].
  - exists l. destruct (lookup _ l) as [[c|]|e]; try reflexivity. destruct (drag vsp area defaults _); reflexivity.
  - rewrite lookup_out by (cbn; intros [E|[]]; lra). unfold drag. rewrite V. eexists. reflexivity.
Qed.
(** finding: at 1.05 the numbers of slices and rotations asked for are not used *)
Definition sample (st : setting) (M : R) : option R := if Reqb M 3 then None else Some (INR (fst st) * M).
Theorem C210_settings_refuted : exists f c, volume sample 100 (40%nat, 10%nat) (history sample 100 (40%nat, 10%nat) None [Begin; Total 1 []]) [105 / 100] = (f, Ok [c]) /\ sample (40%nat, 10%nat) (105 / 100) <> Some c.
Proof.
  destruct (C210_file sample 100 (40%nat, 10%nat) [Begin] 1 [] (INR 20 * (105 / 100))) as [l H]; [unfold sample, Reqb; destruct (Req_EM_T (105 / 100) 3); [lra|reflexivity]|]. cbn [app] in H. rewrite H.
  destruct (proj1 (C210_succeeds sample 100 (40%nat, 10%nat) [Begin; Total 1 []] [105 / 100]) l H) as (f & cs & Q); [intros M [E|[]] L; lra|]. rewrite <- H in Q. pose proof (C210_values _ _ _ _ _ _ _ Q) as V. rewrite H in Q.
  inversion V as [|M c Ms cs' V1 V2]; subst. inversion V2; subst. exists f, c. split; [exact Q|]. unfold sample, Reqb in V1 |- *. cbn [fst defaults] in V1 |- *. destruct (Req_EM_T (105 / 100) 3); [lra|].
  destruct V1 as [[L _]|[[a [_ [A E]]]|[a [L _]]]]; [lra| |lra]. assert (SI : forall x y : R, Some x = Some y -> x = y) by (intros x y Z; congruence). destruct (Req_EM_T (105 / 100) 3) in A; [lra|]. unfold defaults, fst in A. apply SI in A. intro Q'. apply SI in Q'. rewrite INR_IZR_INZ in A, Q'. change (Z.of_nat 20) with 20%Z in A. change (Z.of_nat 40) with 40%Z in Q'. lra.
Qed.
Example C210_case : exists f cs, volume sample 100 defaults (history sample 100 defaults None [Begin; Total 2 [2]; Volume [2; 1]; Volume [3]]) [1; 2; 4; 2] = (f, Ok cs).
Proof.
  assert (V : sample defaults (105 / 100) = Some (INR 20 * (105 / 100))) by (unfold sample, Reqb; destruct (Req_EM_T (105 / 100) 3); [lra|reflexivity]).
  assert (S : exists l, history sample 100 defaults None [Begin; Total 2 [2]; Volume [2; 1]; Volume [3]] = Some l).
  { destruct (C210_file sample 100 defaults [Begin] 2 [2] _ V) as [l0 H0]. cbn [history app step fst] in H0 |- *. rewrite H0. assert (G : good sample 100 defaults (Some l0)) by (rewrite <- H0; exact (history_good sample 100 defaults [Begin; Total 2 [2]] None I)).
    destruct (volume sample 100 defaults (Some l0) [2; 1]) as [f1 r1] eqn:E1. destruct (volume_grows sample 100 defaults _ _ _ _ _ G E1 eq_refl) as [x1 X1]. subst f1. cbn [fst].
    assert (G1 : good sample 100 defaults (Some (l0 ++ x1))) by (pose proof (volume_good sample 100 defaults [2; 1] _ G) as Q; rewrite E1 in Q; exact Q).
    destruct (volume sample 100 defaults (Some (l0 ++ x1)) [3]) as [f2 r2] eqn:E2. destruct (volume_grows sample 100 defaults _ _ _ _ _ G1 E2 eq_refl) as [x2 X2]. subst f2. eexists. reflexivity. }
  destruct S as [l S]. rewrite S. apply (proj1 (C210_succeeds sample 100 defaults _ [1; 2; 4; 2]) l S). intros M I _. unfold sample, Reqb. destruct (Req_EM_T M 3) as [E|E]; [|discriminate]. subst. cbn in I. destruct I as [I|[I|[I|[I|[]]]]]; lra.
Qed.
Print Assumptions C210_values.
Print Assumptions C210_cached.
Print Assumptions C210_succeeds.
Print Assumptions C210_failure.
Print Assumptions C210_total_refuted.
Print Assumptions C210_file.
Print Assumptions C210_settings_refuted.
