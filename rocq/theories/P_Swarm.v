(** * Proofs about the particle swarm *)
From Coq Require Import Reals List Bool Lia Lra.
From Verif Require Import PyBase M_Opt P_Opt M_Swarm S_Swarm.
Import ListNotations.
Local Open Scope R_scope.
Local Open Scope list_scope.

Lemma F2_length {X Y} (P : X -> Y -> Prop) a b : Forall2 P a b -> List.length a = List.length b.
Proof. induction 1; simpl; congruence. Qed.
Lemma clamp1_in l u x : l <= u -> l <= clamp1 l u x <= u.
Proof.
  intros H. unfold clamp1. destruct (Rltb x l) eqn:E1; destruct (Rltb u x) eqn:E2;
    try apply Rltb_true in E1; try apply Rltb_true in E2; try apply Rltb_false in E1; try apply Rltb_false in E2; lra.
Qed.
Lemma clamp_inside lb ub x : good_bounds lb ub -> List.length x = List.length lb -> inside lb ub (clamp lb ub x).
Proof.
  intros H. revert x. induction H as [|l u lb ub Hlu _ IH]; intros [|y x] L; try discriminate; [constructor|].
  cbn [clamp]. constructor; [apply clamp1_in; lra|]. apply IH. simpl in L. lia.
Qed.
Lemma init_inside lb ub r : good_bounds lb ub -> unit_vec (List.length lb) r ->
  inside lb ub (vadd lb (vmul r (vsub ub lb))).
Proof.
  intros H. revert r. induction H as [|l u lb ub Hlu _ IH]; intros r [L F].
  - destruct r; constructor.
  - destruct r as [|y r]; [discriminate|]. inversion F as [|? ? Hy F']; subst. cbn. constructor.
    + assert (0 <= y * (u - l)) by (apply Rmult_le_pos; lra).
      assert (y * (u - l) <= 1 * (u - l)) by (apply Rmult_le_compat_r; lra). lra.
    + apply IH. split; [simpl in L; lia|exact F'].
Qed.
Lemma inside_length lb ub x : inside lb ub x -> List.length x = List.length lb /\ List.length x = List.length ub.
Proof. induction 1; simpl; lia. Qed.
Lemma map2_len {X Y Z} (f : X -> Y -> Z) a b n : List.length a = n -> List.length b = n -> List.length (map2 f a b) = n.
Proof. intros <- H. apply map2_length. auto. Qed.

Section Swarm.
  Variables lb ub : vec.
  Variable obj : vec -> R.
  Variable feasible : vec -> bool.
  Variables omega phip phig minstep minfunc : R.
  Hypothesis Hb : good_bounds lb ub.
  Notation D := (List.length lb).
  Notation init := (init lb ub obj feasible).
  Notation init_swarm := (init_swarm lb ub obj feasible).
  Notation sweep := (sweep lb ub obj feasible omega phip phig minstep minfunc).
  Notation iterate := (iterate lb ub obj feasible omega phip phig minstep minfunc).
  Notation particle_swarm := (particle_swarm lb ub obj feasible omega phip phig minstep minfunc).

  Lemma len_ub : List.length ub = D.
  Proof. symmetry. exact (F2_length _ _ _ Hb). Qed.

  Definition ok_part (q : particle) : Prop :=
    inside lb ub (pos q) /\ List.length (vel q) = D /\ inside lb ub (best q) /\ best_val q = obj (best q).
  (** [ini]: the initial positions *)
  Definition ok_best (ini : list vec) (g : vec) (fg : R) (tr : list vec) : Prop :=
    (feasible g = true /\ fg = obj g /\ In g tr /\ fg < huge) \/
    (fg = huge /\ forall y, In y ini -> feasible y = false \/ obj y >= huge).
  (** what the search knows: the best is no worse than any feasible particle best, and no better
      feasible point was seen among the ones that count *)
  Definition ok (ini : list vec) (ps : list particle) (g : vec) (fg : R) (tr : list vec) : Prop :=
    Forall ok_part ps /\ Forall (inside lb ub) tr /\ ok_best ini g fg tr /\ List.length g = D.

  Lemma move_ok q g rp rg : ok_part q -> List.length g = D -> List.length rp = D -> List.length rg = D ->
    ok_part (move lb ub omega phip phig q g rp rg).
  Proof.
    intros (H1 & H2 & H3 & H4) Hg Hp Hr. destruct (inside_length _ _ _ H1) as [L1 _]. destruct (inside_length _ _ _ H3) as [L3 _].
    assert (Lv : List.length (vadd (vadd (vscale omega (vel q)) (vmul (vscale phip rp) (vsub (best q) (pos q))))
                  (vmul (vscale phig rg) (vsub g (pos q)))) = D).
    { unfold vadd, vmul, vsub, vscale. repeat apply map2_len; rewrite ?map_length; auto. }
    split; [|split; [exact Lv|split; [exact H3|exact H4]]].
    cbn [move pos]. apply clamp_inside; [exact Hb|]. unfold vadd at 1. apply map2_len; [exact L1|exact Lv].
  Qed.

  (** monotone sets of feasible points that were seen *)
  Lemma init_ok seeds : Forall (fun p => unit_vec D (fst p) /\ unit_vec D (snd p)) seeds ->
    forall first s ini, ini = map best (parts s) -> ini = trace s ->
      Forall ok_part (parts s) -> Forall (inside lb ub) (trace s) ->
      ((first = true /\ parts s = [] /\ sw_val s = huge) \/ (first = false /\ ok_best ini (sw_best s) (sw_val s) (trace s) /\ List.length (sw_best s) = D)) ->
      (forall y, In y ini -> feasible y = true -> sw_val s <= obj y) ->
      let s' := init seeds first s in
      (seeds <> [] \/ first = false -> ok (trace s') (parts s') (sw_best s') (sw_val s') (trace s')) /\
      List.length (parts s') = (List.length (parts s) + List.length seeds)%nat /\
      trace s' = map best (parts s') /\
      (forall y, In y (trace s') -> feasible y = true -> sw_val s' <= obj y).
  Proof.
    induction 1 as [|[rx rv] rest [Hx Hv] Hrest IH]; intros first s ini Ei Et Hp Ht Hbest Hmin; cbn [M_Swarm.init].
    - cbn zeta. split.
      + intros [C|C]; [congruence|]. destruct Hbest as [[? _]|(_ & B & L)]; [congruence|].
        split; [exact Hp|]. split; [exact Ht|]. split; [rewrite <- Et at 1; exact B|exact L].
      + split; [simpl; lia|]. split; [congruence|]. rewrite <- Et. exact Hmin.
    - set (q := init_particle lb ub obj rx rv).
      assert (Hq : ok_part q).
      { cbn [fst snd] in *. unfold q, init_particle. repeat split; cbn [pos vel best best_val].
        - apply init_inside; auto.
        - unfold vadd, vmul, vsub, spread. pose proof len_ub as Lu.
          repeat apply map2_len; rewrite ?map_length; try apply map2_len; rewrite ?map_length; try apply map2_len; auto; apply Hv.
        - apply init_inside; auto. }
      set (g0 := if first then best q else sw_best s).
      set (better := Rltb (best_val q) (sw_val s) && feasible (best q)).
      destruct Hq as (Q1 & Q2 & Q3 & Q4).
      match goal with |- context [init rest false ?S] => set (s1 := S) end.
      specialize (IH false s1 (trace s ++ [best q])). cbn zeta in IH |- *.
      destruct IH as (A & B & C & E).
      + cbn [s1 parts]. rewrite map_app. cbn [map]. rewrite <- Ei, Et. reflexivity.
      + reflexivity.
      + cbn [s1 parts]. apply Forall_app. split; [exact Hp|]. constructor; [repeat split; auto; apply Q1|constructor].
      + cbn [s1 trace]. apply Forall_app. split; [exact Ht|]. constructor; [exact Q3|constructor].
      + right. split; [reflexivity|]. cbn [s1 sw_best sw_val trace]. split.
        * destruct better eqn:Eb.
          -- apply andb_prop in Eb as [E1 E2]. apply Rltb_true in E1. left. split; [exact E2|]. split; [exact Q4|].
             split; [apply in_or_app; right; left; reflexivity|].
             destruct Hbest as [(_ & _ & X)|(_ & [(_ & _ & _ & X)|(X & _)] & _)]; lra.
          -- unfold better in Eb.
             assert (Nb : feasible (best q) = false \/ sw_val s <= obj (best q)).
             { apply andb_false_iff in Eb as [Eb|Eb]; [right; apply Rltb_false in Eb; rewrite Q4 in Eb; lra|left; exact Eb]. }
             destruct Hbest as [(-> & P0 & V)|(-> & [(X1 & X2 & X3 & X4)|(X1 & X2)] & _)].
             ++ right. split; [exact V|]. rewrite P0 in Ei. cbn in Ei. rewrite <- Et, Ei. intros y [<-|[]].
                rewrite V in Nb. destruct Nb; [left; auto|right; lra].
             ++ left. repeat split; auto. apply in_or_app; left; exact X3.
             ++ right. split; [exact X1|]. intros y Hy. apply in_app_or in Hy as [Hy|[<-|[]]].
                ** apply X2. rewrite Et. exact Hy.
                ** rewrite X1 in Nb. destruct Nb; [left; auto|right; lra].
        * destruct better; [apply inside_length in Q3; apply Q3|]. unfold g0.
          destruct Hbest as [(-> & _)|(-> & _ & L)]; [apply inside_length in Q3; apply Q3|exact L].
      + cbn [s1 sw_val]. intros y Hy Hf. apply in_app_or in Hy as [Hy|[<-|[]]].
        * assert (V : sw_val s <= obj y) by (apply Hmin; [rewrite Et; exact Hy|exact Hf]).
          destruct better eqn:Eb; [|exact V]. apply andb_prop in Eb as [E1 _]. apply Rltb_true in E1. lra.
        * unfold better. rewrite Hf, andb_true_r. destruct (Rltb (best_val q) (sw_val s)) eqn:E1; [lra|].
          apply Rltb_false in E1. lra.
      + split; [intros _; apply A; right; reflexivity|]. split; [|split; [exact C|exact E]].
        rewrite B. cbn [s1 parts]. rewrite app_length. simpl. lia.
  Qed.

  (** ** sweeps *)
  (** points evaluated so far that are feasible, where the particle's best was feasible too *)
  Definition beats (fg : R) (tr : list vec) : Prop := forall y, In y tr -> feasible y = true -> fg <= obj y.
  Definition all_feasible (ps : list particle) : Prop := Forall (fun q => feasible (best q) = true) ps.

  Lemma ok_best_app ini g fg tr y : ok_best ini g fg tr -> ok_best ini g fg (tr ++ [y]).
  Proof. intros [(A & B & C & E)|H]; [left; repeat split; auto; apply in_or_app; auto|right; exact H]. Qed.

  Lemma sweep_ok ini todo : forall done g fg tr,
    ok ini (map fst todo ++ done) g fg tr -> Forall (fun p => unit_vec D (fst (snd p)) /\ unit_vec D (snd (snd p))) todo ->
    match sweep todo done g fg tr with
    | inl s => ok ini (parts s) (sw_best s) (sw_val s) (trace s) /\ List.length (parts s) = (List.length done + List.length todo)%nat /\
               sw_val s <= fg /\ (exists t, trace s = tr ++ t) /\
               (all_feasible (map fst todo ++ done) -> beats fg tr -> Forall (fun q => fg <= best_val q) (map fst todo ++ done) ->
                all_feasible (parts s) /\ beats (sw_val s) (trace s) /\ Forall (fun q => sw_val s <= best_val q) (parts s))
    | inr (x, fx, t) => Forall (inside lb ub) t /\ ok_best ini x fx t /\ fx <= fg /\ (exists t', t = tr ++ t') /\
               (all_feasible (map fst todo ++ done) -> beats fg tr -> Forall (fun q => fg <= best_val q) (map fst todo ++ done) -> beats fx t)
    end.
  Proof.
    induction todo as [|[q [rp rg]] todo IH]; intros done g fg tr (Hp & Ht & Hbst & Hg) Hr; cbn [M_Swarm.sweep].
    - cbn [parts sw_best sw_val trace map app] in *. repeat split; auto; try (simpl; lia); try lra.
      exists []. rewrite app_nil_r. reflexivity.
    - inversion Hr as [|? ? [R1 R2] Hr']; subst. cbn [fst snd map] in *.
      inversion Hp as [|? ? Hq Hp']; subst.
      set (q1 := move lb ub omega phip phig q g rp rg).
      assert (Hq1 : ok_part q1) by (apply move_ok; auto; [apply R1|apply R2]).
      destruct Hq1 as (Q1 & Q2 & Q3 & Q4).
      assert (Bv : best_val q1 = best_val q /\ best q1 = best q) by (split; reflexivity). destruct Bv as [Bv Bb].
      assert (Ht1 : Forall (inside lb ub) (tr ++ [pos q1])) by (apply Forall_app; split; [exact Ht|constructor; [exact Q1|constructor]]).
      set (q2 := {| pos := pos q1; vel := vel q1; best := pos q1; best_val := obj (pos q1) |}).
      assert (Hq2 : ok_part q2) by (repeat split; auto; apply Q1).
      destruct (Rltb (obj (pos q1)) (best_val q1) && feasible (pos q1)) eqn:E1.
      + apply andb_prop in E1 as [E1 Ef]. apply Rltb_true in E1.
        destruct (Rltb (obj (pos q1)) fg) eqn:E2; [apply Rltb_true in E2|apply Rltb_false in E2].
        * assert (Hb1 : ok_best ini (pos q1) (obj (pos q1)) (tr ++ [pos q1])).
          { left. repeat split; auto; [apply in_or_app; right; left; reflexivity|]. destruct Hbst as [(_ & _ & _ & X)|(X & _)]; lra. }
          assert (Hbt : beats fg tr -> beats (obj (pos q1)) (tr ++ [pos q1])).
          { intros B y Hy Hf. apply in_app_or in Hy as [Hy|[<-|[]]]; [specialize (B y Hy Hf); lra|lra]. }
          destruct (negb (Rltb minfunc (Rabs (fg - obj (pos q1))))); [|destruct (negb (Rltb minstep (stepsize g (pos q1))))].
          1,2: repeat split; auto; [lra|exists [pos q1]; reflexivity].
          specialize (IH (done ++ [q2]) (pos q1) (obj (pos q1)) (tr ++ [pos q1])).
          assert (Hok : ok ini (map fst todo ++ done ++ [q2]) (pos q1) (obj (pos q1)) (tr ++ [pos q1])).
          { split; [|split; [exact Ht1|split; [exact Hb1|apply inside_length in Q1; apply Q1]]].
            rewrite app_assoc. apply Forall_app. split; [exact Hp'|]. constructor; [exact Hq2|constructor]. }
          specialize (IH Hok Hr').
          assert (Himp : all_feasible ((q :: map fst todo) ++ done) -> beats fg tr -> Forall (fun q => fg <= best_val q) ((q :: map fst todo) ++ done) ->
             all_feasible (map fst todo ++ done ++ [q2]) /\ beats (obj (pos q1)) (tr ++ [pos q1]) /\
             Forall (fun q => obj (pos q1) <= best_val q) (map fst todo ++ done ++ [q2])).
          { intros Af B Fb. inversion Af; subst. inversion Fb; subst. split; [|split; [auto|]].
            - unfold all_feasible. rewrite app_assoc. apply Forall_app. split; [assumption|constructor; [exact Ef|constructor]].
            - rewrite app_assoc. apply Forall_app. split; [|constructor; [cbn; apply Rle_refl|constructor]].
              eapply Forall_impl; [|eassumption]. cbv beta. intros a Ha. lra. }
          destruct (sweep todo (done ++ [q2]) (pos q1) (obj (pos q1)) (tr ++ [pos q1])) as [s|[[x fx] t]].
          -- destruct IH as (A & B & C & (t & E) & F). split; [exact A|]. split; [rewrite B, app_length; simpl; lia|].
             split; [lra|]. split; [exists (pos q1 :: t); rewrite E, <- app_assoc; reflexivity|].
             intros X Y Z. destruct (Himp X Y Z) as (X' & Y' & Z'). auto.
          -- destruct IH as (A & B & C & (t' & E) & F). split; [exact A|]. split; [exact B|].
             split; [lra|]. split; [exists (pos q1 :: t'); rewrite E, <- app_assoc; reflexivity|].
             intros X Y Z. destruct (Himp X Y Z) as (X' & Y' & Z'). auto.
        * specialize (IH (done ++ [q2]) g fg (tr ++ [pos q1])).
          assert (Hok : ok ini (map fst todo ++ done ++ [q2]) g fg (tr ++ [pos q1])).
          { split; [|split; [exact Ht1|split; [apply ok_best_app; exact Hbst|exact Hg]]].
            rewrite app_assoc. apply Forall_app. split; [exact Hp'|]. constructor; [exact Hq2|constructor]. }
          specialize (IH Hok Hr').
          assert (Himp : all_feasible ((q :: map fst todo) ++ done) -> beats fg tr -> Forall (fun q => fg <= best_val q) ((q :: map fst todo) ++ done) ->
             all_feasible (map fst todo ++ done ++ [q2]) /\ beats fg (tr ++ [pos q1]) /\
             Forall (fun q => fg <= best_val q) (map fst todo ++ done ++ [q2])).
          { intros Af B Fb. inversion Af; subst. inversion Fb; subst. split; [|split].
            - unfold all_feasible. rewrite app_assoc. apply Forall_app. split; [assumption|constructor; [exact Ef|constructor]].
            - intros y Hy Hf. apply in_app_or in Hy as [Hy|[<-|[]]]; [exact (B y Hy Hf)|lra].
            - rewrite app_assoc. apply Forall_app. split; [assumption|constructor; [cbn [best_val q2]; lra|constructor]]. }
          destruct (sweep todo (done ++ [q2]) g fg (tr ++ [pos q1])) as [s|[[x fx] t]].
          -- destruct IH as (A & B & C & (t & E) & F). split; [exact A|]. split; [rewrite B, app_length; simpl; lia|].
             split; [lra|]. split; [exists (pos q1 :: t); rewrite E, <- app_assoc; reflexivity|].
             intros X Y Z. destruct (Himp X Y Z) as (X' & Y' & Z'). auto.
          -- destruct IH as (A & B & C & (t' & E) & F). split; [exact A|]. split; [exact B|].
             split; [lra|]. split; [exists (pos q1 :: t'); rewrite E, <- app_assoc; reflexivity|].
             intros X Y Z. destruct (Himp X Y Z) as (X' & Y' & Z'). auto.
      + specialize (IH (done ++ [q1]) g fg (tr ++ [pos q1])).
        assert (Hok : ok ini (map fst todo ++ done ++ [q1]) g fg (tr ++ [pos q1])).
        { split; [|split; [exact Ht1|split; [apply ok_best_app; exact Hbst|exact Hg]]].
          rewrite app_assoc. apply Forall_app. split; [exact Hp'|]. constructor; [repeat split; auto; apply Q1|constructor]. }
        specialize (IH Hok Hr').
        assert (Himp : all_feasible ((q :: map fst todo) ++ done) -> beats fg tr -> Forall (fun q => fg <= best_val q) ((q :: map fst todo) ++ done) ->
             all_feasible (map fst todo ++ done ++ [q1]) /\ beats fg (tr ++ [pos q1]) /\
             Forall (fun q => fg <= best_val q) (map fst todo ++ done ++ [q1])).
        { intros Af B Fb. inversion Af; subst. inversion Fb; subst. split; [|split].
          - unfold all_feasible. rewrite app_assoc. apply Forall_app. split; [assumption|constructor; [rewrite Bb; assumption|constructor]].
          - intros y Hy Hf. apply in_app_or in Hy as [Hy|[<-|[]]]; [exact (B y Hy Hf)|].
            rewrite Hf, andb_true_r in E1. apply Rltb_false in E1. rewrite Bv in E1. lra.
          - rewrite app_assoc. apply Forall_app. split; [assumption|constructor; [rewrite Bv; assumption|constructor]]. }
        destruct (sweep todo (done ++ [q1]) g fg (tr ++ [pos q1])) as [s|[[x fx] t]].
        -- destruct IH as (A & B & C & (t & E) & F). split; [exact A|]. split; [rewrite B, app_length; simpl; lia|].
             split; [lra|]. split; [exists (pos q1 :: t); rewrite E, <- app_assoc; reflexivity|].
             intros X Y Z. destruct (Himp X Y Z) as (X' & Y' & Z'). auto.
        -- destruct IH as (A & B & C & (t' & E) & F). split; [exact A|]. split; [exact B|].
             split; [lra|]. split; [exists (pos q1 :: t'); rewrite E, <- app_assoc; reflexivity|].
             intros X Y Z. destruct (Himp X Y Z) as (X' & Y' & Z'). auto.
  Qed.

  Lemma combine_fst {X Y} (a : list X) (b : list Y) : List.length a = List.length b -> map fst (combine a b) = a.
  Proof. revert b. induction a; destruct b; simpl; intros; try discriminate; f_equal; auto. Qed.
  Lemma combine_snd {X Y} (P : Y -> Prop) (a : list X) (b : list Y) : Forall P b -> Forall (fun p => P (snd p)) (combine a b).
  Proof. intros H. revert a. induction H; intros [|x' a]; cbn; constructor; auto. Qed.

  Lemma iterate_ok ini m rnd : Forall (good_random D m) rnd -> forall s,
    ok ini (parts s) (sw_best s) (sw_val s) (trace s) -> List.length (parts s) = m ->
    let '(x, fx, t) := iterate rnd s in
    Forall (inside lb ub) t /\ ok_best ini x fx t /\ fx <= sw_val s /\ (exists t', t = trace s ++ t') /\
    (all_feasible (parts s) -> beats (sw_val s) (trace s) -> Forall (fun q => sw_val s <= best_val q) (parts s) -> beats fx t).
  Proof.
    induction 1 as [|r rnd [Hm Hr] _ IH]; intros s Hok Hlen; cbn [M_Swarm.iterate].
    - destruct Hok as (A & B & C & D'). repeat split; auto; [lra|]. exists []. rewrite app_nil_r. reflexivity.
    - assert (Hc : map fst (combine (parts s) r) = parts s) by (apply combine_fst; congruence).
      pose proof (sweep_ok ini (combine (parts s) r) [] (sw_best s) (sw_val s) (trace s)) as S.
      rewrite Hc, app_nil_r in S. specialize (S Hok).
      specialize (S (combine_snd (fun p => unit_vec D (fst p) /\ unit_vec D (snd p)) _ _ Hr)).
      destruct (sweep (combine (parts s) r) [] (sw_best s) (sw_val s) (trace s)) as [s'|[[x fx] t]].
      + destruct S as (A & B & C & (t & E) & F). cbn [List.length] in B. rewrite combine_length, Hlen, Hm, Nat.min_id in B.
        specialize (IH s' A B). destruct (iterate rnd s') as [[x fx] t'].
        destruct IH as (A' & B' & C' & (t2 & E') & F'). repeat split; auto; [lra| |].
        * exists (t ++ t2). rewrite E', E, app_assoc. reflexivity.
        * intros X Y Z. destruct (F X Y Z) as (X' & Y' & Z'). auto.
      + exact S.
  Qed.

  Lemma swarm_main m seeds rnd : good_random D m seeds -> m <> O -> Forall (good_random D m) rnd ->
    let '(x, fx, t) := particle_swarm seeds rnd in
    let ini := trace (init_swarm seeds) in
    Forall (inside lb ub) t /\ ok_best ini x fx t /\ (exists t', t = ini ++ t') /\
    (forall y, In y ini -> feasible y = true -> fx <= obj y) /\
    (Forall (fun y => feasible y = true) ini -> beats fx t).
  Proof.
    intros [Hm Hs] Hm0 Hr. unfold M_Swarm.particle_swarm.
    pose proof (init_ok seeds Hs true {| parts := []; sw_best := []; sw_val := huge; trace := [] |} []) as I.
    cbn [parts sw_best sw_val trace map] in I.
    specialize (I eq_refl eq_refl (Forall_nil _) (Forall_nil _) (or_introl (conj eq_refl (conj eq_refl eq_refl))) (fun _ F => match F with end)).
    fold (init_swarm seeds) in I. cbn zeta in I. destruct I as (A & B & C & E).
    assert (Hne : seeds <> [] \/ true = false) by (left; destruct seeds; [cbn in Hm; congruence|discriminate]).
    specialize (A Hne). cbn [List.length plus] in B. rewrite Hm in B.
    pose proof (iterate_ok (trace (init_swarm seeds)) m rnd Hr (init_swarm seeds) A B) as I2.
    destruct (iterate rnd (init_swarm seeds)) as [[x fx] t]. cbn zeta.
    destruct I2 as (A' & B' & C' & E' & F').
    split; [exact A'|]. split; [exact B'|]. split; [exact E'|]. split.
    - intros y Hy Hf. specialize (E y Hy Hf). lra.
    - intros Hall. apply F'.
      + unfold all_feasible. rewrite C in Hall. rewrite Forall_map in Hall. exact Hall.
      + intros y Hy Hf. exact (E y Hy Hf).
      + destruct A as (Ap & _). rewrite Forall_forall in *. intros q Hq. destruct (Ap q Hq) as (_ & _ & _ & ->).
        apply E; [rewrite C; apply in_map; exact Hq|]. apply Hall. rewrite C. apply in_map. exact Hq.
  Qed.
End Swarm.
