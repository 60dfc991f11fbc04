(** * Products of units with a temperature *)
From Coq Require Import Reals List Bool Arith String Lra Lia Permutation.
From Verif Require Import PyBase M_Units S_Units P_Dict P_Units P_Units2 P_Units3.
Import ListNotations.
Local Open Scope R_scope.
Local Open Scope list_scope.

Lemma worths_perm r c c' w e : Permutation c c' -> worths r c w e -> worths r c' w e.
Proof.
  intro P. revert w e. induction P as [|[k v] c c' P IH|[k v] [k' v'] c|c c' c'' P IH Q IHQ]; intros w e W.
  - exact W.
  - inversion W; subst. apply worths_cons; [assumption|]. apply IH. assumption.
  - inversion W as [|? ? ? w1 e1 w2 e2 W1 W2]; subst. inversion W2 as [|? ? ? w3 e3 w4 e4 W3 W4]; subst. apply (worths_ext r _ (Rpower w3 v * (Rpower w1 v' * w4)) (fun b => v * e3 b + (v' * e1 b + e4 b))); [|ring|intro; ring]. apply worths_cons; [assumption|]. apply worths_cons; assumption.
  - apply IHQ, IH, W.
Qed.
Lemma same_perm (a b : container) : NoDup (map fst a) -> NoDup (map fst b) -> Forall (fun kv => snd kv <> 0) a -> Forall (fun kv => snd kv <> 0) b -> (forall k, expo k a = expo k b) -> Permutation a b.
Proof.
  assert (H : forall a b : container, NoDup (map fst a) -> Forall (fun kv => snd kv <> 0) a -> (forall k, expo k a = expo k b) -> incl a b).
  { intros x y N Z E [k v] I. rewrite Forall_forall in Z. specialize (Z _ I). cbn [snd] in Z. specialize (E k). unfold expo in E at 1. rewrite (In_dget k v x N I) in E. unfold expo in E. destruct (dget k y) as [v'|] eqn:G; [|exfalso; apply Z, E]. subst v'. apply dget_Some_In, G. }
  intros NA NB ZA ZB E. apply NoDup_Permutation; [apply (NoDup_map_inv _ _ NA)|apply (NoDup_map_inv _ _ NB)|]. intro kv. split; [apply (H a b); assumption|apply (H b a); try assumption]. intro k. symmetry. apply E.
Qed.
Section Compound.
  Variables (r : registry) (b : string) (db : udef).
  Hypothesis NM : named r.
  Hypothesis RB : resolve r b = Ok (b, db).
  Hypothesis BB : u_base db = true.
  Hypothesis OB : is_offset db = true.
  Lemma worth_not_b k w e : worth r k w e -> k <> b.
  Proof. intros W E. subst k. assert (X : exists n d, resolve r b = Ok (n, d) /\ u_offset d = None) by (inversion W; subst; eauto). destruct X as (n & d & R & O). rewrite RB in R. injection R as _ <-. unfold is_offset in OB. rewrite O in OB. discriminate. Qed.
  Lemma own_not_b k : own_base r k -> k <> b.
  Proof. intro O. apply (worth_not_b k _ _ (own_worth r k O)). Qed.
  Lemma ready_b u e : ready r u e -> ~ In b (map fst u).
  Proof. intros [_ _ B _] I. apply in_map_iff in I. destruct I as ([k v] & E & I). cbn [fst] in E. subst k. rewrite Forall_forall in B. apply (own_not_b b (B _ I)). reflexivity. Qed.
  Lemma worths_b c w e : worths r c w e -> ~ In b (map fst c).
  Proof. intros W I. apply in_map_iff in I. destruct I as (kv & E & I). destruct (worths_in r c w e kv W I) as (w' & e' & W'). rewrite E in W'. exact (worth_not_b b w' e' W' eq_refl). Qed.
  Lemma nodup_last (c : container) k v : NoDup (map fst c) -> ~ In k (map fst c) -> NoDup (map fst (c ++ [(k, v)])).
  Proof. intros N I. rewrite map_app. cbn [map fst]. apply NoDup_app_single; assumption. Qed.
  Lemma expo_last k (c : container) k' v : ~ In k' (map fst c) -> expo k (c ++ [(k', v)]) = if String.eqb k k' then v else expo k c.
  Proof. intro I. unfold expo. rewrite dget_app. cbn [dget]. destruct (String.eqb_spec k k') as [->|]; [rewrite (proj2 (dget_None_iff k' c)) by exact I; reflexivity|]. destruct (dget k c); reflexivity. Qed.
  Lemma base_compound c w e v : tidy_units r c -> worths r c w e -> v <> 0 -> exists m u, ready r u e /\ forall f, (m <= f)%nat -> get_base_units f r (c ++ [(b, v)]) = Ok (None, u ++ [(b, v)]).
  Proof.
    intros [N Z O] W V. destruct (proj2 (base_units r NM) c w e W Z) as [m H]. destruct (H 1 [] _ (ready_nil r)) as (u & E & Y). exists (S m), u. split; [apply (ready_ext r _ _ _ Y); intro; ring|]. intros [|f] L; [lia|]. rewrite gbu_S, fold_left_app. pose proof (E f ltac:(lia)) as E'. transitivity (fold_left (base_step r (get_base_units f r)) [(b, v)] (Ok (Some (1 * w), u))); [f_equal; exact E'|].
    cbn [fold_left]. unfold base_step. cbn [bind fst snd]. rewrite RB. cbn [bind fst snd]. rewrite OB, BB. unfold c_add. rewrite (expo_none b u) by (eapply ready_b, Y). rewrite Rplus_0_l, (proj2 (is_zero_false v) V). cbn [bind]. rewrite dset_new by (eapply ready_b, Y). reflexivity.
  Qed.
  Lemma dims_last c w e k v d : worths r c w e -> resolve r k = Ok (k, d) -> u_base d = true -> exists m, forall f, (m <= f)%nat -> exists t, get_dimensionality f r (c ++ [(k, v)]) = Ok t.
  Proof.
    intros W R B. destruct (proj2 (dims_of r) c w e W) as [m H]. exists (S m). intros [|f] L; [lia|]. rewrite dims_S, fold_left_app. destruct (H f ltac:(lia) (negb (List.length (c ++ [(k, v)]) =? 1)%nat) []) as [t E]. eexists. transitivity (bind (fold_left (dims_step r (get_dimensionality f r) (negb (List.length (c ++ [(k, v)]) =? 1)%nat)) [(k, v)] (Ok t)) (fun d => Ok (ddel "[]" d))); [f_equal; f_equal; exact E|].
    cbn [fold_left]. unfold dims_step. cbn [bind fst snd]. rewrite R. cbn [bind fst snd]. rewrite B. cbn [bind]. reflexivity.
  Qed.
  Lemma div_last c u v : NoDup (map fst c) -> NoDup (map fst u) -> ~ In b (map fst c) -> ~ In b (map fst u) -> Permutation (c_div (c ++ [(b, v)]) (u ++ [(b, v)])) (c_div c u).
  Proof.
    intros NC NU BC BU. pose proof (nodup_last c b v NC BC) as NC'. pose proof (nodup_last u b v NU BU) as NU'. rewrite !div_mix. apply same_perm; try apply clean_nonzero; try (apply clean_nodup, mix_nodup; assumption).
    intro k. rewrite !expo_clean by (apply mix_nodup; assumption). rewrite !mix_expo by assumption. rewrite !expo_last by assumption. destruct (String.eqb_spec k b) as [->|]; [|reflexivity]. rewrite !expo_none by assumption. ring.
  Qed.
  Lemma convert_compound c u w e v : c <> [] -> tidy_units r c -> worths r c w e -> ready r u e -> exists m, forall f, (m <= f)%nat -> forall x, convert f r x (c ++ [(b, v)]) (u ++ [(b, v)]) = Ok (x * w).
  Proof.
    intros NE [N Z O] W Y. pose proof (ready_worths r u e Y) as U. pose proof (worths_b _ _ _ W) as BC. pose proof (ready_b _ _ Y) as BU. pose proof (div_worths r _ _ _ _ _ _ N W U) as D. pose proof (worths_perm r _ _ _ _ (Permutation_sym (div_last c u v N (y_nodup _ _ _ Y) BC BU)) D) as D'.
    destruct (base_of r _ _ _ NM D' ltac:(rewrite div_mix; apply clean_nonzero)) as (m1 & t & G & T). destruct (dims_last c w e b v db W RB BB) as [m2 D2]. destruct (dims_last u 1 e b v db U RB BB) as [m3 D3]. exists (max m1 (max m2 m3)). intros f L x. unfold convert. destruct (c_eq (c ++ [(b, v)]) (u ++ [(b, v)])) eqn:Q.
    - assert (Q' : c_eq c u = true). { apply andb_true_iff in Q. destruct Q as [Q1 Q2]. unfold c_eq. apply andb_true_iff. split; [rewrite !app_length in Q1; cbn [List.length] in Q1; apply Nat.eqb_eq in Q1; apply Nat.eqb_eq; lia|]. rewrite forallb_forall in *. intros [k v'] I. specialize (Q2 (k, v') (in_or_app _ _ _ (or_introl I))). cbn [fst snd] in *. rewrite dget_app in Q2. destruct (dget k u) as [v2|]; [exact Q2|]. cbn [dget] in Q2. destruct (String.eqb_spec k b) as [->|]; [|discriminate Q2]. exfalso. apply BC. apply in_map_iff. exists (b, v'). split; [reflexivity|exact I]. }
      destruct (c_eq_worths r _ _ _ _ _ _ N (y_nodup _ _ _ Y) Q' W U) as [-> _]. f_equal. ring.
    - destruct (D2 f ltac:(lia)) as [t2 E2]. destruct (D3 f ltac:(lia)) as [t3 E3]. rewrite E2, E3, (G f) by lia. cbn [bind fst snd]. assert (TN : t = []). { apply (proj2 (expo_nil_iff t (y_nodup _ _ _ T) (y_nonzero _ _ _ T))). intro k. rewrite (y_expo _ _ _ T). ring. } subst t.
      destruct c as [|kv c]; [contradiction|]. destruct kv as [k0 v0]. destruct c as [|kv c]; cbn [app]; f_equal; field.
  Qed.
  (** any mixture of plain units and [b] *)
  Lemma mixed_loop (z : container) : NoDup (map fst z) -> Forall (fun kv => snd kv <> 0 /\ (fst kv = b \/ exists w e, worth r (fst kv) w e)) z ->
    exists m, forall f, (m <= f)%nat -> forall fac u, NoDup (map fst u) -> exists fac' u', fold_left (base_step r (get_base_units f r)) z (Ok (fac, u)) = Ok (fac', u') /\ NoDup (map fst u') /\ expo b u' = expo b u + expo b z.
  Proof.
    intros N F. induction F as [|[k v] z [V K] F IH]; [exists 0%nat; intros f _ fac u NU; exists fac, u; split; [reflexivity|]; split; [exact NU|]; change (expo b []) with 0; ring|].
    inversion N as [|? ? N0 N1]; subst. cbn [fst snd] in *. destruct (IH N1) as [m2 H2].
    assert (AD : forall n u, NoDup (map fst u) -> exists u', c_add n v u = Ok u' /\ NoDup (map fst u') /\ expo b u' = expo b u + if String.eqb b n then v else 0).
    { intros n u NU. unfold c_add. destruct (is_zero (expo n u + v)) eqn:S.
      - apply is_zero_true in S. assert (H : dhas n u = true). { unfold dhas. destruct (dget n u) as [y|] eqn:G; [reflexivity|]. exfalso. unfold expo in S. rewrite G in S. lra. } rewrite H. exists (ddel n u). split; [reflexivity|]. split; [change (NoDup (dkeys (ddel n u))); rewrite (dkeys_ddel n u NU); apply NoDup_filter, NU|]. unfold expo. rewrite (dget_ddel b n u NU). destruct (String.eqb_spec b n) as [<-|]; [unfold expo in S; lra|ring].
      - exists (dset n (expo n u + v) u). split; [reflexivity|]. split; [apply NoDup_dset, NU|]. rewrite expo_dset. destruct (String.eqb_spec b n) as [<-|]; ring. }
    destruct K as [->|(w & e & W)].
    - exists m2. intros f L fac u NU. cbn [fold_left]. unfold base_step at 2. cbn [bind fst snd]. rewrite RB. cbn [bind fst snd]. rewrite BB. destruct (AD b u NU) as (u1 & A & NU1 & E1). rewrite A. cbn [bind]. rewrite OB. destruct (H2 f L None u1 NU1) as (fac2 & u2 & E2 & NU2 & X2). exists fac2, u2. split; [exact E2|]. split; [exact NU2|]. rewrite X2, E1, expo_cons, String.eqb_refl, (expo_none b z N0). ring.
    - destruct (proj1 (base_units r NM) k w e W) as (m1 & n & d & R & O & C). pose proof (worth_not_b k w e W) as KB. exists (max m1 m2). intros f L fac u NU. cbn [fold_left]. unfold base_step at 2. cbn [bind fst snd]. rewrite R. cbn [bind fst snd]. unfold is_offset. rewrite O. rewrite expo_cons, (proj2 (String.eqb_neq b k)) by congruence. destruct C as [(B & OWN & _ & _)|(B & u1 & g & E1 & _ & _ & Y1)]; rewrite B.
      + destruct (AD n u NU) as (u1 & A & NU1 & X1). rewrite A. cbn [bind]. destruct (H2 f ltac:(lia) fac u1 NU1) as (fac2 & u2 & E2 & NU2 & X2). exists fac2, u2. split; [exact E2|]. split; [exact NU2|]. rewrite X2, X1. rewrite (proj2 (String.eqb_neq b n)) by (intro; subst n; exact (own_not_b b OWN eq_refl)). ring.
      + rewrite E1 by lia. cbn [bind fst snd]. assert (NU1 : NoDup (map fst (c_mul u (c_pow u1 v)))) by (apply mul_nodup, NU). assert (X1 : expo b (c_mul u (c_pow u1 v)) = expo b u).
        { rewrite mul_mix, expo_clean by (apply mix_nodup, NU). rewrite mix_expo by (try rewrite pow_keys; try apply (y_nodup _ _ _ Y1); assumption). rewrite expo_pow, (expo_none b u1) by (eapply ready_b, Y1). ring. }
        destruct fac as [g0|]; cbn [bind]; [destruct (H2 f ltac:(lia) (Some (g0 * Rpower (u_scale d * g) v)) _ NU1) as (fac2 & u2 & E2 & NU2 & X2)|destruct (H2 f ltac:(lia) None _ NU1) as (fac2 & u2 & E2 & NU2 & X2)]; exists fac2, u2; (split; [exact E2|]; split; [exact NU2|]; rewrite X2, X1; reflexivity).
  Qed.
  Lemma parse_compound c w e v dl dd : c <> [] -> tidy_units r c -> worths r c w e -> dl = ("delta_" ++ b)%string -> resolve r dl = Ok (dl, dd) -> ~ In dl (map fst c) -> parse_units r (c ++ [(b, v)]) = Ok (c ++ [(dl, v)]).
  Proof.
    intros NE T W -> RD ND. pose proof (own_plain r c w e T W) as OP. destruct T as [N Z O]. unfold parse_units. assert (M : Nat.ltb 1 (List.length (c ++ [(b, v)])) = true) by (apply Nat.ltb_lt; rewrite app_length; destruct c; [contradiction|cbn; lia]). rewrite M. rewrite fold_left_app. cbn [orb andb].
    match goal with |- fold_left ?g _ (fold_left ?h _ _) = _ => assert (G : forall done l, done ++ l = c -> fold_left h l (Ok done) = Ok c) end.
    { intros done l. revert done. induction l as [|[k v'] l IH]; intros done E; [rewrite app_nil_r in E; subst; reflexivity|]. cbn [fold_left bind fst snd]. assert (I : In (k, v') c) by (rewrite <- E; apply in_or_app; right; left; reflexivity). rewrite Forall_forall in OP. destruct (OP _ I) as (d & R & OF). cbn [fst] in R. rewrite (proj2 (String.eqb_neq k _)) by (eapply not_dimensionless; eassumption). rewrite R. cbn [bind fst snd]. unfold is_offset. rewrite OF. rewrite dset_new; [apply IH; rewrite <- app_assoc; exact E|]. intro J. rewrite <- E, map_app in N. cbn [map fst] in N. apply NoDup_remove_2 in N. apply N. apply in_or_app. left. exact J. }
    rewrite (G [] c eq_refl). cbn [fold_left bind fst snd]. rewrite (proj2 (String.eqb_neq b _)) by (eapply not_dimensionless; eassumption). rewrite RB. cbn [bind fst snd]. rewrite OB. f_equal. apply dset_new. exact ND.
  Qed.
  Lemma over_compound shown c w e v dl dd : c <> [] -> tidy_units r c -> worths r c w e -> v <> 0 -> shown v = v -> Forall (fun kv => shown (snd kv) = snd kv) c ->
    dl = ("delta_" ++ b)%string -> resolve r dl = Ok (dl, dd) -> u_base dd = true -> u_offset dd = None -> ~ In dl (map fst c) ->
    exists m, forall f, (m <= f)%nat -> forall g x, over_unit shown f r {| q_mag := g; q_units := c ++ [(b, v)] |} x = Err ValueError.
  Proof.
    intros NE T W V SV SH DL RD BD OD ND. destruct (base_compound c w e v T W V) as (m1 & u & Y & B). destruct (convert_compound c u w e v NE T W Y) as [m2 C]. pose proof (ready_worths r u e Y) as U. destruct (dims_last u 1 e b v db U RB BB) as [m3 D3]. destruct (dims_last c w e dl v dd W RD BD) as [m4 D4].
    pose proof (worths_b _ _ _ W) as BC. pose proof (ready_b _ _ Y) as BU. pose proof (resolve_base r dl dl dd NM RD BD OD) as OWD. pose proof (own_not_b dl OWD) as DB. pose proof (t_nodup _ _ T) as NC. pose proof (y_nodup _ _ _ Y) as NU.
    pose proof (nodup_last u b v NU BU) as NU'. pose proof (nodup_last c dl v NC ND) as NC'. set (z := c_div (u ++ [(b, v)]) (c ++ [(dl, v)])).
    assert (NZ : NoDup (map fst z)) by (apply div_nodup, NU').
    assert (EZ : expo b z = v). { unfold z. rewrite div_mix, expo_clean by (apply mix_nodup, NU'). rewrite mix_expo by assumption. rewrite !expo_last by assumption. rewrite String.eqb_refl, (proj2 (String.eqb_neq b dl)) by congruence. rewrite (expo_none b c BC). ring. }
    assert (FZ : Forall (fun kv => snd kv <> 0 /\ (fst kv = b \/ exists w e, worth r (fst kv) w e)) z).
    { assert (F1 : Forall (fun kv => fst kv = b \/ exists w e, worth r (fst kv) w e) z).
      { unfold z. rewrite div_mix. apply forall_clean. apply (mix_keys (fun k => k = b \/ exists w e, worth r k w e)); apply Forall_app; (split; [|apply Forall_cons; [|apply Forall_nil]]); cbn [fst].
        - rewrite Forall_forall. intros kv I. right. exact (worths_in r _ _ _ kv U I).
        - left. reflexivity.
        - rewrite Forall_forall. intros kv I. right. exact (worths_in r _ _ _ kv W I).
        - right. eexists. eexists. apply own_worth, OWD. }
      assert (F2 : Forall (fun kv => snd kv <> 0) z) by (unfold z; rewrite div_mix; apply clean_nonzero). rewrite Forall_forall in *. intros kv I. split; [apply F2|apply F1]; exact I. }
    destruct (mixed_loop z NZ FZ) as [m5 H5]. exists (S (max m1 (max m2 (max m3 (max m4 m5))))). intros f L g x. unfold over_unit. cbn [q_units q_mag]. rewrite B by lia. cbn [bind snd]. rewrite C by lia. cbn [bind].
    assert (SM : map (fun kv => (fst kv, shown (snd kv))) (c ++ [(b, v)]) = c ++ [(b, v)]). { rewrite map_app. cbn [map fst snd]. rewrite SV. f_equal. clear - SH. induction SH as [|[k y] c E SH IH]; [reflexivity|]. cbn [map fst snd] in *. rewrite E, IH. reflexivity. }
    rewrite SM, (parse_compound c w e v dl dd NE T W DL RD ND). cbn [bind]. unfold convert.
    destruct (c_eq (u ++ [(b, v)]) (c ++ [(dl, v)])) eqn:Q. { exfalso. apply andb_true_iff in Q. destruct Q as [_ Q]. rewrite forallb_forall in Q. specialize (Q (b, v) ltac:(apply in_or_app; right; left; reflexivity)). cbn [fst snd] in Q. rewrite dget_app in Q. cbn [dget] in Q. rewrite (proj2 (dget_None_iff b c) BC), (proj2 (String.eqb_neq b dl)) in Q by congruence. discriminate. }
    destruct (D3 f ltac:(lia)) as [t3 E3]. destruct (D4 f ltac:(lia)) as [t4 E4]. rewrite E3, E4. cbn [bind]. fold z.
    assert (SC : bind (get_base_units f r z) (fun fu => match snd fu with [] => match fst fu with Some f0 => Ok (f0 * x) | None => Err TypeError end | _ :: _ => Err ValueError end) = Err ValueError).
    { destruct f as [|f]; [lia|]. rewrite gbu_S. destruct (H5 f ltac:(lia) (Some 1) [] (NoDup_nil _)) as (fac & u' & E5 & NU5 & X5). rewrite E5. cbn [bind snd fst]. destruct u' as [|kv u']; [|reflexivity]. exfalso. change (expo b []) with 0 in X5. rewrite EZ in X5. lra. }
    destruct u as [|[k0 v0] u]; cbn [app].
    - rewrite RB. cbn [bind snd]. destruct (u_offset db) as [o|]; [|exact SC || (cbn [app] in *; rewrite SC; reflexivity)]. destruct c as [|[k1 v1] [|kv c]]; [contradiction| |]; reflexivity.
    - destruct u as [|kv u]; cbn [app] in *; rewrite SC; reflexivity.
  Qed.
  Lemma times_compound c w e v : c <> [] -> tidy_units r c -> worths r c w e -> v <> 0 -> exists m u, forall f, (m <= f)%nat -> forall g x, times_unit f r {| q_mag := g; q_units := c ++ [(b, v)] |} x = Ok (x * w, {| q_mag := x * w; q_units := u |}).
  Proof.
    intros NE T W V. destruct (base_compound c w e v T W V) as (m1 & u & Y & B). destruct (convert_compound c u w e v NE T W Y) as [m2 C]. exists (max m1 m2), (u ++ [(b, v)]). intros f L g x. unfold times_unit. cbn [q_units]. rewrite B by lia. cbn [bind snd]. rewrite C by lia. reflexivity.
  Qed.
End Compound.
