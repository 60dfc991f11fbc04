(** * Proofs about units *)
From Coq Require Import Reals List Bool Arith String Lra Lia FunctionalExtensionality.
From Verif Require Import PyBase M_Units S_Units P_Dict.
Import ListNotations.
Local Open Scope R_scope.
Local Open Scope list_scope.

Lemma is_zero_true v : is_zero v = true <-> v = 0. Proof. unfold is_zero. destruct (Req_EM_T v 0); intuition congruence. Qed.
Lemma is_zero_false v : is_zero v = false <-> v <> 0. Proof. unfold is_zero. destruct (Req_EM_T v 0); intuition congruence. Qed.
Scheme worth_mut := Induction for worth Sort Prop with worths_mut := Induction for worths Sort Prop.
Combined Scheme worth_both from worth_mut, worths_mut.
Lemma worth_positive r : (forall k w e, worth r k w e -> 0 < w) /\ (forall c w e, worths r c w e -> 0 < w).
Proof. apply (worth_both r (fun k w e _ => 0 < w) (fun c w e _ => 0 < w)); intros; try lra; [apply Rmult_lt_0_compat; assumption|apply Rmult_lt_0_compat; [apply exp_pos|assumption]]. Qed.
Lemma worth_unique r : (forall k w e, worth r k w e -> forall w' e', worth r k w' e' -> w' = w /\ e' = e) /\ (forall c w e, worths r c w e -> forall w' e', worths r c w' e' -> w' = w /\ e' = e).
Proof.
  apply (worth_both r (fun k w e _ => forall w' e', worth r k w' e' -> w' = w /\ e' = e) (fun c w e _ => forall w' e', worths r c w' e' -> w' = w /\ e' = e)).
  - intros k n d R B O w' e' H. inversion H as [? n' d' R' B' O'|? n' d' w1 e1 R' B' O' P' F' W']; subst; rewrite R in R'; injection R' as <- <-; [split; reflexivity|congruence].
  - intros k n d w e R B O P F W IH w' e' H. inversion H as [? n' d' R' B' O'|? n' d' w1 e1 R' B' O' P' F' W']; subst; rewrite R in R'; injection R' as <- <-; [congruence|]. destruct (IH _ _ W') as [-> ->]. split; reflexivity.
  - intros w' e' H. inversion H; subst. split; reflexivity.
  - intros k v c w e w1 e1 W IH Ws IHs w' e' H. inversion H as [|? ? ? w2 e2 w3 e3 W2 W3]; subst. destruct (IH _ _ W2) as [-> ->]. destruct (IHs _ _ W3) as [-> ->]. split; reflexivity.
Qed.
Lemma worths_ext r c w e w' e' : worths r c w e -> w = w' -> (forall b, e b = e' b) -> worths r c w' e'.
Proof. intros W <- E. replace e' with e; [exact W|]. apply functional_extensionality, E. Qed.
Lemma worths_in r c w e kv : worths r c w e -> In kv c -> exists w' e', worth r (fst kv) w' e'.
Proof. intro W. induction W; intros []; [subst; eauto|auto]. Qed.

(** ** containers *)
Lemma expo_dset k k' v c : expo k (dset k' v c) = if String.eqb k k' then v else expo k c.
Proof. unfold expo. rewrite dget_dset. destruct (String.eqb k k'); reflexivity. Qed.
Lemma expo_cons k k' v c : expo k ((k', v) :: c) = if String.eqb k k' then v else expo k c.
Proof. unfold expo. cbn [dget]. destruct (String.eqb k k'); reflexivity. Qed.
Lemma expo_none k (c : container) : ~ In k (map fst c) -> expo k c = 0.
Proof. intro N. unfold expo. rewrite (proj2 (dget_None_iff k c)) by exact N. reflexivity. Qed.
Lemma worths_dset r c w e k v wk ek : worths r c w e -> NoDup (map fst c) -> worth r k wk ek -> worths r (dset k (expo k c + v) c) (w * Rpower wk v) (fun b => e b + v * ek b).
Proof.
  intros W. revert k v wk ek. induction W as [|k0 v0 c w e w' e' W0 Ws IH]; intros k v wk ek N K.
  - cbn [dset]. unfold expo at 1. cbn [dget]. apply (worths_ext r _ (Rpower wk (0 + v) * 1) (fun b => (0 + v) * ek b + 0)); [apply worths_cons; [exact K|apply worths_nil]|rewrite Rplus_0_l; ring|intro; ring].
  - inversion N as [|? ? N0 N1]; subst. cbn [fst] in *. cbn [dset]. destruct (String.eqb_spec k k0) as [->|D].
    + unfold expo. cbn [dget]. rewrite String.eqb_refl. destruct (proj1 (worth_unique r) _ _ _ W0 _ _ K) as [-> ->]. apply (worths_ext r _ (Rpower w (v0 + v) * w') (fun b => (v0 + v) * e b + e' b)); [apply worths_cons; assumption|rewrite Rpower_plus; ring|intro; ring].
    + replace (expo k ((k0, v0) :: c)) with (expo k c) by (unfold expo; cbn [dget]; rewrite (proj2 (String.eqb_neq k k0)) by exact D; reflexivity).
      apply (worths_ext r _ (Rpower w v0 * (w' * Rpower wk v)) (fun b => v0 * e b + (e' b + v * ek b))); [apply worths_cons; [exact W0|apply IH; assumption]|ring|intro; ring].
Qed.
Lemma worths_clean r c w e : worths r c w e -> worths r (c_clean c) w e.
Proof.
  intro W. induction W as [|k0 v0 c w e w' e' W0 Ws IH]; [apply worths_nil|]. cbn [c_clean filter snd]. destruct (is_zero v0) eqn:Z; cbn [negb].
  - apply is_zero_true in Z. subst v0. apply (worths_ext r _ w' e'); [exact IH|rewrite Rpower_O by (apply (proj1 (worth_positive r) _ _ _ W0)); ring|intro; ring].
  - apply worths_cons; assumption.
Qed.
Lemma clean_nodup c : NoDup (map fst c) -> NoDup (map fst (c_clean c)).
Proof.
  induction c as [|[k v] c IH]; intro N; [constructor|]. inversion N as [|? ? N0 N1]; subst. cbn [c_clean filter snd]. destruct (is_zero v); cbn [negb]; [apply IH, N1|]. cbn [map fst]. constructor; [|apply IH, N1].
  intro I. apply N0. apply in_map_iff in I. destruct I as ([k' v'] & <- & I). apply filter_In in I. apply in_map_iff. exists (k', v'). split; [reflexivity|apply I].
Qed.
Lemma clean_nonzero c : Forall (fun kv => snd kv <> 0) (c_clean c).
Proof. apply Forall_forall. intros kv I. apply filter_In in I. destruct I as [_ Z]. apply is_zero_false. destruct (is_zero (snd kv)); [discriminate|reflexivity]. Qed.
Lemma dget_clean k c : NoDup (map fst c) -> dget k (c_clean c) = match dget k c with Some v => if is_zero v then None else Some v | None => None end.
Proof.
  induction c as [|[k' v] c IH]; intro N; [reflexivity|]. inversion N as [|? ? N0 N1]; subst. cbn [c_clean filter snd dget]. destruct (String.eqb_spec k k') as [->|D].
  - destruct (is_zero v) eqn:Z; cbn [negb]; [|cbn [dget]; rewrite String.eqb_refl; reflexivity]. fold (c_clean c). rewrite IH by exact N1. rewrite (proj2 (dget_None_iff k' c)) by exact N0. reflexivity.
  - destruct (is_zero v) eqn:Z; cbn [negb]; [apply IH, N1|]. cbn [dget]. rewrite (proj2 (String.eqb_neq k k')) by exact D. apply IH, N1.
Qed.
Lemma expo_clean k c : NoDup (map fst c) -> expo k (c_clean c) = expo k c.
Proof. intro N. unfold expo. rewrite dget_clean by exact N. destruct (dget k c) as [v|]; [|reflexivity]. destruct (is_zero v) eqn:Z; [apply is_zero_true in Z; congruence|reflexivity]. Qed.
(** the common form of products and quotients: [s] is 1 or -1 *)
Definition mix (s : R) (a b : container) : container := fold_left (fun acc kv => dset (fst kv) (expo (fst kv) acc + s * snd kv) acc) b a.
Lemma mul_mix a b : c_mul a b = c_clean (mix 1 a b).
Proof. unfold c_mul, mix. f_equal. revert a. induction b as [|kv b IH]; intro a; cbn [fold_left]; [reflexivity|]. rewrite <- IH. f_equal. f_equal. ring. Qed.
Lemma div_mix a b : c_div a b = c_clean (mix (-1) a b).
Proof. unfold c_div, mix. f_equal. revert a. induction b as [|kv b IH]; intro a; cbn [fold_left]; [reflexivity|]. rewrite <- IH. f_equal. f_equal. ring. Qed.
Lemma mix_nodup s a b : NoDup (map fst a) -> NoDup (map fst (mix s a b)).
Proof. revert a. induction b as [|kv b IH]; intros a N; [exact N|]. apply IH. apply NoDup_dset, N. Qed.
Lemma mix_worths r s a b wa ea wb eb : NoDup (map fst a) -> worths r a wa ea -> worths r b wb eb -> worths r (mix s a b) (wa * Rpower wb s) (fun x => ea x + s * eb x).
Proof.
  intros N A B. revert a wa ea N A. induction B as [|k v b w e w' e' W Ws IH]; intros a wa ea N A.
  - apply (worths_ext r _ wa ea); [exact A|unfold Rpower; rewrite ln_1, Rmult_0_r, exp_0; ring|intro; ring].
  - cbn [mix fold_left fst snd]. pose proof (worths_dset r a wa ea k (s * v) w e A N W) as D. pose proof (proj1 (worth_positive r) _ _ _ W). pose proof (proj2 (worth_positive r) _ _ _ Ws).
    apply (worths_ext r _ (wa * Rpower w (s * v) * Rpower w' s) (fun x => ea x + s * v * e x + s * e' x)); [apply IH; [apply NoDup_dset, N|exact D]| |intro; ring].
    rewrite <- Rpower_mult_distr by (try apply exp_pos; assumption). rewrite Rpower_mult. rewrite (Rmult_comm v s). ring.
Qed.
Lemma mix_expo s k a b : NoDup (map fst a) -> NoDup (map fst b) -> expo k (mix s a b) = expo k a + s * expo k b.
Proof.
  intro N. revert a N. induction b as [|[k' v] b IH]; intros a N M; [unfold expo at 3; cbn; ring|]. inversion M as [|? ? M0 M1]; subst. cbn [mix fold_left fst snd]. change (fold_left _ b ?x) with (mix s x b). rewrite IH by (try apply NoDup_dset; assumption). rewrite expo_dset.
  rewrite expo_cons. destruct (String.eqb_spec k k') as [->|D]; [|reflexivity]. rewrite (expo_none k' b) by exact M0. ring.
Qed.
Lemma pow_worths r n a w e : worths r a w e -> worths r (c_pow a n) (Rpower w n) (fun x => n * e x).
Proof.
  intro W. induction W as [|k v c w e w' e' W Ws IH].
  - apply (worths_ext r _ 1 (fun _ => 0)); [apply worths_nil|unfold Rpower; rewrite ln_1, Rmult_0_r, exp_0; reflexivity|intro; ring].
  - cbn [c_pow map fst snd]. pose proof (proj1 (worth_positive r) _ _ _ W). pose proof (proj2 (worth_positive r) _ _ _ Ws). apply (worths_ext r _ (Rpower w (v * n) * Rpower w' n) (fun x => v * n * e x + n * e' x)); [apply worths_cons; assumption| |intro; ring].
    rewrite <- Rpower_mult_distr by (try apply exp_pos; assumption). rewrite Rpower_mult. reflexivity.
Qed.
Lemma pow_keys a n : map fst (c_pow a n) = map fst a.
Proof. unfold c_pow. rewrite map_map. reflexivity. Qed.
Lemma expo_pow k a n : expo k (c_pow a n) = expo k a * n.
Proof. induction a as [|[k' v] a IH]; [unfold expo; cbn; ring|]. unfold expo in *. cbn [c_pow map fst snd dget]. destruct (String.eqb k k'); [reflexivity|exact IH]. Qed.
Lemma mul_worths r a b wa ea wb eb : NoDup (map fst a) -> worths r a wa ea -> worths r b wb eb -> worths r (c_mul a b) (wa * wb) (fun x => ea x + eb x).
Proof. intros N A B. rewrite mul_mix. apply worths_clean. pose proof (proj2 (worth_positive r) _ _ _ B). apply (worths_ext r _ (wa * Rpower wb 1) (fun x => ea x + 1 * eb x)); [apply mix_worths; assumption|rewrite Rpower_1 by assumption; reflexivity|intro; ring]. Qed.
Lemma div_worths r a b wa ea wb eb : NoDup (map fst a) -> worths r a wa ea -> worths r b wb eb -> worths r (c_div a b) (wa / wb) (fun x => ea x - eb x).
Proof. intros N A B. rewrite div_mix. apply worths_clean. pose proof (proj2 (worth_positive r) _ _ _ B). apply (worths_ext r _ (wa * Rpower wb (-1)) (fun x => ea x + -1 * eb x)); [apply mix_worths; assumption| |intro; ring]. replace (-1) with (- (1)) by ring. rewrite Rpower_Ropp, Rpower_1 by assumption. reflexivity. Qed.
Lemma mul_nodup a b : NoDup (map fst a) -> NoDup (map fst (c_mul a b)). Proof. intro N. rewrite mul_mix. apply clean_nodup, mix_nodup, N. Qed.
Lemma div_nodup a b : NoDup (map fst a) -> NoDup (map fst (c_div a b)). Proof. intro N. rewrite div_mix. apply clean_nodup, mix_nodup, N. Qed.

Lemma gbu_S f r c : get_base_units (S f) r c = fold_left (base_step r (get_base_units f r)) c (Ok (Some 1, [])). Proof. reflexivity. Qed.
Lemma dims_S f r c : get_dimensionality (S f) r c = bind (fold_left (dims_step r (get_dimensionality f r) (negb (Nat.eqb (List.length c) 1))) c (Ok [])) (fun d => Ok (ddel "[]" d)). Proof. reflexivity. Qed.
(** ** base units *)
(** keys of the result: base units under their own names *)
Definition own_base (r : registry) (k : string) : Prop := exists d, dget k (r_units r) = Some d /\ u_name d = k /\ u_base d = true /\ u_offset d = None /\ k <> "dimensionless"%string.
Lemma own_resolves r k : own_base r k -> exists d, resolve r k = Ok (k, d) /\ u_base d = true /\ u_offset d = None.
Proof. intros (d & G & N & B & O & X). exists d. unfold resolve, get_name. rewrite (proj2 (String.eqb_neq k _)) by exact X. rewrite G. cbn [bind fst snd]. rewrite N, G. auto. Qed.
Lemma own_worth r k : own_base r k -> worth r k 1 (fun b => if String.eqb b k then 1 else 0).
Proof. intro O. destruct (own_resolves r k O) as (d & R & B & F). apply (worth_base r k k d); assumption. Qed.
Lemma candidates_named r s p u : In (p, u) (candidates r s) -> exists k d, dget k (r_units r) = Some d /\ u_name d = u.
Proof.
  unfold candidates. intro I. apply in_flat_map in I. destruct I as (suf & _ & I). apply in_flat_map in I. destruct I as (q & _ & I). destruct (_ && _) in I; [|contradiction]. cbn zeta in I. destruct (_ && _) in I; [contradiction|].
  match type of I with In _ (match ?x with _ => _ end) => destruct x as [d|] eqn:G end; [|contradiction]. destruct I as [E|[]]. injection E as _ <-. eauto.
Qed.
Lemma resolve_own r k n d : named r -> resolve r k = Ok (n, d) -> u_base d = true -> dget n (r_units r) = Some d /\ u_name d = n /\ n <> "dimensionless"%string.
Proof.
  intros (ND & NE & NM) R B. assert (G : forall n', dget n' (r_units r) = Some d -> (exists k d', dget k (r_units r) = Some d' /\ u_name d' = n') -> dget n' (r_units r) = Some d /\ u_name d = n' /\ n' <> "dimensionless"%string).
  { intros n' G (k' & d' & G' & <-). pose proof (NM _ _ G') as G2. rewrite G2 in G. injection G as <-. repeat split; [exact G2|]. intro E. rewrite E in G2. congruence. }
  unfold resolve, get_name in R. destruct (String.eqb k "dimensionless"); cbn [bind fst snd] in R; [rewrite NE in R; discriminate|].
  destruct (dget k (r_units r)) as [d'|] eqn:K; cbn [bind fst snd] in R.
  - rewrite (NM _ _ K) in R. injection R as <- <-. apply G; [exact (NM _ _ K)|eauto].
  - destruct (candidates r k) as [|[p u] l] eqn:C; [discriminate|]. assert (CN : exists k d, dget k (r_units r) = Some d /\ u_name d = u) by (apply (candidates_named r k p); rewrite C; left; reflexivity). destruct (String.eqb p ""); cbn [bind fst snd] in R.
    + destruct (dget u (r_units r)) as [d'|] eqn:U; [|discriminate]. injection R as <- <-. apply G; assumption.
    + destruct (dget p (r_prefixes r)) as [[? f]|]; cbn [bind fst snd] in R; [|discriminate]. cbn [r_units] in R. rewrite dget_dset_eq in R. injection R as _ <-. discriminate B.
Qed.
Lemma resolve_base r k n d : named r -> resolve r k = Ok (n, d) -> u_base d = true -> u_offset d = None -> own_base r n.
Proof. intros N R B O. destruct (resolve_own r k n d N R B) as (G & U & X). exists d. auto. Qed.
(** what the accumulated units of the loop look like *)
Record ready (r : registry) (u : container) (e : string -> R) : Prop := { y_nodup : NoDup (map fst u); y_nonzero : Forall (fun kv => snd kv <> 0) u; y_base : Forall (fun kv => own_base r (fst kv)) u; y_expo : forall b, expo b u = e b }.
Lemma ready_worths r u e : ready r u e -> worths r u 1 e.
Proof.
  intros [N _ B E]. assert (H : worths r u 1 (fun b => expo b u)).
  { clear E e. induction u as [|[k v] u IH]; [apply worths_nil|]. inversion N as [|? ? N0 N1]; subst. inversion B as [|? ? B0 B1]; subst. cbn [fst] in *. apply (worths_ext r _ (Rpower 1 v * 1) (fun b => v * (if String.eqb b k then 1 else 0) + expo b u)); [apply worths_cons; [apply own_worth, B0|apply IH; assumption]|unfold Rpower; rewrite ln_1, Rmult_0_r, exp_0; ring|].
    intro b. unfold expo. cbn [dget]. destruct (String.eqb_spec b k) as [->|]; [|ring]. rewrite (proj2 (dget_None_iff k u)) by exact N0. ring. }
  apply (worths_ext r _ _ _ _ _ H eq_refl E).
Qed.
Lemma dget_in_forall (P : string * R -> Prop) (c : container) k v : Forall P c -> dget k c = Some v -> P (k, v).
Proof. intros F G. apply dget_Some_In in G. rewrite Forall_forall in F. apply F, G. Qed.
Lemma ready_of r (u : container) e : NoDup (map fst u) -> Forall (fun kv => snd kv <> 0) u -> Forall (fun kv => own_base r (fst kv)) u -> (forall b, expo b u = e b) -> ready r u e.
Proof. intros. constructor; assumption. Qed.
Lemma forall_dset (P : string * R -> Prop) (c : container) k v : Forall P c -> P (k, v) -> Forall P (dset k v c).
Proof. intros F H. induction F as [|[k' v'] c H0 F IH]; cbn [dset]; [constructor; [exact H|constructor]|]. destruct (String.eqb_spec k k') as [<-|]; constructor; assumption. Qed.
Lemma forall_ddel (P : string * R -> Prop) (c : container) k : Forall P c -> Forall P (ddel k c).
Proof. intro F. induction F as [|[k' v'] c H0 F IH]; cbn [ddel]; [constructor|]. destruct (String.eqb k k'); [exact F|constructor; assumption]. Qed.
Lemma ready_add r u e k v : ready r u e -> own_base r k -> v <> 0 -> exists u', c_add k v u = Ok u' /\ ready r u' (fun b => e b + v * (if String.eqb b k then 1 else 0)).
Proof.
  intros [N Z B E] O V. unfold c_add. destruct (is_zero (expo k u + v)) eqn:S.
  - apply is_zero_true in S. assert (H : dhas k u = true). { unfold dhas. destruct (dget k u) as [x|] eqn:G; [reflexivity|]. exfalso. unfold expo in S. rewrite G in S. lra. } rewrite H. exists (ddel k u). split; [reflexivity|]. constructor.
    + change (NoDup (dkeys (ddel k u))). pose proof (dkeys_ddel k u N) as D. rewrite D. apply NoDup_filter, N.
    + apply forall_ddel, Z.
    + apply forall_ddel, B.
    + intro b. unfold expo. rewrite (dget_ddel b k u N). destruct (String.eqb_spec b k) as [->|]; [|fold (expo b u); rewrite E; ring]. rewrite <- E. lra.
  - apply is_zero_false in S. exists (dset k (expo k u + v) u). split; [reflexivity|]. constructor.
    + apply NoDup_dset, N.
    + apply forall_dset; [exact Z|exact S].
    + apply forall_dset; [exact B|exact O].
    + intro b. rewrite expo_dset. destruct (String.eqb_spec b k) as [->|]; rewrite E; ring.
Qed.
Lemma forall_clean (P : string * R -> Prop) (c : container) : Forall P c -> Forall P (c_clean c).
Proof. intro F. apply Forall_forall. intros x I. apply filter_In in I. rewrite Forall_forall in F. apply F, I. Qed.
Lemma mix_keys (P : string -> Prop) s a b : Forall (fun kv => P (fst kv)) a -> Forall (fun kv => P (fst kv)) b -> Forall (fun kv => P (fst kv)) (mix s a b).
Proof. intros A B. revert a A. induction B as [|kv b H B IH]; intros a A; [exact A|]. apply IH. apply forall_dset; assumption. Qed.
Lemma pow_forall (P : string -> Prop) a n : Forall (fun kv => P (fst kv)) a -> Forall (fun kv => P (fst kv)) (c_pow a n).
Proof. intro F. induction F; constructor; assumption. Qed.
Lemma ready_mul r u e u' e' v : ready r u e -> ready r u' e' -> ready r (c_mul u (c_pow u' v)) (fun b => e b + v * e' b).
Proof.
  intros [N Z B E] [N' Z' B' E']. rewrite mul_mix. constructor.
  - apply clean_nodup, mix_nodup, N.
  - apply clean_nonzero.
  - apply forall_clean, (mix_keys (own_base r)); [exact B|apply pow_forall, B'].
  - intro b. rewrite expo_clean by (apply mix_nodup, N). rewrite mix_expo by (try rewrite pow_keys; assumption). rewrite expo_pow, E, E'. ring.
Qed.
Lemma ready_nil r : ready r [] (fun _ => 0).
Proof. constructor; [constructor|constructor|constructor|reflexivity]. Qed.
Lemma ready_ext r u e e' : ready r u e -> (forall b, e b = e' b) -> ready r u e'.
Proof. intros [N Z B E] H. constructor; try assumption. intro b. rewrite E. apply H. Qed.
Lemma base_units r : named r -> (forall k w e, worth r k w e -> exists m n d, resolve r k = Ok (n, d) /\ u_offset d = None /\
    (u_base d = true /\ own_base r n /\ w = 1 /\ e = (fun b => if String.eqb b n then 1 else 0) \/ u_base d = false /\ exists u g, (forall f, (m <= f)%nat -> get_base_units f r (u_ref d) = Ok (Some g, u)) /\ w = u_scale d * g /\ 0 < g /\ ready r u e)) /\
  (forall c w e, worths r c w e -> Forall (fun kv => snd kv <> 0) c -> exists m, forall g u e0, ready r u e0 -> exists u', (forall f, (m <= f)%nat -> fold_left (base_step r (get_base_units f r)) c (Ok (Some g, u)) = Ok (Some (g * w), u')) /\ ready r u' (fun b => e0 b + e b)).
Proof.
  intro NM. apply (worth_both r (fun k w e _ => exists m n d, resolve r k = Ok (n, d) /\ u_offset d = None /\
    (u_base d = true /\ own_base r n /\ w = 1 /\ e = (fun b => if String.eqb b n then 1 else 0) \/ u_base d = false /\ exists u g, (forall f, (m <= f)%nat -> get_base_units f r (u_ref d) = Ok (Some g, u)) /\ w = u_scale d * g /\ 0 < g /\ ready r u e))
    (fun c w e _ => Forall (fun kv => snd kv <> 0) c -> exists m, forall g u e0, ready r u e0 -> exists u', (forall f, (m <= f)%nat -> fold_left (base_step r (get_base_units f r)) c (Ok (Some g, u)) = Ok (Some (g * w), u')) /\ ready r u' (fun b => e0 b + e b))).
  - intros k n d R B O. exists 0%nat, n, d. split; [exact R|]. split; [exact O|]. left. split; [exact B|]. split; [eapply resolve_base; eassumption|split; reflexivity].
  - intros k n d w e R B O P F W IH. destruct (IH F) as [m H]. exists (S m), n, d. split; [exact R|]. split; [exact O|]. right. split; [exact B|]. destruct (H 1 [] (fun _ => 0) (ready_nil r)) as (u & E & Y). exists u, w. split; [intros [|f] L; [lia|]; transitivity (Ok (Some (1 * w), u)); [apply E; lia|do 3 f_equal; ring]|]. split; [reflexivity|]. split; [apply (proj2 (worth_positive r) _ _ _ W)|]. apply (ready_ext r _ _ _ Y). intro; ring.
  - intros _. exists 0%nat. intros g u e0 Y. exists u. split; [intros f _; cbn [fold_left]; do 3 f_equal; ring|]. apply (ready_ext r _ _ _ Y). intro; ring.
  - intros k v c w e w' e' W (m1 & n & d & R & O & C) Ws IHs F. inversion F as [|? ? F0 F1]; subst. destruct (IHs F1) as [m2 H2]. cbn [snd] in F0. exists (max m1 m2). intros g u e0 Y.
    assert (ST : forall f, base_step r (get_base_units f r) (Ok (Some g, u)) (k, v) = if u_base d then bind (c_add n v u) (fun u' => Ok (Some g, u')) else bind (get_base_units f r (u_ref d)) (fun fu' => bind (match fst fu' with Some h => Ok (Some (g * Rpower (u_scale d * h) v)) | None => Err TypeError end) (fun factor' => Ok (factor', c_mul u (c_pow (snd fu') v))))).
    { intro f. unfold base_step. cbn [bind fst snd]. rewrite R. cbn [bind fst snd]. unfold is_offset. rewrite O. reflexivity. }
    destruct C as [(B & OB & -> & ->)|(B & u1 & g1 & E1 & -> & GP & Y1)]; rewrite B in ST.
    + destruct (ready_add r u e0 n v Y OB F0) as (u2 & A & Y2). rewrite A in ST. cbn [bind] in ST. destruct (H2 g u2 _ Y2) as (u3 & E3 & Y3). exists u3. split; [intros f L; cbn [fold_left]; rewrite ST, E3 by lia; do 3 f_equal; unfold Rpower; rewrite ln_1, Rmult_0_r, exp_0; ring|]. apply (ready_ext r _ _ _ Y3). intro; ring.
    + destruct (H2 (g * Rpower (u_scale d * g1) v) _ _ (ready_mul r u e0 u1 e v Y Y1)) as (u3 & E3 & Y3). exists u3. split; [intros f L; cbn [fold_left]; rewrite ST, E1 by lia; cbn [bind fst snd]; rewrite E3 by lia; do 3 f_equal; ring|]. apply (ready_ext r _ _ _ Y3). intro; ring.
Qed.
Lemma base_of r c w e : named r -> worths r c w e -> Forall (fun kv => snd kv <> 0) c -> exists m u, (forall f, (m <= f)%nat -> get_base_units f r c = Ok (Some w, u)) /\ ready r u e.
Proof. intros N W Z. destruct (proj2 (base_units r N) c w e W Z) as [m H]. destruct (H 1 [] _ (ready_nil r)) as (u & E & Y). exists (S m), u. split; [intros [|f] L; [lia|]; transitivity (Ok (Some (1 * w), u)); [apply E; lia|do 3 f_equal; ring]|]. apply (ready_ext r _ _ _ Y). intro; ring. Qed.
Lemma dims_of r : (forall k w e, worth r k w e -> exists m, forall f, (m <= f)%nat -> exists n d, resolve r k = Ok (n, d) /\ u_offset d = None /\ (u_base d = true \/ u_base d = false /\ exists t, get_dimensionality f r (u_ref d) = Ok t)) /\
  (forall c w e, worths r c w e -> exists m, forall f, (m <= f)%nat -> forall b t, exists t', fold_left (dims_step r (get_dimensionality f r) b) c (Ok t) = Ok t').
Proof.
  apply (worth_both r (fun k w e _ => exists m, forall f, (m <= f)%nat -> exists n d, resolve r k = Ok (n, d) /\ u_offset d = None /\ (u_base d = true \/ u_base d = false /\ exists t, get_dimensionality f r (u_ref d) = Ok t))
    (fun c w e _ => exists m, forall f, (m <= f)%nat -> forall b t, exists t', fold_left (dims_step r (get_dimensionality f r) b) c (Ok t) = Ok t')).
  - intros k n d R B O. exists 0%nat. intros f _. exists n, d. auto.
  - intros k n d w e R B O P F W [m H]. exists (S m). intros [|f] L; [lia|]. exists n, d. split; [exact R|]. split; [exact O|]. right. split; [exact B|]. destruct (H f ltac:(lia) (negb (List.length (u_ref d) =? 1)%nat) []) as [t E]. exists (ddel "[]" t). rewrite dims_S. transitivity (bind (Ok t) (fun d => Ok (ddel "[]" d))); [f_equal; exact E|reflexivity].
  - exists 0%nat. intros f _ b t. exists t. reflexivity.
  - intros k v c w e w' e' W [m1 H1] Ws [m2 H2]. exists (max m1 m2). intros f L b t. destruct (H1 f ltac:(lia)) as (n & d & R & O & C). cbn [fold_left]. unfold dims_step at 2. cbn [bind fst snd]. rewrite R. cbn [bind fst snd]. destruct C as [B|(B & t1 & E1)]; rewrite B; [apply H2; lia|]. unfold is_offset. rewrite O, andb_false_r, E1. cbn [bind]. apply H2. lia.
Qed.
Lemma dims_ok r c w e : worths r c w e -> exists m, forall f, (m <= f)%nat -> exists t, get_dimensionality f r c = Ok t.
Proof. intro W. destruct (proj2 (dims_of r) c w e W) as [m H]. exists (S m). intros [|f] L; [lia|]. destruct (H f ltac:(lia) (negb (List.length c =? 1)%nat) []) as [t E]. exists (ddel "[]" t). rewrite dims_S. transitivity (bind (Ok t) (fun d => Ok (ddel "[]" d))); [f_equal; exact E|reflexivity]. Qed.
(** ** conversion *)
Lemma c_eq_worths r a b wa ea wb eb : NoDup (map fst a) -> NoDup (map fst b) -> c_eq a b = true -> worths r a wa ea -> worths r b wb eb -> wa = wb /\ forall x, ea x = eb x.
Proof.
  intros NA NB E A B. apply andb_true_iff in E. destruct E as [L E]. apply Nat.eqb_eq in L. rewrite forallb_forall in E.
  assert (IN : incl a b). { intros [k v] I. specialize (E _ I). cbn [fst snd] in E. destruct (dget k b) as [v'|] eqn:G; [|discriminate]. apply is_zero_true in E. replace v with v' by lra. apply dget_Some_In, G. }
  assert (D : worths r (c_div a b) (wa / wb) (fun x => ea x - eb x)) by (apply div_worths; assumption).
  assert (Z : c_div a b = []). { rewrite div_mix. assert (X : forall k, expo k (mix (-1) a b) = 0). { intro k. rewrite mix_expo by assumption. assert (IB : incl b a). { apply NoDup_length_incl; [apply (NoDup_map_inv _ _ NA)|rewrite L; apply le_n|exact IN]. } unfold expo. destruct (dget k a) as [v|] eqn:G.
      - rewrite (In_dget k v b NB); [ring|]. apply IN, dget_Some_In, G.
      - destruct (dget k b) as [v|] eqn:G'; [|ring]. exfalso. apply dget_Some_In in G'. apply IB in G'. rewrite (In_dget k v a NA G') in G. discriminate. }
    pose proof (mix_nodup (-1) a b NA) as NX. set (c := mix (-1) a b) in *. clearbody c. clear - X NX. induction c as [|[k v] c IH]; [reflexivity|]. cbn [c_clean filter snd]. inversion NX as [|? ? N0 N1]; subst. pose proof (X k) as K. unfold expo in K. cbn [dget] in K. rewrite String.eqb_refl in K. rewrite (proj2 (is_zero_true v) K). cbn [negb]. apply IH; [|exact N1].
    intro q. specialize (X q). rewrite expo_cons in X. destruct (String.eqb_spec q k) as [QK|]; [|exact X]. rewrite QK. apply expo_none, N0. }
  rewrite Z in D. inversion D as [E1 E2|]; subst. pose proof (proj2 (worth_positive r) _ _ _ B). split; [apply (Rmult_eq_reg_r (/ wb)); [|apply Rinv_neq_0_compat; lra]; rewrite Rinv_r by lra; symmetry; assumption|]. intro x. match goal with H : (fun _ => 0) = _ |- _ => pose proof (equal_f H x) as F end. cbn beta in F. lra.
Qed.
Lemma expo_nil_iff (u : container) : NoDup (map fst u) -> Forall (fun kv => snd kv <> 0) u -> (u = [] <-> forall b, expo b u = 0).
Proof.
  intros N Z. split; [intros -> b; reflexivity|]. intro E. destruct u as [|[k v] u]; [reflexivity|]. exfalso. inversion Z as [|? ? Z0 Z1]; subst. specialize (E k). unfold expo in E. cbn [dget] in E. rewrite String.eqb_refl in E. apply Z0, E.
Qed.
Lemma convert_worths r src dst w1 e1 w2 e2 : named r -> NoDup (map fst src) -> NoDup (map fst dst) -> worths r src w1 e1 -> worths r dst w2 e2 ->
  exists m, forall f, (m <= f)%nat -> ((forall b, e1 b = e2 b) -> forall x, convert f r x src dst = Ok (x * w1 / w2)) /\ (~ (forall b, e1 b = e2 b) -> forall x, convert f r x src dst = Err ValueError).
Proof.
  intros NM N1 N2 W1 W2. pose proof (proj2 (worth_positive r) _ _ _ W1). pose proof (proj2 (worth_positive r) _ _ _ W2). destruct (c_eq src dst) eqn:Q.
  - destruct (c_eq_worths r _ _ _ _ _ _ N1 N2 Q W1 W2) as [-> E]. exists 0%nat. intros f _. unfold convert. rewrite Q. split; [intros _ x; f_equal; field; lra|intro H'; contradiction].
  - destruct (dims_ok r _ _ _ W1) as [m1 D1]. destruct (dims_ok r _ _ _ W2) as [m2 D2]. pose proof (div_worths r _ _ _ _ _ _ N1 W1 W2) as W. assert (Z : Forall (fun kv => snd kv <> 0) (c_div src dst)) by (rewrite div_mix; apply clean_nonzero). destruct (base_of r _ _ _ NM W Z) as (m3 & u & D3 & Y).
    exists (max m1 (max m2 m3)). intros f L. destruct (D1 f ltac:(lia)) as [t1 E1]. destruct (D2 f ltac:(lia)) as [t2 E2]. pose proof (D3 f ltac:(lia)) as E3.
    assert (S : forall x, convert f r x src dst = match u with _ :: _ => Err ValueError | [] => Ok (w1 / w2 * x) end).
    { intro x. unfold convert. rewrite Q, E1, E2, E3. cbn [bind fst snd]. destruct src as [|[k v] src]; [reflexivity|]. destruct src; [|reflexivity]. inversion W1 as [|? ? ? ? ? ? ? W0 _]; subst. assert (X : exists n d, resolve r k = Ok (n, d) /\ u_offset d = None) by (inversion W0; subst; eauto). destruct X as (n & d & R & O). rewrite R. cbn [bind snd]. rewrite O. reflexivity. }
    pose proof (expo_nil_iff u (y_nodup _ _ _ Y) (y_nonzero _ _ _ Y)) as NI. split; intros HE x; rewrite S.
    + rewrite (proj2 NI); [f_equal; field; lra|]. intro b. rewrite (y_expo _ _ _ Y). rewrite HE. ring.
    + destruct u; [|reflexivity]. exfalso. apply HE. intro b. pose proof (y_expo _ _ _ Y b) as EB. unfold expo in EB. cbn [dget] in EB. lra.
Qed.
