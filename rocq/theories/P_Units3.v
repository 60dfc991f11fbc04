(** * Temperatures and names *)
From Coq Require Import Reals List Bool Arith String Ascii Lra Lia.
From Verif Require Import PyBase M_Units S_Units P_Dict P_Units P_Units2.
Import ListNotations.
Local Open Scope R_scope.
Local Open Scope list_scope.

Lemma zero_one : is_zero 1 = false. Proof. apply is_zero_false. lra. Qed.
Lemma base_offset f r k d b db : resolve r k = Ok (k, d) -> u_base d = false -> is_offset d = true -> u_ref d = [(b, 1)] -> resolve r b = Ok (b, db) -> u_base db = true -> is_offset db = true -> (2 <= f)%nat ->
  get_base_units f r [(k, 1)] = Ok (None, [(b, 1)]) /\ get_base_units f r [(b, 1)] = Ok (None, [(b, 1)]) /\ (exists t, get_dimensionality f r [(k, 1)] = Ok t) /\ (exists t, get_dimensionality f r [(b, 1)] = Ok t).
Proof.
  intros R B O F RB BB OB L. destruct f as [|[|f]]; [lia|lia|].
  assert (G : forall f, get_base_units (S f) r [(b, 1)] = Ok (None, [(b, 1)])). { intro f'. rewrite gbu_S. cbn [fold_left]. unfold base_step. cbn [bind fst snd]. rewrite RB. cbn [bind fst snd]. rewrite OB, BB. unfold c_add. change (expo b []) with 0. rewrite Rplus_0_l, zero_one. reflexivity. }
  assert (D : forall f, exists t, get_dimensionality (S f) r [(b, 1)] = Ok t). { intro f'. rewrite dims_S. cbn [fold_left]. unfold dims_step. cbn [bind fst snd]. rewrite RB. cbn [bind fst snd]. rewrite BB. cbn [bind]. eauto. }
  split; [|split; [apply G|split; [|apply D]]].
  - rewrite gbu_S. cbn [fold_left]. unfold base_step. cbn [bind fst snd]. rewrite R. cbn [bind fst snd]. rewrite O, B, F, G. cbn [bind fst snd]. unfold c_mul, c_pow. cbn [map fst snd fold_left dset]. change (expo b []) with 0. rewrite Rplus_0_l, Rmult_1_r. cbn [c_clean filter snd]. rewrite zero_one. reflexivity.
  - rewrite dims_S. cbn [fold_left List.length Nat.eqb negb]. unfold dims_step. cbn [bind fst snd andb]. rewrite R. cbn [bind fst snd]. rewrite B, F. destruct (D f) as [t E]. rewrite E. cbn [bind]. eauto.
Qed.
Lemma one_eq a b : a <> b -> c_eq [(a, 1)] [(b, 1)] = false.
Proof. intro N. unfold c_eq. cbn. rewrite (proj2 (String.eqb_neq a b)) by exact N. reflexivity. Qed.
Lemma convert_offset f r x k k' n n' d d' o o' : k <> k' -> resolve r k = Ok (n, d) -> resolve r k' = Ok (n', d') -> u_offset d = Some o -> u_offset d' = Some o' -> (exists t, get_dimensionality f r [(k, 1)] = Ok t) -> (exists t, get_dimensionality f r [(k', 1)] = Ok t) ->
  convert f r x [(k, 1)] [(k', 1)] = Ok ((x / u_scale d + o - o') * u_scale d').
Proof. intros N R R' O O' [t T] [t' T']. unfold convert. rewrite one_eq by exact N. rewrite T, T'. cbn [bind]. rewrite R. cbn [bind snd]. rewrite O, R'. cbn [bind snd]. rewrite O'. reflexivity. Qed.
Lemma convert_same f r x k : convert f r x [(k, 1)] [(k, 1)] = Ok x.
Proof. unfold convert, c_eq. cbn. rewrite String.eqb_refl. replace (1 - 1) with 0 by ring. rewrite (proj2 (is_zero_true 0)) by reflexivity. reflexivity. Qed.
Lemma parse_one r k d : named r -> resolve r k = Ok (k, d) -> parse_units r [(k, 1)] = Ok [(k, 1)].
Proof.
  intros NM R. unfold parse_units. cbn [fold_left bind fst snd List.length Nat.ltb Nat.leb orb]. rewrite (proj2 (String.eqb_neq k _)) by (eapply not_dimensionless; eassumption). rewrite R. cbn [bind fst snd].
  replace (Rabs 1 - 1) with 0 by (rewrite Rabs_R1; ring). rewrite (proj2 (is_zero_true 0)) by reflexivity. reflexivity.
Qed.

(** ** names *)
Lemma get_name_own r s n r' : named r -> get_name r s = Ok (n, r') -> n <> ""%string -> n <> "dimensionless"%string -> get_name r' n = Ok (n, r').
Proof.
  intros (ND & NE & NM) G E X. unfold get_name in *. rewrite (proj2 (String.eqb_neq n _)) by exact X. destruct (String.eqb s "dimensionless"); [injection G as <- _; contradiction|].
  destruct (dget s (r_units r)) as [d|] eqn:K; [injection G as <- <-; rewrite (NM _ _ K); reflexivity|]. destruct (candidates r s) as [|[p u] l] eqn:C; [discriminate|].
  assert (CN : exists k d, dget k (r_units r) = Some d /\ u_name d = u) by (apply (candidates_named r s p); rewrite C; left; reflexivity). destruct CN as (k & d & GK & <-). destruct (String.eqb p "").
  - injection G as <- <-. rewrite (NM _ _ GK). reflexivity.
  - destruct (dget p (r_prefixes r)) as [[? f]|]; [|discriminate]. injection G as <- <-. cbn [r_units]. rewrite dget_dset_eq. reflexivity.
Qed.
Lemma get_name_stores r s n r' : get_name r s = Ok (n, r') -> r_prefixes r' = r_prefixes r /\ (r_units r' = r_units r \/ exists d, r_units r' = dset n d (r_units r)).
Proof.
  unfold get_name. intro G. destruct (String.eqb s "dimensionless"); [injection G as _ <-; auto|]. destruct (dget s (r_units r)); [injection G as _ <-; auto|]. destruct (candidates r s) as [|[p u] l]; [discriminate|]. destruct (String.eqb p ""); [injection G as _ <-; auto|].
  destruct (dget p (r_prefixes r)) as [[? f]|]; [|discriminate]. injection G as <- <-. split; [reflexivity|]. right. eexists. reflexivity.
Qed.
Lemma str_drop_0 s : str_drop 0 s = s. Proof. destruct s; reflexivity. Qed.
Lemma len_app a b : String.length (a ++ b) = (String.length a + String.length b)%nat.
Proof. induction a; cbn; [reflexivity|]. rewrite IHa. reflexivity. Qed.
Lemma substring_left a b : substring 0 (String.length a) (a ++ b) = a.
Proof. induction a; cbn; [destruct b; reflexivity|]. rewrite IHa. reflexivity. Qed.
Lemma substring_all b : substring 0 (String.length b) b = b.
Proof. induction b as [|x b IH]; [reflexivity|]. cbn. rewrite IH. reflexivity. Qed.
Lemma substring_right a b : substring (String.length a) (String.length b) (a ++ b) = b.
Proof. induction a as [|x a IH]; [apply substring_all|]. exact IH. Qed.
Lemma endswith_app a b : endswith b (a ++ b) = true.
Proof. unfold endswith. rewrite len_app. replace (String.length a + String.length b - String.length b)%nat with (String.length a) by lia. rewrite substring_right, String.eqb_refl. rewrite (proj2 (Nat.leb_le _ _)) by lia. reflexivity. Qed.
Lemma flat_nil {A B} (f : A -> list B) l : (forall a, In a l -> f a = []) -> flat_map f l = [].
Proof. induction l as [|a l IH]; intro H; [reflexivity|]. cbn [flat_map]. rewrite (H a (or_introl eq_refl)), IH; [reflexivity|]. intros b I. apply H. right. exact I. Qed.
Lemma endswith_empty s : endswith "" s = true.
Proof. unfold endswith. cbn [String.length Nat.leb andb]. rewrite Nat.sub_0_r. apply String.eqb_eq. induction s as [|a s IH]; [reflexivity|]. exact IH. Qed.
Lemma plural r k d f ps : r_prefixes r = (""%string, (""%string, f)) :: ps -> dget k (r_units r) = Some d -> String.length k <> 1%nat -> (k ++ "s")%string <> "dimensionless"%string ->
  (forall p, In p (r_prefixes r) -> startswith (fst p) (k ++ "s") = true -> dget (str_drop (String.length (fst p)) (k ++ "s")) (r_units r) = None) -> get_name r (k ++ "s") = Ok (u_name d, r).
Proof.
  intros P K L X H. unfold get_name. rewrite (proj2 (String.eqb_neq (k ++ "s") _)) by exact X.
  assert (Z : dget (k ++ "s") (r_units r) = None). { pose proof (H (""%string, (""%string, f))) as H0. rewrite P in H0. specialize (H0 (or_introl eq_refl)). cbn [fst String.length] in H0. rewrite str_drop_0 in H0. apply H0. destruct (k ++ "s")%string; reflexivity. }
  rewrite Z. assert (C : exists l, candidates r (k ++ "s") = (""%string, u_name d) :: l).
  { unfold candidates, suffixes. cbn [flat_map]. rewrite (flat_nil _ (r_prefixes r)).
    - cbn [app]. rewrite P. cbn [flat_map fst snd]. assert (SW : startswith "" (k ++ "s") = true) by (destruct (k ++ "s")%string; reflexivity). rewrite SW, endswith_app. cbn [andb String.length String.eqb negb]. rewrite str_drop_0, len_app. replace (String.length k + String.length "s" - 1)%nat with (String.length k) by (cbn; lia). rewrite substring_left. rewrite (proj2 (Nat.eqb_neq _ _)) by exact L. rewrite K. cbn [app]. eexists. reflexivity.
    - intros p I. destruct (startswith (fst p) (k ++ "s")) eqn:SW; [|reflexivity]. rewrite endswith_empty. cbn [andb String.eqb negb]. rewrite (H p I SW). reflexivity. }
  destruct C as [l C]. rewrite C. reflexivity.
Qed.
Lemma startswith_app p k : startswith p (p ++ k) = true.
Proof. unfold startswith. induction p as [|a p IH]; [destruct k; reflexivity|]. cbn. destruct (Ascii.ascii_dec a a); [exact IH|contradiction]. Qed.
Lemma str_drop_app p k : str_drop (String.length p) (p ++ k) = k.
Proof. induction p as [|a p IH]; [apply str_drop_0|]. exact IH. Qed.
Lemma prefixed r p k P f d : NoDup (map fst (r_prefixes r)) -> dget p (r_prefixes r) = Some (P, f) -> dget k (r_units r) = Some d ->
  (forall p', In p' (r_prefixes r) -> fst p' <> p -> startswith (fst p') (p ++ k) = true -> dget (str_drop (String.length (fst p')) (p ++ k)) (r_units r) = None) -> exists l, candidates r (p ++ k) = (P, u_name d) :: l.
Proof.
  intros N G K H. apply dget_Some_In in G. apply in_split in G. destruct G as (l1 & l2 & G). unfold candidates, suffixes. cbn [flat_map]. rewrite G in *. rewrite flat_map_app, flat_nil.
  - cbn [app flat_map fst snd]. rewrite startswith_app, endswith_empty. cbn [andb String.eqb negb]. rewrite str_drop_app, K. cbn [app]. eexists. reflexivity.
  - intros p' I. destruct (startswith (fst p') (p ++ k)) eqn:SW; [|reflexivity]. rewrite endswith_empty. cbn [andb String.eqb negb]. rewrite (H p'); [reflexivity|apply in_or_app; left; exact I| |exact SW].
    intro E. rewrite map_app in N. cbn [map fst] in N. apply NoDup_remove_2 in N. apply N. apply in_or_app. left. rewrite <- E. apply in_map, I.
Qed.
