(** * Properties C142-C145: units of measurement *)
From Coq Require Import Reals List Bool Arith String Lra Lia.
From Verif Require Import PyBase M_Units S_Units P_Dict P_Units P_Units2 P_Units3 P_Units4.
Import ListNotations.
Local Open Scope R_scope.
Local Open Scope list_scope.
Local Open Scope string_scope.

Definition unit (c : container) : quantity := {| q_mag := 1; q_units := c |}.

(** ** C142: conversion *)
Theorem C142_multiply : forall r c w e, named r -> tidy_units r c -> worths r c w e ->
  exists m u, forall f, (m <= f)%nat -> forall x, times_unit f r (unit c) x = Ok (x * w, {| q_mag := x * w; q_units := u |}).
Proof. intros r c w e NM T W. destruct (times_eq r c w e NM T W) as (m & u & _ & H). exists m, u. intros f L x. apply H, L. Qed.
Theorem C142_divide : forall shown r c w e, named r -> tidy_units r c -> worths r c w e -> readable shown c ->
  exists m, forall f, (m <= f)%nat -> forall x, over_unit shown f r (unit c) x = Ok (x / w, {| q_mag := x / w; q_units := c |}).
Proof. intros shown r c w e NM T W S. destruct (over_eq shown r c w e NM T W S) as (m & H). exists m. intros f L x. apply H, L. Qed.
(** into base units and out of them again, and the other way round *)
Theorem C142_round_trip : forall shown r c w e, named r -> tidy_units r c -> worths r c w e -> readable shown c ->
  exists m, forall f, (m <= f)%nat -> forall x, exists y z u v,
    times_unit f r (unit c) x = Ok (y, u) /\ (exists v', over_unit shown f r (unit c) y = Ok (x, v')) /\
    over_unit shown f r (unit c) x = Ok (z, v) /\ exists u', times_unit f r (unit c) z = Ok (x, u').
Proof.
  intros shown r c w e NM T W S. destruct (C142_multiply r c w e NM T W) as (m1 & u & M). destruct (C142_divide shown r c w e NM T W S) as (m2 & D). pose proof (proj2 (worth_positive r) c w e W) as P.
  exists (max m1 m2). intros f L x. exists (x * w), (x / w). do 2 eexists. split; [apply M; lia|]. split; [|split; [apply D; lia|]]; eexists; [rewrite D by lia|rewrite M by lia].
  - replace (x * w / w) with x by (field; lra). reflexivity.
  - replace (x / w * w) with x by (field; lra). reflexivity.
Qed.
(** between units of the same base units; everything else is refused *)
Theorem C142_convert : forall r a b wa ea wb eb, named r -> NoDup (map fst a) -> NoDup (map fst b) -> worths r a wa ea -> worths r b wb eb ->
  exists m, forall f, (m <= f)%nat -> forall x, ((forall k, ea k = eb k) -> convert f r x a b = Ok (x * wa / wb)) /\ (~ (forall k, ea k = eb k) -> convert f r x a b = Err ValueError).
Proof. intros r a b wa ea wb eb NM NA NB A B. destruct (convert_worths r a b wa ea wb eb NM NA NB A B) as (m & H). exists m. intros f L x. destruct (H f L) as [H1 H2]. split; intro E; [apply H1, E|apply H2, E]. Qed.
(** going through a third unit does not matter *)
Theorem C142_through : forall r a b c wa wb wc e, named r -> NoDup (map fst a) -> NoDup (map fst b) -> NoDup (map fst c) -> worths r a wa e -> worths r b wb e -> worths r c wc e ->
  exists m, forall f, (m <= f)%nat -> forall x, exists y, convert f r x a b = Ok y /\ convert f r y b c = convert f r x a c.
Proof.
  intros r a b c wa wb wc e NM NA NB NC A B C. destruct (C142_convert r a b _ _ _ _ NM NA NB A B) as (m1 & H1). destruct (C142_convert r b c _ _ _ _ NM NB NC B C) as (m2 & H2). destruct (C142_convert r a c _ _ _ _ NM NA NC A C) as (m3 & H3). pose proof (proj2 (worth_positive r) b wb e B) as P. pose proof (proj2 (worth_positive r) c wc e C) as Q.
  exists (max m1 (max m2 m3)). intros f L x. eexists. split; [apply H1; [lia|reflexivity]|]. rewrite (proj1 (H2 f ltac:(lia) _)), (proj1 (H3 f ltac:(lia) _)) by reflexivity. f_equal. field. split; lra.
Qed.
(** a unit taken by its name is that unit once, and multiplying by it multiplies by what the unit is worth *)
Theorem C142_name : forall r s k d w e, resolve r s = Ok (k, d) -> s <> "dimensionless" -> attribute r s = Ok (unit [(k, 1)]) /\ (named r -> tidy_units r [(k, 1)] -> worths r [(k, 1)] w e -> exists m, forall f, (m <= f)%nat -> forall x q, attribute r s = Ok q -> exists u, times_unit f r q x = Ok (x * w, u)).
Proof.
  intros r s k d w e R N.
  assert (A : attribute r s = Ok (unit [(k, 1)])).
  { unfold attribute, parse_units. cbn [List.length Nat.ltb Nat.leb fold_left bind fst snd]. rewrite (proj2 (String.eqb_neq _ _) N), R. cbn [bind fst snd orb].
    assert (Z : is_zero (Rabs 1 - 1) = true) by (apply is_zero_true; rewrite Rabs_pos_eq; lra). rewrite Z. reflexivity. }
  split; [exact A|]. intros NM T W. destruct (C142_multiply r _ _ _ NM T W) as (m & u & H). exists m. intros f L x q Q. rewrite A in Q. injection Q as <-. eexists. apply (H f L x).
Qed.
(** products, quotients and powers of units convert by the product, quotient and power of what they are worth *)
Theorem C142_algebra : forall r a b wa ea wb eb n, named r -> tidy_units r a -> tidy_units r b -> worths r a wa ea -> worths r b wb eb -> n <> 0 ->
  exists m, forall f, (m <= f)%nat -> forall x,
    (exists u, times_unit f r (q_mul (unit a) (unit b)) x = Ok (x * (wa * wb), u)) /\ (exists u, times_unit f r (q_div (unit a) (unit b)) x = Ok (x * (wa / wb), u)) /\ (exists u, times_unit f r (q_pow (unit a) n) x = Ok (x * Rpower wa n, u)).
Proof.
  intros r a b wa ea wb eb n NM TA TB A B N0. pose proof (t_nodup _ _ TA) as NA.
  destruct (times_eq r _ _ _ NM (tidy_mul r a b TA TB) (mul_worths r a b _ _ _ _ NA A B)) as (m1 & u1 & _ & H1). destruct (times_eq r _ _ _ NM (tidy_div r a b TA TB) (div_worths r a b _ _ _ _ NA A B)) as (m2 & u2 & _ & H2). destruct (times_eq r _ _ _ NM (tidy_pow r a n N0 TA) (pow_worths r n a _ _ A)) as (m3 & u3 & _ & H3).
  exists (max m1 (max m2 m3)). intros f L x. unfold q_mul, q_div, q_pow, unit. cbn [q_mag q_units]. split; [|split]; eexists; [apply H1|apply H2|apply H3]; lia.
Qed.
(** the power 0 of a base unit is not the number 1: using it raises KeyError *)
Theorem C142_nothing_refuted : forall shown r k d, resolve r k = Ok (k, d) -> u_base d = true -> forall f x, (1 <= f)%nat -> times_unit f r (q_pow (unit [(k, 1)]) 0) x = Err KeyError /\ over_unit shown f r (q_pow (unit [(k, 1)]) 0) x = Err KeyError.
Proof.
  intros shown r k d R B [|f] x L; [lia|]. assert (G : get_base_units (S f) r [(k, 1 * 0)] = Err KeyError).
  { cbn [get_base_units fold_left]. unfold base_step. cbn [bind fst snd]. rewrite R. cbn [bind fst snd]. rewrite B. unfold c_add. change (expo k []) with 0. rewrite (proj2 (is_zero_true (0 + 1 * 0))) by ring. reflexivity. }
  unfold times_unit, over_unit, q_pow, unit, c_pow. cbn [q_units map fst snd]. rewrite G. split; reflexivity.
Qed.

(** ** C143: temperatures *)
Lemma degrees_facts r b k s o : named r -> degrees r b k s o -> k <> b /\ forall f, (2 <= f)%nat -> forall x,
  get_base_units f r [(k, 1)] = Ok (None, [(b, 1)]) /\ convert f r x [(k, 1)] [(b, 1)] = Ok (x / s + o) /\ convert f r x [(b, 1)] [(k, 1)] = Ok ((x - o) * s) /\ parse_units r [(k, 1)] = Ok [(k, 1)] /\ (exists t, get_dimensionality f r [(k, 1)] = Ok t).
Proof.
  intros NM [(d & R & B & O & S & F) P (db & RB & BB & OB & SB)]. assert (KB : k <> b) by (intro; subst; congruence). split; [exact KB|]. intros f L x. destruct (base_offset f r k d b db R B ltac:(unfold is_offset; rewrite O; reflexivity) F RB BB ltac:(unfold is_offset; rewrite OB; reflexivity) L) as (G & _ & D1 & D2).
  split; [exact G|]. split; [|split; [|split; [exact (parse_one r k d NM R)|exact D1]]].
  - rewrite (convert_offset f r x k b _ _ _ _ _ _ KB R RB O OB D1 D2). rewrite S, SB. f_equal. ring.
  - rewrite (convert_offset f r x b k _ _ _ _ _ _ (not_eq_sym KB) RB R OB O D2 D1). rewrite S, SB. f_equal. field.
Qed.
Theorem C143_scale : forall shown r b k s o, named r -> degrees r b k s o -> shown 1 = 1 -> forall f, (2 <= f)%nat -> forall x,
  times_unit f r (unit [(k, 1)]) x = Ok (x / s + o, {| q_mag := x / s + o; q_units := [(b, 1)] |}) /\ over_unit shown f r (unit [(k, 1)]) x = Ok ((x - o) * s, {| q_mag := (x - o) * s; q_units := [(k, 1)] |}).
Proof.
  intros shown r b k s o NM D S1 f L x. destruct (degrees_facts r b k s o NM D) as [_ H]. unfold times_unit, over_unit, unit. cbn [q_units q_mag map fst snd]. destruct (H f L x) as (G & T & F & PU & _). destruct (H f L 1) as (_ & T1 & _). rewrite G. cbn [bind snd]. rewrite T. cbn [bind]. split; [reflexivity|]. rewrite T1. cbn [bind]. rewrite S1, PU. cbn [bind]. rewrite F. reflexivity.
Qed.
Theorem C143_round_trip : forall shown r b k s o, named r -> degrees r b k s o -> shown 1 = 1 -> forall f, (2 <= f)%nat -> forall x, exists y z u v,
  times_unit f r (unit [(k, 1)]) x = Ok (y, u) /\ (exists v', over_unit shown f r (unit [(k, 1)]) y = Ok (x, v')) /\ over_unit shown f r (unit [(k, 1)]) x = Ok (z, v) /\ exists u', times_unit f r (unit [(k, 1)]) z = Ok (x, u').
Proof.
  intros shown r b k s o NM D S1 f L x. pose proof (C143_scale shown r b k s o NM D S1 f L) as H. pose proof (g_positive _ _ _ _ _ D) as P. exists (x / s + o), ((x - o) * s). do 2 eexists. split; [apply H|]. split; [|split; [apply H|]]; eexists.
  - rewrite (proj2 (H _)). replace ((x / s + o - o) * s) with x by (field; lra). reflexivity.
  - rewrite (proj1 (H _)). replace ((x - o) * s / s + o) with x by (field; lra). reflexivity.
Qed.
(** between two scales: the same as through the base unit, and order is kept *)
Theorem C143_between : forall r b k k' s s' o o', named r -> degrees r b k s o -> degrees r b k' s' o' -> forall f, (2 <= f)%nat -> forall x y,
  (exists z, convert f r x [(k, 1)] [(b, 1)] = Ok z /\ convert f r z [(b, 1)] [(k', 1)] = convert f r x [(k, 1)] [(k', 1)]) /\ (exists x' y', convert f r x [(k, 1)] [(k', 1)] = Ok x' /\ convert f r y [(k, 1)] [(k', 1)] = Ok y' /\ (x < y -> x' < y')).
Proof.
  intros r b k k' s s' o o' NM D D' f L. pose proof (g_positive _ _ _ _ _ D) as P. pose proof (g_positive _ _ _ _ _ D') as P'.
  assert (C : forall x, convert f r x [(k, 1)] [(k', 1)] = Ok ((x / s + o - o') * s')).
  { intro x. destruct (degrees_facts r b k s o NM D) as [_ H]. destruct (degrees_facts r b k' s' o' NM D') as [_ H']. destruct (H f L x) as (_ & _ & _ & _ & T). destruct (H' f L x) as (_ & _ & _ & _ & T'). destruct D as [(d & R & B & O & S & F) _ _]. destruct D' as [(d' & R' & B' & O' & S' & F') _ _]. destruct (string_dec k k') as [<-|N].
    - rewrite R in R'. injection R' as <-. rewrite O in O'. injection O' as <-. subst s s'. rewrite convert_same. f_equal. field. lra.
    - rewrite (convert_offset f r x k k' _ _ _ _ _ _ N R R' O O' T T'). rewrite S, S'. reflexivity. }
  intros x y. destruct (degrees_facts r b k s o NM D) as [_ H]. destruct (degrees_facts r b k' s' o' NM D') as [_ H']. split.
  - exists (x / s + o). split; [apply (H f L x)|]. rewrite C. destruct (H' f L (x / s + o)) as (_ & _ & F & _). exact F.
  - do 2 eexists. split; [apply C|]. split; [apply C|]. intro XY. apply Rmult_lt_compat_r; [exact P'|]. assert (x / s < y / s) by (apply Rmult_lt_compat_r; [apply Rinv_0_lt_compat, P|exact XY]). lra.
Qed.
(** a product with a temperature: multiplying works on the scale of the base unit, dividing by the same unit raises *)
Theorem C143_compound_refuted : forall shown r b db c w e v dd, named r -> resolve r b = Ok (b, db) -> u_base db = true -> is_offset db = true -> resolve r ("delta_" ++ b) = Ok ("delta_" ++ b, dd) -> u_base dd = true -> u_offset dd = None ->
  c <> [] -> tidy_units r c -> worths r c w e -> ~ In ("delta_" ++ b)%string (map fst c) -> v <> 0 -> readable shown ((b, v) :: c) ->
  exists m u, forall f, (m <= f)%nat -> forall x, times_unit f r (unit (c ++ [(b, v)])%list) x = Ok (x * w, {| q_mag := x * w; q_units := u |}) /\ over_unit shown f r (unit (c ++ [(b, v)])%list) x = Err ValueError.
Proof.
  intros shown r b db c w e v dd NM RB BB OB RD BD OD NE T W ND V S. inversion S as [|? ? S1 S2]; subst. cbn [snd] in S1. destruct (times_compound r b db NM RB BB OB c w e v NE T W V) as (m1 & u & H1). destruct (over_compound r b db NM RB BB OB shown c w e v _ dd NE T W V S1 S2 eq_refl RD BD OD ND) as (m2 & H2).
  exists (max m1 m2), u. intros f L x. split; [apply H1|apply H2]; lia.
Qed.

(** ** C144: a unit kept in a variable *)
Theorem C144_history : forall shown r c w e, named r -> tidy_units r c -> worths r c w e -> readable shown c -> (forall x, shown x = x) ->
  exists m, forall f, (m <= f)%nat -> forall ops, in_turn shown f r (unit c) ops = Ok (kept w ops).
Proof.
  intros shown r c w e NM T W S SA. destruct (times_eq r c w e NM T W) as (m1 & u & Y & M). destruct (over_eq shown r c w e NM T W S) as (m2 & D). destruct (turn_base shown r u e NM Y) as (m3 & B). { apply Forall_forall. intros kv _. apply SA. }
  exists (max m1 (max m2 m3)). intros f L ops. unfold unit. generalize 1 at 1. induction ops as [|[[|] x] ops IH]; intro g; [reflexivity| |]; cbn [in_turn kept].
  - rewrite M by lia. cbn [bind fst snd]. rewrite B by lia. reflexivity.
  - rewrite D by lia. cbn [bind fst snd]. rewrite IH. reflexivity.
Qed.
(** so a second multiplication by a kept unit converts nothing *)
Theorem C144_reuse_refuted : forall shown r c w e x, named r -> tidy_units r c -> worths r c w e -> readable shown c -> (forall x, shown x = x) -> w <> 1 -> x <> 0 ->
  exists m, forall f, (m <= f)%nat -> exists y1 y2, in_turn shown f r (unit c) [(true, x); (true, x)] = Ok [y1; y2] /\ y1 <> y2 /\ y2 = x.
Proof.
  intros shown r c w e x NM T W S SA W1 X. destruct (C144_history shown r c w e NM T W S SA) as (m & H). exists m. intros f L. exists (x * w), x. split; [rewrite H by exact L; reflexivity|]. split; [|reflexivity]. intro E. apply W1. apply (Rmult_eq_reg_l x); [lra|exact X].
Qed.
(** a unit divided by a number is the number divided by the unit (one operation serves both) *)
Theorem C144_halving_refuted : forall shown r c w e n, named r -> tidy_units r c -> worths r c w e -> readable shown c -> n <> 0 -> w * w <> n * n ->
  exists m, forall f, (m <= f)%nat -> exists y u, over_unit shown f r (unit c) n = Ok (y, u) /\ y = n / w /\ y <> w / n.
Proof.
  intros shown r c w e n NM T W S N D. destruct (C142_divide shown r c w e NM T W S) as (m & H). pose proof (proj2 (worth_positive r) c w e W) as P. exists m. intros f L. do 2 eexists. split; [apply H, L|]. split; [reflexivity|]. intro E. apply D. apply (Rmult_eq_compat_r (w * n)) in E. replace (n / w * (w * n)) with (n * n) in E by (field; lra). replace (w / n * (w * n)) with (w * w) in E by (field; exact N). symmetry. exact E.
Qed.

(** ** C145: names *)
(** the name found is its own name from then on, and no other name changes its meaning *)
Theorem C145_stable : forall r s n r', named r -> get_name r s = Ok (n, r') -> n <> "" -> n <> "dimensionless" ->
  get_name r' n = Ok (n, r') /\ (forall k, k <> n -> dget k (r_units r') = dget k (r_units r)) /\ (dget n (r_units r) = None -> forall k d, dget k (r_units r) = Some d -> dget k (r_units r') = Some d).
Proof.
  intros r s n r' NM G E X. split; [exact (get_name_own r s n r' NM G E X)|]. destruct (get_name_stores r s n r' G) as [_ [->|[d ->]]]; [split; [reflexivity|intros _ k d K; exact K]|]. split.
  - intros k K. apply dget_dset_ne. congruence.
  - intros F k d' K. rewrite dget_dset_ne; [exact K|]. intro; subst k. congruence.
Qed.
(** prefixes multiply *)
Theorem C145_prefix : forall r p k P f d w e, named r -> NoDup (map fst (r_prefixes r)) -> dget p (r_prefixes r) = Some (P, f) -> dget P (r_prefixes r) = Some (P, f) -> P <> "" -> 0 < f -> dget k (r_units r) = Some d -> dget (p ++ k) (r_units r) = None -> (p ++ k)%string <> "dimensionless" ->
  (forall p', In p' (r_prefixes r) -> fst p' <> p -> startswith (fst p') (p ++ k) = true -> dget (str_drop (String.length (fst p')) (p ++ k)) (r_units r) = None) -> worth r (u_name d) w e ->
  (exists r', get_name r (p ++ k) = Ok ((P ++ u_name d)%string, r')) /\ worth r (p ++ k) (f * w) e.
Proof.
  intros r p k P f d w e NM N G GP PE F K NK ND H W. destruct (prefixed r p k P f d N G K H) as [l C].
  assert (R : exists r', get_name r (p ++ k) = Ok ((P ++ u_name d)%string, r') /\ r_units r' = dset (P ++ u_name d) {| u_name := (P ++ u_name d)%string; u_scale := f; u_offset := None; u_ref := [(u_name d, 1)]; u_base := false |} (r_units r)).
  { unfold get_name. rewrite (proj2 (String.eqb_neq (p ++ k) _)) by exact ND. rewrite NK, C. rewrite (proj2 (String.eqb_neq P _)) by exact PE. rewrite GP. eexists. split; reflexivity. }
  destruct R as (r' & R & U). split; [exists r'; exact R|]. pose proof (proj1 (worth_positive r) _ _ _ W) as WP.
  change (f * w) with (u_scale {| u_name := (P ++ u_name d)%string; u_scale := f; u_offset := None; u_ref := [(u_name d, 1)]; u_base := false |} * w). apply (worth_derived r _ (P ++ u_name d)); try reflexivity; [unfold resolve; rewrite R; cbn [bind fst snd]; rewrite U, dget_dset_eq; reflexivity|exact F|apply Forall_cons; [cbn; lra|apply Forall_nil]|]. cbn [u_ref].
  apply (worths_ext r _ (Rpower w 1 * 1) (fun b => 1 * e b + 0)); [apply worths_cons; [exact W|apply worths_nil]|rewrite Rpower_1 by exact WP; ring|intro; ring].
Qed.
(** plurals *)
Theorem C145_plural : forall r k d f ps, r_prefixes r = ("", ("", f)) :: ps -> dget k (r_units r) = Some d -> String.length k <> 1%nat -> (k ++ "s")%string <> "dimensionless" ->
  (forall p, In p (r_prefixes r) -> startswith (fst p) (k ++ "s") = true -> dget (str_drop (String.length (fst p)) (k ++ "s")) (r_units r) = None) -> get_name r (k ++ "s") = Ok (u_name d, r).
Proof. exact plural. Qed.

(** ** an excerpt of the unit table (Plugins/pint/default_en.txt 16-21, 41-59, 149-150, 172, 243-249) *)
Definition base (n : string) (dim : string) : udef := {| u_name := n; u_scale := 1; u_offset := None; u_ref := [(dim, 1)]; u_base := true |}.
Definition made (n : string) (s : R) (ref : container) : udef := {| u_name := n; u_scale := s; u_offset := None; u_ref := ref; u_base := false |}.
Definition foot := made "foot" 12 [("inch", 1)].
Definition inch := made "inch" (254 / 100) [("centimeter", 1)].
Definition gram := made "gram" (1 / 1000) [("kilogram", 1)].
Definition table : registry := {|
  r_units := [("meter", base "meter" "[length]"); ("m", base "meter" "[length]"); ("second", base "second" "[time]"); ("kilogram", base "kilogram" "[mass]"); ("gram", gram); ("g", gram); ("inch", inch); ("foot", foot); ("ft", foot);
    ("minute", made "minute" 60 [("second", 1)]); ("hour", made "hour" 60 [("minute", 1)]);
    ("degK", {| u_name := "degK"; u_scale := 1; u_offset := Some 0; u_ref := [("[temperature]", 1)]; u_base := true |}); ("delta_degK", base "delta_degK" "[temperature]");
    ("degC", {| u_name := "degC"; u_scale := 1; u_offset := Some (27315 / 100); u_ref := [("degK", 1)]; u_base := false |});
    ("degF", {| u_name := "degF"; u_scale := 9 / 5; u_offset := Some (255372222 / 1000000); u_ref := [("degK", 1)]; u_base := false |})];
  r_prefixes := [("", ("", 1)); ("milli", ("milli", 1 / 1000)); ("m", ("milli", 1 / 1000)); ("centi", ("centi", 1 / 100)); ("c", ("centi", 1 / 100)); ("kilo", ("kilo", 1000)); ("k", ("kilo", 1000))] |}.
Example table_named : named table.
Proof. split; [reflexivity|]. split; [reflexivity|]. intros k d K. apply dget_Some_In in K. cbn [r_units table] in K. repeat (destruct K as [K|K]; [injection K as _ <-; reflexivity|]). destruct K. Qed.
Lemma one_worth r k w e : worth r k w e -> worths r [(k, 1)] w e.
Proof. intro W. pose proof (proj1 (worth_positive r) _ _ _ W) as P. apply (worths_ext r _ (Rpower w 1 * 1) (fun b => 1 * e b + 0)); [apply worths_cons; [exact W|apply worths_nil]|rewrite Rpower_1 by exact P; ring|intro; ring]. Qed.
Lemma made_worth r k n s u w e : resolve r k = Ok (n, made n s [(u, 1)]) -> 0 < s -> worth r u w e -> worth r k (s * w) e.
Proof. intros R S W. change s with (u_scale (made n s [(u, 1)])). apply (worth_derived r k n); try reflexivity; [exact R|exact S|apply Forall_cons; [cbn; lra|apply Forall_nil]|]. apply one_worth, W. Qed.
Definition of_base (n : string) (b : string) : R := if String.eqb b n then 1 else 0.
Lemma base_worth r k n d : resolve r k = Ok (n, d) -> u_base d = true -> u_offset d = None -> worth r k 1 (of_base n).
Proof. apply worth_base. Qed.
Lemma worth_eq r k w e w' : worth r k w e -> w = w' -> worth r k w' e. Proof. intros W <-. exact W. Qed.
Example a_foot : worth table "foot" (3048 / 10000) (of_base "meter").
Proof.
  eapply worth_eq; [eapply made_worth; [reflexivity|lra|]; eapply made_worth; [reflexivity|lra|]; eapply made_worth; [reflexivity|lra|]; eapply base_worth; reflexivity|field].
Qed.
Example an_hour : worth table "hour" 3600 (of_base "second").
Proof. eapply worth_eq; [eapply made_worth; [reflexivity|lra|]; eapply made_worth; [reflexivity|lra|]; eapply base_worth; reflexivity|ring]. Qed.
Lemma one_tidy r k d : resolve r k = Ok (k, d) -> tidy_units r [(k, 1)].
Proof. intro R. constructor; [apply NoDup_cons; [intros []|apply NoDup_nil]|apply Forall_cons; [cbn; lra|apply Forall_nil]|apply Forall_cons; [exists d; exact R|apply Forall_nil]]. Qed.
(** 10 ft = 3.048 m *)
Example ten_feet : exists m u, forall f, (m <= f)%nat -> times_unit f table (unit [("foot", 1)]) 10 = Ok (10 * (3048 / 10000), u).
Proof. destruct (C142_multiply table [("foot", 1)] _ _ table_named ltac:(eapply one_tidy; reflexivity) (one_worth _ _ _ _ a_foot)) as (m & u & H). exists m. eexists. intros f L. apply H, L. Qed.
(** feet per hour: the hypotheses of the algebra theorem are met *)
Example feet_per_hour : exists m, forall f, (m <= f)%nat -> exists u, times_unit f table (q_div (unit [("foot", 1)]) (unit [("hour", 1)])) 7 = Ok (7 * (3048 / 10000 / 3600), u).
Proof.
  destruct (C142_algebra table [("foot", 1)] [("hour", 1)] _ _ _ _ 2 table_named ltac:(eapply one_tidy; reflexivity) ltac:(eapply one_tidy; reflexivity) (one_worth _ _ _ _ a_foot) (one_worth _ _ _ _ an_hour) ltac:(lra)) as (m & H). exists m. intros f L. apply (H f L 7).
Qed.
(** feet are not hours *)
Example feet_not_hours : exists m, forall f, (m <= f)%nat -> convert f table 1 [("foot", 1)] [("hour", 1)] = Err ValueError.
Proof.
  destruct (C142_convert table [("foot", 1)] [("hour", 1)] _ _ _ _ table_named ltac:(apply NoDup_cons; [intros []|apply NoDup_nil]) ltac:(apply NoDup_cons; [intros []|apply NoDup_nil]) (one_worth _ _ _ _ a_foot) (one_worth _ _ _ _ an_hour)) as (m & H). exists m. intros f L. apply (H f L 1). intro E. specialize (E "meter"). cbn in E. lra.
Qed.
Example fahrenheit : degrees table "degK" "degF" (9 / 5) (255372222 / 1000000).
Proof. constructor; [eexists; split; [reflexivity|]; repeat split; reflexivity|lra|eexists; split; [reflexivity|]; repeat split; reflexivity]. Qed.
Example celsius : degrees table "degK" "degC" 1 (27315 / 100).
Proof. constructor; [eexists; split; [reflexivity|]; repeat split; reflexivity|lra|eexists; split; [reflexivity|]; repeat split; reflexivity]. Qed.
(** foot * degK *)
Example foot_degrees : exists m u, forall f, (m <= f)%nat -> forall x, times_unit f table (unit [("foot", 1); ("degK", 1)]) x = Ok (x * (3048 / 10000), {| q_mag := x * (3048 / 10000); q_units := u |}) /\ over_unit (fun v => v) f table (unit [("foot", 1); ("degK", 1)]) x = Err ValueError.
Proof.
  apply (C143_compound_refuted (fun v => v) table "degK" {| u_name := "degK"; u_scale := 1; u_offset := Some 0; u_ref := [("[temperature]", 1)]; u_base := true |} [("foot", 1)] _ (of_base "meter") 1 (base "delta_degK" "[temperature]") table_named); try reflexivity.
  - discriminate.
  - eapply one_tidy. reflexivity.
  - apply one_worth, a_foot.
  - intros [E|[]]; discriminate E.
  - lra.
  - repeat (apply Forall_cons; [reflexivity|]). apply Forall_nil.
Qed.
(** a foot in a variable: x / ft, x * ft, x * ft, x / ft *)
Example kept_foot : exists m, forall f, (m <= f)%nat -> in_turn (fun v => v) f table (unit [("foot", 1)]) [(false, 1); (true, 10); (true, 10); (false, 5)] = Ok [1 / (3048 / 10000); 10 * (3048 / 10000); 10; 5].
Proof.
  destruct (C144_history (fun v => v) table [("foot", 1)] _ _ table_named ltac:(eapply one_tidy; reflexivity) (one_worth _ _ _ _ a_foot)) as (m & H); [repeat (apply Forall_cons; [reflexivity|]); apply Forall_nil|reflexivity|]. exists m. intros f L. rewrite H by exact L. reflexivity.
Qed.
(** half a foot comes out as 2 / 0.3048 *)
Example half_a_foot : exists m, forall f, (m <= f)%nat -> exists y u, over_unit (fun v => v) f table (unit [("foot", 1)]) 2 = Ok (y, u) /\ y = 2 / (3048 / 10000) /\ y <> 3048 / 10000 / 2.
Proof.
  apply (C144_halving_refuted (fun v => v) table [("foot", 1)] _ (of_base "meter") 2 table_named ltac:(eapply one_tidy; reflexivity) (one_worth _ _ _ _ a_foot)); [repeat (apply Forall_cons; [reflexivity|]); apply Forall_nil|lra|lra].
Qed.
Lemma table_prefixes : NoDup (map fst (r_prefixes table)).
Proof. cbn. repeat (apply NoDup_cons; [cbn; intuition discriminate|]). apply NoDup_nil. Qed.
(** kft: a thousand feet *)
Example kilofoot : (exists r', get_name table "kft" = Ok ("kilofoot", r')) /\ worth table "kft" (1000 * (3048 / 10000)) (of_base "meter").
Proof.
  apply (C145_prefix table "k" "ft" "kilo" 1000 foot _ _ table_named table_prefixes); try reflexivity; try discriminate; [lra| |apply a_foot].
  intros p' I. cbn [r_prefixes table] in I. repeat (destruct I as [<-|I]; [cbn; intros; first [reflexivity|discriminate|congruence]|]). destruct I.
Qed.
Example hours : get_name table "hours" = Ok ("hour", table).
Proof. apply (C145_plural table "hour" (made "hour" 60 [("minute", 1)]) 1 (tl (r_prefixes table))); try reflexivity; try discriminate. intros p I. cbn [r_prefixes table] in I. repeat (destruct I as [<-|I]; [cbn; intros; first [reflexivity|discriminate]|]). destruct I. Qed.

(** ** names that go wrong *)
(** writing "kgram" redefines the base unit kilogram as 1000 gram while gram is kilogram / 1000: from then on neither can be converted *)
Theorem C145_overwrite_refuted : exists r', get_name table "kgram" = Ok ("kilogram", r') /\
  (forall x, exists m u, forall f, (m <= f)%nat -> times_unit f table (unit [("gram", 1)]) x = Ok (x * (1 / 1000), u)) /\
  forall f x, times_unit f r' (unit [("gram", 1)]) x = Err GenericException /\ times_unit f r' (unit [("kilogram", 1)]) x = Err GenericException.
Proof.
  eexists. split; [reflexivity|]. split.
  - intro x. assert (W : worth table "gram" (1 / 1000) (of_base "kilogram")) by (eapply worth_eq; [eapply made_worth; [reflexivity|lra|]; eapply base_worth; reflexivity|ring]).
    destruct (C142_multiply table [("gram", 1)] _ _ table_named ltac:(eapply one_tidy; reflexivity) (one_worth _ _ _ _ W)) as (m & u & H). exists m. eexists. intros f L. apply H, L.
  - match goal with |- forall f x, times_unit f ?r _ _ = _ /\ _ => set (r' := r) end.
    assert (G : forall f, get_base_units f r' [("gram", 1)] = Err GenericException /\ get_base_units f r' [("kilogram", 1)] = Err GenericException).
    { induction f as [|f [IH1 IH2]]; [split; reflexivity|]. split; cbn [get_base_units fold_left]; unfold base_step.
      - change (resolve r' (fst ("gram", 1))) with (Ok ("gram", gram)). cbn [bind fst snd gram made u_base is_offset u_offset u_ref]. rewrite IH2. reflexivity.
      - change (resolve r' (fst ("kilogram", 1))) with (Ok ("kilogram", made "kilogram" 1000 [("gram", 1)])). cbn [bind fst snd made u_base is_offset u_offset u_ref]. rewrite IH1. reflexivity. }
    intros f x. unfold times_unit, unit. cbn [q_units]. destruct (G f) as [-> ->]. split; reflexivity.
Qed.
(** which names are understood depends on the names used before *)
Theorem C145_history_refuted : exists r1 n r2, get_name table "kilokilometer" = Err ValueError /\ get_name table "kilometer" = Ok ("kilometer", r1) /\ get_name r1 "kilokilometer" = Ok (n, r2).
Proof. do 3 eexists. split; [reflexivity|]. split; reflexivity. Qed.
(** a prefix before a temperature unit is accepted as a name and fails when used *)
Theorem C143_prefix_refuted : (exists r', get_name table "kilodegK" = Ok ("kilodegK", r')) /\ forall f x, (2 <= f)%nat -> times_unit f table (unit [("kilodegK", 1)]) x = Err TypeError.
Proof. split; [eexists; reflexivity|]. intros [|[|f]] x L; [lia|lia|]. assert (P : is_zero (0 + 1) = false) by (apply is_zero_false; lra). unfold times_unit, unit. cbn [q_units get_base_units fold_left]. unfold base_step. cbn. unfold c_add, expo. cbn. rewrite P. reflexivity. Qed.
Print Assumptions C142_multiply.
Print Assumptions C142_divide.
Print Assumptions C142_round_trip.
Print Assumptions C142_convert.
Print Assumptions C142_through.
Print Assumptions C142_algebra.
Print Assumptions C142_nothing_refuted.
Print Assumptions C143_scale.
Print Assumptions C143_round_trip.
Print Assumptions C143_between.
Print Assumptions C143_compound_refuted.
Print Assumptions C144_history.
Print Assumptions C144_reuse_refuted.
Print Assumptions C144_halving_refuted.
Print Assumptions C145_stable.
Print Assumptions C145_prefix.
Print Assumptions C145_plural.
Print Assumptions C145_overwrite_refuted.
Print Assumptions C145_history_refuted.
Print Assumptions C143_prefix_refuted.
Print Assumptions C142_name.
