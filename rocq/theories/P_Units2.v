(** * Numbers times and over units; temperatures; names *)
From Coq Require Import Reals List Bool Arith String Lra Lia FunctionalExtensionality Permutation.
From Verif Require Import PyBase M_Units S_Units P_Dict P_Units.
Import ListNotations.
Local Open Scope R_scope.
Local Open Scope list_scope.

Lemma not_dimensionless r k n d : named r -> resolve r k = Ok (n, d) -> k <> "dimensionless"%string.
Proof. intros (_ & NE & _) R E. subst k. unfold resolve, get_name in R. cbn in R. rewrite NE in R. discriminate. Qed.
(** reading back a product of units *)
Lemma parse_own r c : named r -> NoDup (map fst c) -> Forall (fun kv => exists d, resolve r (fst kv) = Ok (fst kv, d) /\ u_offset d = None) c -> parse_units r c = Ok c.
Proof.
  intros NM N F. unfold parse_units. set (many := Nat.ltb 1 (List.length c)). clearbody many.
  assert (G : forall done, NoDup (map fst (done ++ c)) -> fold_left (fun acc kv => bind acc (fun ret => if String.eqb (fst kv) "dimensionless" then Ok ret else bind (resolve r (fst kv)) (fun nd =>
      let cname := if (many || negb (is_zero (Rabs (snd kv) - 1))) && is_offset (snd nd) then ("delta_" ++ fst nd)%string else fst nd in Ok (dset cname (snd kv) ret)))) c (Ok done) = Ok (done ++ c)).
  { clear N. induction F as [|[k v] c (d & R & O) F IH]; intros done N; [rewrite app_nil_r; reflexivity|]. cbn [fold_left bind fst snd] in *. rewrite (proj2 (String.eqb_neq k _)) by (eapply not_dimensionless; eassumption). rewrite R. cbn [bind fst snd]. unfold is_offset. rewrite O, andb_false_r. cbn zeta.
    assert (NI : ~ In k (map fst done)). { intro I. rewrite map_app in N. cbn [map fst] in N. apply NoDup_remove in N. apply (proj2 N). apply in_or_app. left. exact I. }
    rewrite dset_new by exact NI. rewrite IH by (rewrite <- app_assoc; exact N). rewrite <- app_assoc. reflexivity. }
  apply (G []), N.
Qed.
Lemma own_plain r c w e : tidy_units r c -> worths r c w e -> Forall (fun kv => exists d, resolve r (fst kv) = Ok (fst kv, d) /\ u_offset d = None) c.
Proof.
  intros [_ _ O] W. rewrite Forall_forall in *. intros kv I. destruct (O kv I) as [d R]. exists d. split; [exact R|]. destruct (worths_in r c w e kv W I) as (w' & e' & W'). inversion W' as [? n' d' R'|? n' d' ? ? R']; subst; rewrite R in R'; injection R' as _ <-; assumption.
Qed.
Lemma times_eq r c w e : named r -> tidy_units r c -> worths r c w e -> exists m u, ready r u e /\ forall f, (m <= f)%nat -> forall g x, times_unit f r {| q_mag := g; q_units := c |} x = Ok (x * w, {| q_mag := x * w; q_units := u |}).
Proof.
  intros NM [N Z O] W. destruct (base_of r c w e NM W Z) as (m1 & u & B & Y). destruct (convert_worths r c u w e 1 e NM N (y_nodup _ _ _ Y) W (ready_worths _ _ _ Y)) as [m2 C]. exists (max m1 m2), u. split; [exact Y|]. intros f L g x. unfold times_unit. cbn [q_units]. rewrite B by lia. cbn [bind snd]. rewrite (proj1 (C f ltac:(lia))) by reflexivity. cbn [bind]. replace (x * w / 1) with (x * w) by field. reflexivity.
Qed.
Lemma over_eq shown r c w e : named r -> tidy_units r c -> worths r c w e -> Forall (fun kv => shown (snd kv) = snd kv) c ->
  exists m, forall f, (m <= f)%nat -> forall g x, over_unit shown f r {| q_mag := g; q_units := c |} x = Ok (x / w, {| q_mag := x / w; q_units := c |}).
Proof.
  intros NM T W S. pose proof (own_plain r c w e T W) as OP. destruct T as [N Z O]. destruct (base_of r c w e NM W Z) as (m1 & u & B & Y). pose proof (ready_worths _ _ _ Y) as U. destruct (convert_worths r c u w e 1 e NM N (y_nodup _ _ _ Y) W U) as [m2 C]. destruct (convert_worths r u c 1 e w e NM (y_nodup _ _ _ Y) N U W) as [m3 D].
  exists (max m1 (max m2 m3)). intros f L g x. unfold over_unit. cbn [q_units q_mag]. rewrite B by lia. cbn [bind snd]. rewrite (proj1 (C f ltac:(lia))) by reflexivity. cbn [bind].
  assert (E : map (fun kv => (fst kv, shown (snd kv))) c = c). { clear - S. induction S as [|[k v] c H S IH]; [reflexivity|]. cbn [map fst snd] in *. rewrite IH, H. reflexivity. }
  rewrite E, (parse_own r c NM N OP). cbn [bind]. rewrite (proj1 (D f ltac:(lia))) by reflexivity. cbn [bind]. replace (x * 1 / w) with (x / w) by (unfold Rdiv; ring). reflexivity.
Qed.
Lemma ready_tidy r u e : ready r u e -> tidy_units r u.
Proof. intros [N Z B E]. constructor; [exact N|exact Z|]. eapply Forall_impl; [|exact B]. cbn beta. intros kv O. destruct (own_resolves r _ O) as (d & R & _). eauto. Qed.
Lemma turn_base shown r u e : named r -> ready r u e -> Forall (fun kv => shown (snd kv) = snd kv) u -> exists m, forall f, (m <= f)%nat -> forall ops g, in_turn shown f r {| q_mag := g; q_units := u |} ops = Ok (map snd ops).
Proof.
  intros NM Y SH. pose proof (ready_tidy r u e Y) as T. pose proof (ready_worths r u e Y) as W. destruct (over_eq shown r u 1 e NM T W SH) as [m2 D].
  (* the base units of base units are the same, up to order *)
  assert (B : exists m, forall f, (m <= f)%nat -> forall g x, times_unit f r {| q_mag := g; q_units := u |} x = Ok (x * 1, {| q_mag := x * 1; q_units := u |})).
  { exists 1%nat. intros [|f] L g x; [lia|]. assert (G : get_base_units (S f) r u = Ok (Some 1, u)).
    { rewrite gbu_S. destruct Y as [N Z OB _]. assert (H : forall done, NoDup (map fst (done ++ u)) -> fold_left (base_step r (get_base_units f r)) u (Ok (Some 1, done)) = Ok (Some 1, done ++ u)).
      { clear N W D T SH. induction OB as [|[k v] u O OB IH]; intros done N; [rewrite app_nil_r; reflexivity|]. inversion Z as [|? ? Z0 Z1]; subst. cbn [fst snd] in *. cbn [fold_left]. destruct (own_resolves r k O) as (d & R & BD & OD).
        assert (NI : ~ In k (map fst done)). { intro I. rewrite map_app in N. cbn [map fst] in N. apply NoDup_remove in N. apply (proj2 N). apply in_or_app. left. exact I. }
        assert (ST : base_step r (get_base_units f r) (Ok (Some 1, done)) (k, v) = Ok (Some 1, done ++ [(k, v)])). { unfold base_step. cbn [bind fst snd]. rewrite R. cbn [bind fst snd]. unfold is_offset. rewrite OD, BD. unfold c_add. rewrite (expo_none k done NI), Rplus_0_l, (proj2 (is_zero_false v) Z0). cbn [bind]. rewrite dset_new by exact NI. reflexivity. }
        rewrite ST. rewrite IH; [rewrite <- app_assoc; reflexivity|exact Z1|rewrite <- app_assoc; exact N]. }
      apply (H []), N. }
    unfold times_unit. cbn [q_units]. rewrite G. cbn [bind snd]. unfold convert. assert (Q : c_eq u u = true). { unfold c_eq. rewrite Nat.eqb_refl. cbn [andb]. apply forallb_forall. intros [k v] I. cbn [fst snd]. rewrite (In_dget k v u (y_nodup _ _ _ Y) I). apply is_zero_true. ring. } rewrite Q. cbn [bind]. rewrite Rmult_1_r. reflexivity. }
  destruct B as [m1 B]. exists (max m1 m2). intros f L ops. induction ops as [|[mul x] ops IH]; intro g; [reflexivity|]. cbn [in_turn]. destruct mul.
  - rewrite B by lia. cbn [bind fst snd]. rewrite IH. cbn [bind map snd]. rewrite Rmult_1_r. reflexivity.
  - rewrite D by lia. cbn [bind fst snd]. rewrite IH. cbn [bind map snd]. replace (x / 1) with x by field. reflexivity.
Qed.
(** ** algebra *)
Lemma own_mix r s a b : Forall (fun kv => exists d, resolve r (fst kv) = Ok (fst kv, d)) a -> Forall (fun kv => exists d, resolve r (fst kv) = Ok (fst kv, d)) b -> Forall (fun kv => exists d, resolve r (fst kv) = Ok (fst kv, d)) (c_clean (mix s a b)).
Proof. intros A B. apply forall_clean. apply (mix_keys (fun k => exists d, resolve r k = Ok (k, d))); assumption. Qed.
Lemma tidy_mul r a b : tidy_units r a -> tidy_units r b -> tidy_units r (c_mul a b).
Proof. intros [N Z O] [N' Z' O']. rewrite mul_mix. constructor; [apply clean_nodup, mix_nodup, N|apply clean_nonzero|apply own_mix; assumption]. Qed.
Lemma tidy_div r a b : tidy_units r a -> tidy_units r b -> tidy_units r (c_div a b).
Proof. intros [N Z O] [N' Z' O']. rewrite div_mix. constructor; [apply clean_nodup, mix_nodup, N|apply clean_nonzero|apply own_mix; assumption]. Qed.
Lemma tidy_pow r a n : n <> 0 -> tidy_units r a -> tidy_units r (c_pow a n).
Proof.
  intros NZ [N Z O]. constructor; [rewrite pow_keys; exact N| |apply (pow_forall (fun k => exists d, resolve r k = Ok (k, d))), O]. clear N O. induction Z as [|[k v] a H Z IH]; constructor; [|exact IH]. cbn [fst snd] in *. intro E. apply Rmult_integral in E. destruct E; contradiction.
Qed.
