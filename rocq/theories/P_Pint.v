(** * Shortest paths and dependencies *)
From Coq Require Import List Bool Arith Lia.
From Verif Require Import PyBase M_Pint S_Pint.
Import ListNotations.
Local Open Scope list_scope.

Lemma is_in_true n l : is_in n l = true <-> In n l.
Proof. unfold is_in. rewrite existsb_exists. split; [intros (x & I & E); apply Nat.eqb_eq in E; subst; exact I|intro I; exists n; split; [exact I|apply Nat.eqb_refl]]. Qed.
Lemma is_in_false n l : is_in n l = false <-> ~ In n l.
Proof. rewrite <- is_in_true. destruct (is_in n l); split; congruence. Qed.

(** ** paths *)
Definition free (g : graph) (path : list nat) (s e : nat) (q : list nat) : Prop := walk g s e q /\ NoDup q /\ forall x, In x q -> ~ In x path.
Definition best (g : graph) (path : list nat) (e : nat) (starts : list nat) (o : option (list nat)) : Prop :=
  match o with
  | Some p => (exists s q, In s starts /\ free g path s e q /\ p = path ++ q) /\ forall s q, In s starts -> free g path s e q -> (List.length p <= List.length path + List.length q)%nat
  | None => forall s q, In s starts -> ~ free g path s e q
  end.
Lemma walk_head g s e q : walk g s e q -> In s q. Proof. intro W. inversion W; left; reflexivity. Qed.
Definition room (g : graph) (path : list nat) : nat := List.length (filter (fun k => negb (is_in k path)) (map fst g)).
Lemma neighbours_key g s l : neighbours s g = Some l -> In s (map fst g).
Proof. induction g as [|[m v] g IH]; [discriminate|]. cbn. destruct (Nat.eqb_spec s m) as [->|]; [left; reflexivity|]. intro H. right. apply IH, H. Qed.
Lemma filter_less {A} (p q : A -> bool) l : (forall x, q x = true -> p x = true) -> (exists x, In x l /\ p x = true /\ q x = false) -> (List.length (filter q l) < List.length (filter p l))%nat.
Proof.
  intro H. assert (LE : forall l, (List.length (filter q l) <= List.length (filter p l))%nat). { induction l0 as [|a l0 IH]; [cbn; lia|]. cbn. destruct (q a) eqn:Q; [rewrite (H a Q); cbn; lia|destruct (p a); cbn; lia]. }
  induction l as [|a l IH]; intros (x & I & P & Q); [destruct I|]. cbn. destruct I as [->|I]; [rewrite P, Q; cbn; specialize (LE l); lia|]. specialize (IH (ex_intro _ x (conj I (conj P Q)))). destruct (q a) eqn:QA; [rewrite (H a QA); cbn; lia|destruct (p a); cbn; lia].
Qed.
Lemma room_less g path s l : neighbours s g = Some l -> ~ In s path -> (room g (path ++ [s]) < room g path)%nat.
Proof.
  intros K N. apply filter_less.
  - intros x H. apply negb_true_iff in H. apply negb_true_iff. apply is_in_false in H. apply is_in_false. intro I. apply H. apply in_or_app. left. exact I.
  - exists s. split; [eapply neighbours_key, K|]. split; [apply negb_true_iff, is_in_false, N|]. apply negb_false_iff, is_in_true. apply in_or_app. right. left. reflexivity.
Qed.
Lemma loop_best g path e sub l : (forall b, In b l -> ~ In b path -> exists o, sub b = Ok o /\ best g path e [b] o) ->
  forall o done, best g path e done o -> exists o', fold_left (shortest_step sub path) l (Ok o) = Ok o' /\ best g path e (done ++ l) o'.
Proof.
  induction l as [|b l IH]; intros H o done B; [exists o; rewrite app_nil_r; split; [reflexivity|exact B]|].
  cbn [fold_left]. unfold shortest_step at 2. cbn [bind]. assert (A : exists o1, (if is_in b path then Ok o else bind (sub b) (fun newpath => match newpath with Some p => match o with Some s => if (List.length p <? List.length s)%nat then Ok (Some p) else Ok (Some s) | None => Ok (Some p) end | None => Ok o end)) = Ok o1 /\ best g path e (done ++ [b]) o1).
  { destruct (is_in b path) eqn:IB.
    - apply is_in_true in IB. exists o. split; [reflexivity|]. assert (NO : forall q, ~ free g path b e q) by (intros q (W & _ & D); exact (D b (walk_head _ _ _ _ W) IB)).
      destruct o as [p|]; cbn in *.
      + destruct B as [(s & q & I & F & E) M]. split; [exists s, q; split; [apply in_or_app; left; exact I|split; assumption]|]. intros s' q' I' F'. apply in_app_or in I'. destruct I' as [I'|[<-|[]]]; [exact (M s' q' I' F')|exfalso; exact (NO q' F')].
      + intros s' q' I' F'. apply in_app_or in I'. destruct I' as [I'|[<-|[]]]; [exact (B s' q' I' F')|exact (NO q' F')].
    - apply is_in_false in IB. destruct (H b (or_introl eq_refl) IB) as (ob & -> & BB). cbn [bind]. destruct ob as [p|]; cbn in BB.
      + destruct BB as [(s & q & [<-|[]] & F & E) M]. destruct o as [p0|]; cbn in B.
        * destruct B as [(s0 & q0 & I0 & F0 & E0) M0]. destruct (Nat.ltb_spec (List.length p) (List.length p0)) as [L|L]; eexists; (split; [reflexivity|]); cbn; (split; [|intros s' q' I' F'; apply in_app_or in I'; destruct I' as [I'|[<-|[]]]; [specialize (M0 s' q' I' F')|specialize (M b q' (or_introl eq_refl) F')]; lia]).
          -- exists b, q. split; [apply in_or_app; right; left; reflexivity|split; assumption].
          -- exists s0, q0. split; [apply in_or_app; left; exact I0|split; assumption].
        * eexists. split; [reflexivity|]. cbn. split; [exists b, q; split; [apply in_or_app; right; left; reflexivity|split; assumption]|]. intros s' q' I' F'. apply in_app_or in I'. destruct I' as [I'|[<-|[]]]; [exfalso; exact (B s' q' I' F')|exact (M b q' (or_introl eq_refl) F')].
      + exists o. split; [reflexivity|]. destruct o as [p|]; cbn in *.
        * destruct B as [(s & q & I & F & E) M]. split; [exists s, q; split; [apply in_or_app; left; exact I|split; assumption]|]. intros s' q' I' F'. apply in_app_or in I'. destruct I' as [I'|[<-|[]]]; [exact (M s' q' I' F')|exfalso; exact (BB b q' (or_introl eq_refl) F')].
        * intros s' q' I' F'. apply in_app_or in I'. destruct I' as [I'|[<-|[]]]; [exact (B s' q' I' F')|exact (BB b q' (or_introl eq_refl) F')]. }
  destruct A as (o1 & -> & B1). destruct (IH (fun b' I => H b' (or_intror I)) o1 (done ++ [b]) B1) as (o2 & E2 & B2). exists o2. split; [exact E2|]. rewrite <- app_assoc in B2. exact B2.
Qed.
Lemma path_best g e : forall f s path, (room g path < f)%nat -> ~ In s path -> exists o, find_shortest_path f g s e path = Ok o /\ best g path e [s] o.
Proof.
  induction f as [|f IH]; intros s path L N; [lia|]. cbn [find_shortest_path]. destruct (Nat.eqb_spec s e) as [->|NE].
  - eexists. split; [reflexivity|]. cbn. split.
    + exists e, [e]. split; [left; reflexivity|]. split; [|reflexivity]. split; [constructor|]. split; [apply NoDup_cons; [intros []|apply NoDup_nil]|]. intros x [<-|[]]. exact N.
    + intros s q [<-|[]] (W & _). rewrite app_length. cbn. pose proof (walk_head _ _ _ _ W) as I. destruct q; [destruct I|cbn; lia].
  - destruct (neighbours s g) as [l|] eqn:K.
    + assert (LR := room_less g path s l K N). destruct (loop_best g (path ++ [s]) e (fun node => find_shortest_path f g node e (path ++ [s])) l) with (o := @None (list nat)) (done := @nil nat) as (o & E & B); [intros b _ NB; apply IH; [lia|exact NB]|intros ? ? []|]. cbn [app] in B. exists o. split; [exact E|].
      assert (UP : forall b q, In b l -> free g (path ++ [s]) b e q -> free g path s e (s :: q)).
      { intros b q I (W & ND & D). split; [apply (walk_step g s b); [exists l; split; assumption|exact W]|]. split; [apply NoDup_cons; [intro J; apply (D s J), in_or_app; right; left; reflexivity|exact ND]|]. intros x [<-|J]; [exact N|]. intro P. apply (D x J), in_or_app. left. exact P. }
      assert (DOWN : forall q, free g path s e q -> exists b q', In b l /\ free g (path ++ [s]) b e q' /\ q = s :: q').
      { intros q (W & ND & D). inversion W as [|? b ? q' (l' & K' & I) W']; subst; [contradiction|]. rewrite K in K'. injection K' as <-. inversion ND; subst. exists b, q'. split; [exact I|]. split; [|reflexivity]. split; [exact W'|]. split; [assumption|]. intros x J P. apply in_app_or in P. destruct P as [P|[<-|[]]]; [exact (D x (or_intror J) P)|contradiction]. }
      destruct o as [p|]; cbn in *.
      * destruct B as [(b & q & I & F & E') M]. split; [exists s, (s :: q); split; [left; reflexivity|]; split; [exact (UP b q I F)|rewrite E', <- app_assoc; reflexivity]|]. intros s' q' [<-|[]] F'. destruct (DOWN q' F') as (b' & q'' & I' & F'' & ->). specialize (M b' q'' I' F''). rewrite app_length in M. cbn in *. lia.
      * intros s' q' [<-|[]] F'. destruct (DOWN q' F') as (b' & q'' & I' & F'' & ->). exact (B b' q'' I' F'').
    + eexists. split; [reflexivity|]. cbn. intros s' q [<-|[]] (W & _). inversion W as [|? b ? q' (l' & K' & _)]; subst; [contradiction|congruence].
Qed.
Lemma walk_cut g b c p a : walk g b c p -> In a p -> exists p2, walk g a c p2 /\ (List.length p2 <= List.length p)%nat /\ (NoDup p -> NoDup p2).
Proof.
  intro W. induction W as [x|x b c p E W IH]; intro I.
  - destruct I as [<-|[]]. exists [x]. split; [constructor|]. split; [lia|tauto].
  - destruct I as [<-|I]; [exists (x :: p); split; [eapply walk_step; eassumption|split; [lia|tauto]]|]. destruct (IH I) as (p2 & W2 & L & N). exists p2. split; [exact W2|]. split; [cbn; lia|]. intro ND. inversion ND; subst. apply N. assumption.
Qed.
Lemma walk_simple g s e q : walk g s e q -> exists q', walk g s e q' /\ NoDup q' /\ (List.length q' <= List.length q)%nat.
Proof.
  intro W. induction W as [x|x b c p E W (q' & W' & N & L)].
  - exists [x]. split; [constructor|]. split; [apply NoDup_cons; [intros []|apply NoDup_nil]|lia].
  - destruct (in_dec Nat.eq_dec x q') as [I|I].
    + destruct (walk_cut g b c q' x W' I) as (p2 & W2 & L2 & N2). exists p2. split; [exact W2|]. split; [exact (N2 N)|cbn; lia].
    + exists (x :: q'). split; [eapply walk_step; eassumption|]. split; [apply NoDup_cons; assumption|cbn; lia].
Qed.

(** ** dependencies *)
Definition weight (d : deps) : nat := fold_right (fun kv n => (1 + List.length (snd kv) + n)%nat) 0%nat d.
Lemma filter_length_le {A} (p : A -> bool) l : (List.length (filter p l) <= List.length l)%nat.
Proof. induction l as [|a l IH]; [cbn; lia|]. cbn. destruct (p a); cbn; lia. Qed.
Lemma filter_some {A} (p : A -> bool) l x : In x l -> p x = false -> (List.length (filter p l) < List.length l)%nat.
Proof. intros I P. induction l as [|a l IH]; [destruct I|]. cbn. destruct I as [->|I]; [rewrite P; assert (Q := filter_length_le p l); lia|]. specialize (IH I). destruct (p a); cbn; lia. Qed.
Lemma weight_le t d : (weight (without t d) <= weight d)%nat.
Proof.
  unfold without. induction d as [|[k v] d IH]; [cbn; lia|]. cbn [filter snd]. destruct v as [|x v]; cbn [map weight fold_right fst snd]; change (fold_right (fun kv n => (1 + List.length (snd kv) + n)%nat) 0%nat) with weight; [lia|]. pose proof (filter_length_le (fun i => negb (is_in i t)) (x :: v)). lia.
Qed.
Lemma weight_less t d k v : In (k, v) d -> (v = [] \/ exists x, In x v /\ In x t) -> (weight (without t d) < weight d)%nat.
Proof.
  induction d as [|[k' v'] d IH]; intros I H; [destruct I|]. pose proof (weight_le t d) as LE. unfold without in *. destruct I as [E|I].
  - injection E as -> ->. cbn [filter snd]. destruct H as [->|(x & I & T)]; [cbn [weight fold_right snd List.length]; change (fold_right (fun kv n => (1 + List.length (snd kv) + n)%nat) 0%nat) with weight; lia|]. destruct v as [|y v]; [destruct I|]. cbn [map weight fold_right fst snd]. change (fold_right (fun kv n => (1 + List.length (snd kv) + n)%nat) 0%nat) with weight. assert (F := filter_some (fun i => negb (is_in i t)) (y :: v) x I ltac:(apply negb_false_iff, is_in_true, T)). lia.
  - specialize (IH I H). cbn [filter snd]. destruct v' as [|y v']; cbn [map weight fold_right fst snd]; change (fold_right (fun kv n => (1 + List.length (snd kv) + n)%nat) 0%nat) with weight; [lia|]. assert (F := filter_length_le (fun i => negb (is_in i t)) (y :: v')). lia.
Qed.
Lemma layer_in d x : In x (layer d) <-> (In x (flat_map snd d) /\ ~ In x (map fst d)) \/ In (x, []) d.
Proof.
  unfold layer. rewrite in_app_iff, filter_In, in_map_iff. rewrite negb_true_iff, is_in_false. split; (intros [H|H]; [left; exact H|right]).
  - destruct H as ([k v] & E & I). cbn in E. subst k. apply filter_In in I. destruct I as [I H]. destruct v; [exact I|discriminate H].
  - exists (x, []). split; [reflexivity|]. apply filter_In. split; [exact H|reflexivity].
Qed.
Lemma without_in t d k v : In (k, v) (without t d) <-> exists v0, In (k, v0) d /\ v0 <> [] /\ v = filter (fun i => negb (is_in i t)) v0.
Proof.
  unfold without. rewrite in_map_iff. split.
  - intros ([k0 v0] & E & I). cbn [fst snd] in E. injection E as <- <-. apply filter_In in I. destruct I as [I H]. exists v0. split; [exact I|]. split; [destruct v0; [discriminate H|discriminate]|reflexivity].
  - intros (v0 & I & N & ->). exists (k, v0). split; [reflexivity|]. apply filter_In. split; [exact I|]. cbn. destruct v0; [contradiction|reflexivity].
Qed.
Lemma key_in (d : deps) k : In k (map fst d) <-> exists v, In (k, v) d.
Proof. rewrite in_map_iff. split; [intros ([k' v] & <- & I); exists v; exact I|intros (v & I); exists (k, v); split; [reflexivity|exact I]]. Qed.
Lemma dep_in (d : deps) i : In i (flat_map snd d) <-> exists k v, In (k, v) d /\ In i v.
Proof. rewrite in_flat_map. split; [intros ([k v] & I & J); exists k, v; split; assumption|intros (k & v & I & J); exists (k, v); split; assumption]. Qed.
Lemma one_value (d : deps) k v v' : NoDup (map fst d) -> In (k, v) d -> In (k, v') d -> v = v'.
Proof.
  intro N. induction d as [|[k0 v0] d IH]; [intros []|]. cbn in N. inversion N as [|? ? N0 N1]; subst. intros [E|I] [E'|I'].
  - injection E as -> ->. injection E' as ->. reflexivity.
  - injection E as -> ->. exfalso. apply N0, key_in. exists v'. exact I'.
  - injection E' as -> ->. exfalso. apply N0, key_in. exists v. exact I.
  - exact (IH N1 I I').
Qed.
Lemma without_nodup t d : NoDup (map fst d) -> NoDup (map fst (without t d)).
Proof.
  intro N. induction d as [|[k v] d IH]; [exact N|]. cbn in N. inversion N as [|? ? N0 N1]; subst. specialize (IH N1). unfold without in *. cbn [filter snd]. destruct v; [exact IH|]. cbn [map fst]. apply NoDup_cons; [|exact IH]. intro I. apply N0. apply key_in. apply key_in in I. destruct I as [v' I]. apply (without_in t d k v') in I. destruct I as (v0 & I & _). exists v0. exact I.
Qed.
Lemma node_without d : NoDup (map fst d) -> forall x, node (without (layer d) d) x <-> node d x /\ ~ In x (layer d).
Proof.
  intros N x. split.
  - intros [K|D].
    + apply key_in in K. destruct K as [v I]. apply without_in in I. destruct I as (v0 & I & NE & _). split; [left; apply key_in; exists v0; exact I|]. intro L. apply layer_in in L. destruct L as [[_ L]|L]; [apply L, key_in; exists v0; exact I|]. apply NE. exact (one_value d x v0 [] N I L).
    + apply dep_in in D. destruct D as (k & v & I & J). apply without_in in I. destruct I as (v0 & I & _ & ->). apply filter_In in J. destruct J as [J T]. apply negb_true_iff, is_in_false in T. split; [right; apply dep_in; exists k, v0; split; assumption|exact T].
  - intros [[K|D] T].
    + apply key_in in K. destruct K as [v I]. left. apply key_in. eexists. apply without_in. exists v. split; [exact I|]. split; [|reflexivity]. intros ->. apply T, layer_in. right. exact I.
    + destruct (in_dec Nat.eq_dec x (map fst d)) as [K|K]; [|exfalso; apply T, layer_in; left; split; assumption]. apply key_in in K. destruct K as [v I]. left. apply key_in. eexists. apply without_in. exists v. split; [exact I|]. split; [|reflexivity]. intros ->. apply T, layer_in. right. exact I.
Qed.
Lemma solve_S f d : d <> [] -> solve_dependencies (S f) d = bind (solve_dependencies f (without (layer d) d)) (fun r => Ok (layer d :: r)).
Proof. destruct d; [contradiction|reflexivity]. Qed.
Lemma knot_keeps d c : NoDup (map fst d) -> knot d c -> knot (without (layer d) d) c.
Proof.
  intros N [NE H]. split; [exact NE|]. intros k I. destruct (H k I) as (v & i & J & V & C). exists (filter (fun i => negb (is_in i (layer d))) v), i. split; [|split; [|exact C]].
  - apply without_in. exists v. split; [exact J|]. split; [intros ->; destruct V|reflexivity].
  - apply filter_In. split; [exact V|]. apply negb_true_iff, is_in_false. intro L. destruct (H i C) as (v' & i' & J' & V' & _). apply layer_in in L. destruct L as [[_ L]|L]; [apply L, key_in; exists v'; exact J'|]. rewrite (one_value d i v' [] N J' L) in V'. destruct V'.
Qed.
Lemma knot_forever : forall f d c, NoDup (map fst d) -> knot d c -> solve_dependencies f d = Err GenericException.
Proof.
  induction f as [|f IH]; intros d c N K; (assert (NE : d <> []) by (intros ->; destruct K as [C H]; destruct c as [|k c]; [apply C; reflexivity|]; destruct (H k (or_introl eq_refl)) as (v & i & [] & _))); [destruct d; [contradiction|reflexivity]|].
  rewrite (solve_S f d NE), (IH _ c (without_nodup _ d N) (knot_keeps d c N K)). reflexivity.
Qed.
Lemma empty_layer d : d <> [] -> layer d = [] -> knot d (map fst d).
Proof.
  intros NE L. split; [destruct d; [contradiction|discriminate]|]. intros k I. apply key_in in I. destruct I as [v I]. destruct v as [|i v]; [exfalso; assert (X : In k (layer d)) by (apply layer_in; right; exact I); rewrite L in X; destruct X|]. exists (i :: v), i. split; [exact I|]. split; [left; reflexivity|].
  destruct (in_dec Nat.eq_dec i (map fst d)) as [K|K]; [exact K|]. exfalso. assert (X : In i (layer d)) by (apply layer_in; left; split; [apply dep_in; exists k, (i :: v); split; [exact I|left; reflexivity]|exact K]). rewrite L in X. destruct X.
Qed.
Lemma solve_ends : forall f d, NoDup (map fst d) -> (forall c, ~ knot d c) -> (weight d <= f)%nat -> exists r, solve_dependencies f d = Ok r.
Proof.
  induction f as [|f IH]; intros d N K L; (destruct (list_eq_dec (fun a b : nat * list nat => ltac:(repeat decide equality)) d []) as [->|NE]; [exists []; reflexivity|]).
  - destruct d as [|kv d]; [contradiction|cbn in L; lia].
  - rewrite (solve_S f d NE). assert (W : (weight (without (layer d) d) < weight d)%nat).
    { destruct (layer d) as [|x t] eqn:E; [exfalso; exact (K _ (empty_layer d NE E))|]. rewrite <- E. assert (I : In x (layer d)) by (rewrite E; left; reflexivity). pose proof I as X. apply layer_in in I. destruct I as [[D _]|I].
      - apply dep_in in D. destruct D as (k & v & I & J). apply (weight_less (layer d) d k v I). right. exists x. split; assumption.
      - apply (weight_less (layer d) d x [] I). left. reflexivity. }
    destruct (IH (without (layer d) d) (without_nodup _ d N)) as [r E]; [|lia|exists (layer d :: r); rewrite E; reflexivity].
    intros c [NC H]. apply (K c). split; [exact NC|]. intros k I. destruct (H k I) as (v & i & J & V & C). apply without_in in J. destruct J as (v0 & J & _ & ->). apply filter_In in V. exists v0, i. split; [exact J|]. split; [apply V|exact C].
Qed.
Lemma layer_S l r n x : in_layer (l :: r) (S n) x <-> in_layer r n x. Proof. reflexivity. Qed.
Lemma layer_O l r x : in_layer (l :: r) 0 x <-> In x l. Proof. split; [intros (l' & E & I); cbn in E; injection E as <-; exact I|intro I; exists l; split; [reflexivity|exact I]]. Qed.
Lemma layers_nodes : forall f d r, NoDup (map fst d) -> solve_dependencies f d = Ok r -> forall x, node d x <-> exists n, in_layer r n x.
Proof.
  induction f as [|f IH]; intros d r N E x; (destruct d as [|kv d]; [injection E as <-; split; [intros [[]|[]]|intros (n & l & X & _); destruct n; discriminate X]|]); [discriminate E|].
  set (D := kv :: d) in *. rewrite (solve_S f D) in E by discriminate. destruct (solve_dependencies f (without (layer D) D)) as [r'|] eqn:E'; [|discriminate E]. injection E as <-. pose proof (IH _ r' (without_nodup _ D N) E' x) as H. rewrite (node_without D N) in H. split.
  - intro ND. destruct (in_dec Nat.eq_dec x (layer D)) as [I|I]; [exists 0%nat; apply layer_O, I|]. destruct (proj1 H (conj ND I)) as [n L]. exists (S n). exact L.
  - intros ([|n] & L); [apply layer_O in L; apply layer_in in L; destruct L as [[L _]|L]; [right; exact L|left; apply key_in; exists []; exact L]|]. apply (proj2 H). exists n. exact L.
Qed.
Lemma layers_once : forall f d r, NoDup (map fst d) -> solve_dependencies f d = Ok r -> forall x n m, in_layer r n x -> in_layer r m x -> n = m.
Proof.
  induction f as [|f IH]; intros d r N E x n m A B; (destruct d as [|kv d]; [injection E as <-; destruct A as (l & X & _); destruct n; discriminate X|]); [discriminate E|].
  set (D := kv :: d) in *. rewrite (solve_S f D) in E by discriminate. destruct (solve_dependencies f (without (layer D) D)) as [r'|] eqn:E'; [|discriminate E]. injection E as <-.
  assert (H : forall k, in_layer r' k x -> ~ In x (layer D)) by (intros k L; apply (node_without D N), (layers_nodes f _ r' (without_nodup _ D N) E'); exists k; exact L).
  destruct n as [|n], m as [|m]; [reflexivity| | |].
  - apply layer_O in A. exfalso. exact (H m B A).
  - apply layer_O in B. exfalso. exact (H n A B).
  - f_equal. exact (IH _ r' (without_nodup _ D N) E' x n m A B).
Qed.
Lemma layers_order : forall f d r, NoDup (map fst d) -> solve_dependencies f d = Ok r -> forall k v i n m, In (k, v) d -> In i v -> in_layer r n i -> in_layer r m k -> (n < m)%nat.
Proof.
  induction f as [|f IH]; intros d r N E k v i n m I V A B; (destruct d as [|kv d]; [destruct I|]); [discriminate E|].
  set (D := kv :: d) in *. pose proof E as E0. rewrite (solve_S f D) in E by discriminate. destruct (solve_dependencies f (without (layer D) D)) as [r'|] eqn:E'; [|discriminate E]. injection E as <-.
  assert (NK : ~ In k (layer D)). { intro L. apply layer_in in L. destruct L as [[_ L]|L]; [apply L, key_in; exists v; exact I|]. rewrite (one_value D k v [] N I L) in V. destruct V. }
  destruct m as [|m]; [apply layer_O in B; contradiction|]. destruct n as [|n]; [lia|]. assert (NI : ~ In i (layer D)). { intro L. pose proof (layers_once (S f) D _ N E0 i (S n) 0%nat A ltac:(apply layer_O; exact L)). discriminate. }
  apply -> Nat.succ_lt_mono. apply (IH _ r' (without_nodup _ D N) E' k (filter (fun i => negb (is_in i (layer D))) v) i n m); [|apply filter_In; split; [exact V|apply negb_true_iff, is_in_false, NI]|exact A|exact B]. apply without_in. exists v. split; [exact I|]. split; [intros ->; destruct V|reflexivity].
Qed.
Lemma layers_full : forall f d r, NoDup (map fst d) -> solve_dependencies f d = Ok r -> ~ In [] r.
Proof.
  induction f as [|f IH]; intros d r N E; (destruct d as [|kv d]; [injection E as <-; intros []|]); [discriminate E|].
  set (D := kv :: d) in *. pose proof E as E0. rewrite (solve_S f D) in E by discriminate. destruct (solve_dependencies f (without (layer D) D)) as [r'|] eqn:E'; [|discriminate E]. injection E as <-. intros [L|I]; [|exact (IH _ r' (without_nodup _ D N) E' I)].
  rewrite (knot_forever (S f) D _ N (empty_layer D ltac:(discriminate) L)) in E0. discriminate.
Qed.
