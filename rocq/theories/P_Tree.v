(** * Trees on file, and redirection: proofs *)
From Coq Require Import List Arith Ascii String Bool Lia.
From Verif Require Import PyBase P_Dict M_Tree S_Tree.
Import ListNotations.
Local Open Scope list_scope.

(** ** blanks *)
Definition blanks (s : text) : Prop := Forall (fun c => blank c = true) s.
Lemma lstrip_blank a b : blanks a -> lstrip (a ++ b) = lstrip b.
Proof. induction 1 as [|c a C _ IH]; [reflexivity|]. cbn [app lstrip]. now rewrite C. Qed.
Lemma lstrip_all a : blanks a -> lstrip a = [].
Proof. intro B. rewrite <- (app_nil_r a), lstrip_blank by exact B. reflexivity. Qed.
Lemma lstrip_is s : exists a, s = a ++ lstrip s /\ blanks a /\ (lstrip s = [] \/ exists c m, lstrip s = c :: m /\ blank c = false).
Proof.
  induction s as [|c s (a & E & B & D)]; [exists []; repeat split; [constructor|now left]|]. cbn [lstrip]. destruct (blank c) eqn:C.
  - exists (c :: a). split; [cbn [app]; now rewrite <- E|]. split; [now constructor|exact D].
  - exists []. split; [reflexivity|]. split; [constructor|]. right. eauto.
Qed.
Lemma strip_ends s : without_ends s (strip s).
Proof.
  unfold strip. destruct (lstrip_is s) as (a & E & B & D). destruct (lstrip_is (rev (lstrip s))) as (z & F & G & H).
  exists a, (rev z). assert (L : lstrip s = rev (lstrip (rev (lstrip s))) ++ rev z) by (rewrite <- rev_app_distr, <- F; symmetry; apply rev_involutive).
  split; [rewrite <- L; exact E|]. split; [exact B|]. split; [now apply Forall_rev|].
  destruct H as [H|(c & m & H & C)]; [left; rewrite H; reflexivity|]. right. split.
  - rewrite H in *. cbn [rev] in *. destruct D as [D|(c' & m' & D & C')]; [rewrite D in L; symmetry in L; apply app_eq_nil in L; destruct L as [L _]; symmetry in L; now apply app_cons_not_nil in L|].
    rewrite D in L. destruct (rev m ++ [c]) as [|d r] eqn:X; [symmetry in X; now apply app_cons_not_nil in X|]. cbn [app] in L. injection L as <- _. eauto.
  - rewrite H. cbn [rev]. eauto.
Qed.
Lemma strip_blanks a : blanks a -> strip a = [].
Proof. intro B. unfold strip. rewrite (lstrip_all a B). reflexivity. Qed.
Lemma strip_nil s : strip s = [] -> blanks s.
Proof. intro H. destruct (strip_ends s) as (a & b & E & A & B & _). rewrite H in E. rewrite E. apply Forall_app. now split. Qed.
Lemma strip_app a b : blanks b -> strip (a ++ b) = strip a.
Proof.
  intro B. unfold strip. destruct (lstrip_is a) as (z & E & Z & D). rewrite E at 1. rewrite <- app_assoc, lstrip_blank by exact Z. destruct D as [D|(c & m & D & C)].
  - rewrite D. cbn [app rev]. now rewrite (lstrip_all b B).
  - rewrite D. cbn [app lstrip]. rewrite C. change (c :: m ++ b) with ((c :: m) ++ b). rewrite rev_app_distr, lstrip_blank by now apply Forall_rev. reflexivity.
Qed.
Lemma is_blank_true s : is_blank s = true -> blanks s.
Proof. unfold is_blank. destruct (strip s) eqn:S; [intros _; now apply strip_nil|discriminate]. Qed.
Lemma margin_blank l : blanks (margin l).
Proof. unfold margin. constructor; [reflexivity|]. apply Forall_forall. intros c C. apply repeat_spec in C. now subst c. Qed.

(** ** the builder *)
Section NodeInd.
Variable P : node -> Prop.
Hypothesis H : forall t a c es, Forall P es -> P (Node t a c es).
Fixpoint node_all (n : node) : P n :=
  match n with Node t a c es => H t a c es ((fix go es : Forall P es := match es with [] => Forall_nil P | e :: r => Forall_cons e (node_all e) (go r) end) es) end.
End NodeInd.
Fixpoint clean (e : enode) : node := let 'E g a x t k := e in Node g a (strip (x ++ List.concat (map e_tail k))) (map clean k).
Lemma builds_app a : forall b r, builds b (a ++ r) = bind (builds b a) (fun b' => builds b' r).
Proof. induction a as [|ev a IH]; intros b r; [reflexivity|]. cbn [app builds]. destruct (build b ev); [apply IH|reflexivity]. Qed.
Lemma builds_chars cs : forall s n p, builds (Builder s n p) (map Chars cs) = Ok (Builder s n (p ++ cs)).
Proof. induction cs as [|c cs IH]; intros s n p; cbn [map builds]; [now rewrite app_nil_r|]. cbn [build bind b_stack b_current b_parts]. rewrite IH, <- app_assoc. reflexivity. Qed.
Definition add_all (n : node) (es : list node) : node := let 'Node t a c fs := n in Node t a c (fs ++ es).
Lemma add_all_cons n e es : add_all (add_element n e) es = add_all n (e :: es).
Proof. destruct n. cbn. now rewrite <- app_assoc. Qed.
Scheme told_mut := Minimality for told Sort Prop with told_all_mut := Minimality for told_all Sort Prop.
Lemma told_builds : forall e evs, told e evs -> forall s n p, builds (Builder s n p) evs = Ok (Builder s (add_element n (clean e)) p).
Proof.
  apply (told_mut (fun e evs => forall s n p, builds (Builder s n p) evs = Ok (Builder s (add_element n (clean e)) p))
    (fun k evs => forall s n p, exists q, builds (Builder s n p) evs = Ok (Builder s (add_all n (map clean k)) (p ++ q)) /\ List.concat q = List.concat (map e_tail k))).
  - intros g a x t k cs body X _ IH s n p. cbn [builds build bind b_current b_parts b_stack]. rewrite builds_app, builds_chars. cbn [bind app]. rewrite builds_app.
    destruct (IH ((n, p) :: s) (Node g a [] []) cs) as (q & -> & Q). cbn [bind builds build b_stack b_current b_parts add_all app with_content]. rewrite concat_app, X, Q. reflexivity.
  - intros s n p. exists []. cbn. rewrite app_nil_r. split; [|reflexivity]. destruct n. cbn. now rewrite app_nil_r.
  - intros e k ev cs body _ IHe C _ IHk s n p. rewrite builds_app, IHe. cbn [bind]. rewrite builds_app, builds_chars. cbn [bind].
    destruct (IHk s (add_element n (clean e)) (p ++ cs)) as (q & -> & Q). exists (cs ++ q). split; [rewrite add_all_cons, <- app_assoc; reflexivity|]. rewrite concat_app, C, Q. reflexivity.
Qed.
Lemma load_told e evs : told e evs -> load evs = Ok (clean e).
Proof. intro T. unfold load. now rewrite (told_builds e evs T). Qed.
Lemma clean_tail e t : clean (with_tail e t) = clean e.
Proof. now destruct e. Qed.
Lemma on_last_clean f l : (forall e, clean (f e) = clean e) -> map clean (on_last f l) = map clean l.
Proof.
  intro F. induction l as [|x l IH]; [reflexivity|]. destruct l as [|y l]; [cbn; now rewrite F|]. change (on_last f (x :: y :: l)) with (x :: on_last f (y :: l)). cbn [map] in *. now rewrite IH.
Qed.
Lemma on_last_Forall {A} (P : A -> Prop) f l : (forall e, P e -> P (f e)) -> Forall P l -> Forall P (on_last f l).
Proof.
  intros F H. induction H as [|x l X H IH]; [constructor|]. destruct l as [|y l]; [repeat constructor; now apply F|]. change (on_last f (x :: y :: l)) with (x :: on_last f (y :: l)). now constructor.
Qed.
Lemma indent_tail l e : blanks (e_tail e) -> blanks (e_tail (indent l e)).
Proof.
  destruct e as [g a x t [|k ks]]; intro B; cbn [indent e_tail] in *; [|exact B]. destruct l; [exact B|]. cbn [e_tail]. destruct (is_blank t); [apply margin_blank|exact B].
Qed.
Lemma to_element_tail d : e_tail (to_element d) = [].
Proof. now destruct d. Qed.
Lemma concat_blank (l : list enode) : Forall (fun e => blanks (e_tail e)) l -> blanks (List.concat (map e_tail l)).
Proof. induction 1 as [|e l B F IH]; [constructor|]. cbn. apply Forall_app. now split. Qed.
Lemma clean_indent : forall d l, alike d (clean (indent l (to_element d))).
Proof.
  apply (node_all (fun d => forall l, alike d (clean (indent l (to_element d))))). intros t a c es IH l. cbn [to_element]. destruct es as [|e es].
  - cbn [map indent]. assert (S : alike (Node t a c []) (Node t a (strip (c ++ [])) [])) by (rewrite app_nil_r; constructor; [apply strip_ends|constructor]). destruct l; exact S.
  - remember (e :: es) as k eqn:K. assert (N : map to_element k <> []) by (rewrite K; discriminate). cbn [indent]. destruct (map to_element k) as [|m ms] eqn:M; [easy|]. rewrite <- M. clear N M m ms.
    set (f := fun l0 => if is_blank (e_tail l0) then with_tail l0 (margin l) else l0). cbn [clean].
    assert (B : blanks (List.concat (map e_tail (on_last f (map (indent (S l)) (map to_element k)))))).
    { apply concat_blank. apply on_last_Forall.
      - intros z Z. unfold f. destruct (is_blank (e_tail z)); [|exact Z]. destruct z. cbn. apply margin_blank.
      - rewrite map_map. apply Forall_forall. intros z Z. apply in_map_iff in Z. destruct Z as (d & <- & _). apply indent_tail. rewrite to_element_tail. constructor. }
    rewrite strip_app by exact B. rewrite on_last_clean by (intro z; unfold f; destruct (is_blank (e_tail z)); [apply clean_tail|reflexivity]). constructor.
    + destruct (is_blank c) eqn:C; [|apply strip_ends]. pose proof (is_blank_true c C) as BC. rewrite strip_blanks by (apply Forall_app; split; [apply margin_blank|repeat constructor]). rewrite <- (strip_blanks c BC). apply strip_ends.
    + rewrite !map_map. clear K B f. induction IH as [|d k D F IHk]; cbn [map]; constructor; [apply D|exact IHk].
Qed.

(** ** from_dict *)
Section Shown.
Variable shown : value -> text.
Definition entries : list (string * value) -> result (list node) :=
  fix go (l : list (string * value)) : result (list node) :=
        match l with
        | [] => Ok []
        | (k, w) :: r => bind (if is_dict w then from_dict shown w else Ok (Node EmptyString [] (str shown w) [])) (fun n => bind (go r) (fun ns => Ok (with_tag n k :: ns)))
        end.
Lemma from_dict_eq l : from_dict shown (Dict l) = bind (root_tag l) (fun t => bind (entries l) (fun es => Ok (Node t [] [] es))).
Proof. reflexivity. Qed.
Definition entry_of (w : value) : result node := if is_dict w then from_dict shown w else Ok (Node EmptyString [] (str shown w) []).
Lemma entries_all : forall l es, entries l = Ok es -> Forall2 (fun kw e => exists n, entry_of (snd kw) = Ok n /\ e = with_tag n (fst kw)) l es.
Proof.
  induction l as [|[k w] l IH]; intros es H; cbn [entries] in H; [injection H as <-; constructor|]. fold (entry_of w) in H. destruct (entry_of w) as [n|] eqn:N; [|discriminate]. cbn [bind] in H.
  fold entries in H. destruct (entries l) as [ns|]; [|discriminate]. cbn [bind] in H. injection H as <-. constructor; [exists n; now split|now apply IH].
Qed.
Lemma with_tag_tag n t : n_tag (with_tag n t) = t.
Proof. now destruct n. Qed.
Lemma get_unique : forall l es, Forall2 (fun kw e => exists n, entry_of (snd kw) = Ok n /\ e = with_tag n (fst kw)) l es -> NoDup (map fst l) -> forall k w, In (k, w) l ->
  exists n, entry_of w = Ok n /\ filter (fun e => String.eqb (n_tag e) k) es = [with_tag n k].
Proof.
  induction 1 as [|[k' w'] e l es (n & N & ->) F IH]; intros D k w I; [easy|]. cbn [map fst snd] in *. inversion D as [|? ? ND D']; subst. cbn [filter]. rewrite with_tag_tag. destruct I as [I|I].
  - injection I as -> ->. rewrite String.eqb_refl. exists n. split; [exact N|]. f_equal. clear - F ND. induction F as [|[k2 w2] e l es (m & M & ->) F IH]; [reflexivity|]. cbn [filter]. rewrite with_tag_tag. cbn [map fst] in *.
    rewrite (proj2 (String.eqb_neq k2 k)) by (intro; subst; apply ND; now left). apply IH. intro; apply ND; now right.
  - rewrite (proj2 (String.eqb_neq k' k)) by (intro; subst; apply ND; apply in_map_iff; exists (k, w); now split). now apply IH.
Qed.
End Shown.

(** ** maps *)
Section ValueInd.
Variable P : value -> Prop.
Hypotheses (H1 : forall s, P (Str s)) (H2 : forall k, P (Other k)) (H3 : P Non) (H4 : forall l, Forall P l -> P (Seq l)) (H5 : forall l, Forall (fun kv => P (snd kv)) l -> P (Dict l)).
Fixpoint value_all (v : value) : P v :=
  match v with
  | Str s => H1 s | Other k => H2 k | Non => H3
  | Seq l => H4 l ((fix go l : Forall P l := match l with [] => Forall_nil P | w :: r => Forall_cons w (value_all w) (go r) end) l)
  | Dict l => H5 l ((fix go l : Forall (fun kv => P (snd kv)) l := match l with [] => Forall_nil (fun kv => P (snd kv)) | kv :: r => Forall_cons kv (value_all (snd kv)) (go r) end) l)
  end.
End ValueInd.
Lemma branch_incl a b p : (forall n, In n a -> In n b) -> branch a p -> branch b p.
Proof. intros I B. inversion B; subst; [now apply Branch_end; auto|eapply Branch_on; eauto]. Qed.
Lemma branch_nil p : ~ branch [] p.
Proof. intro B. inversion B as [? ? I|? ? ? ? I]; exact I. Qed.
Lemma leaf_branch shown : forall v p w, leaf_at true v p w -> branch (fm_nodes shown v) (map chars p ++ [str shown w]).
Proof.
  induction 1 as [v D N S|l k w p v I L IH|l w p v S I L IH].
  - destruct v; try discriminate; cbn; try (apply Branch_end; now left); [destruct N; congruence|specialize (S l eq_refl); discriminate].
  - cbn [fm_nodes map app]. eapply Branch_on; [|exact IH]. apply in_map_iff. exists (k, w). now split.
  - cbn [fm_nodes]. eapply branch_incl; [|exact IH]. intros n Hn. apply in_flat_map. eauto.
Qed.
(** nothing to show: no value in it *)
Inductive hollow : value -> Prop :=
| Hollow_none : hollow Non
| Hollow_seq l : Forall hollow l -> hollow (Seq l)
| Hollow_dict : hollow (Dict []).
Inductive hollow_at : value -> list string -> Prop :=
| Hollow_here v : hollow v -> hollow_at v []
| Hollow_key l k w p : In (k, w) l -> hollow_at w p -> hollow_at (Dict l) (k :: p)
| Hollow_item l w p : In w l -> hollow_at w p -> hollow_at (Seq l) p.
Lemma fm_nil shown : forall v, fm_nodes shown v = [] -> hollow v.
Proof.
  apply (value_all (fun v => fm_nodes shown v = [] -> hollow v)); try (intros; discriminate); try (intros; constructor).
  - induction H as [|w l W F IH]; constructor; cbn [fm_nodes flat_map] in *; apply app_eq_nil in H0; destruct H0 as [A B]; [now apply W|now apply IH].
  - intros [|[k w] l] _ H; [constructor|discriminate].
Qed.
Lemma branch_leaf shown : forall v p, branch (fm_nodes shown v) p -> (exists q w, leaf_at true v q w /\ p = map chars q ++ [str shown w]) \/ (exists q, hollow_at v q /\ p = map chars q).
Proof.
  apply (value_all (fun v => forall p, branch (fm_nodes shown v) p -> (exists q w, leaf_at true v q w /\ p = map chars q ++ [str shown w]) \/ (exists q, hollow_at v q /\ p = map chars q))).
  - intros s p B. left. exists [], (Str s). split; [constructor; [reflexivity|left; discriminate|discriminate]|]. cbn in B. inversion B as [? t I|? t bs q I B']; subst; destruct I as [I|[]]; [now injection I as <-|injection I as <- <-; now apply branch_nil in B'].
  - intros s p B. left. exists [], (Other s). split; [constructor; [reflexivity|left; discriminate|discriminate]|]. cbn in B. inversion B as [? t I|? t bs q I B']; subst; destruct I as [I|[]]; [now injection I as <-|injection I as <- <-; now apply branch_nil in B'].
  - intros p B. cbn in B. now apply branch_nil in B.
  - intros l F p B. cbn [fm_nodes] in B. assert (G : exists w, In w l /\ branch (fm_nodes shown w) p).
    { inversion B as [? t I|? t bs q I B']; subst; apply in_flat_map in I; destruct I as (w & W & I); exists w; (split; [exact W|]); [now apply Branch_end|eapply Branch_on; eauto]. }
    destruct G as (w & W & G). rewrite Forall_forall in F. destruct (F w W p G) as [(q & z & L & ->)|(q & Hq & ->)]; [left; exists q, z; split; [|reflexivity]; eapply At_item; eauto|right; exists q; split; [|reflexivity]; eapply Hollow_item; eauto].
  - intros l F p B. cbn [fm_nodes] in B. rewrite Forall_forall in F. inversion B as [? t I|? t bs q I B']; subst; apply in_map_iff in I; destruct I as ([k w] & E & I).
    + injection E as <- E. right. exists [k]. split; [|reflexivity]. eapply Hollow_key; [exact I|]. constructor. now apply (fm_nil shown).
    + injection E as <- <-. destruct (F (k, w) I q B') as [(r & z & L & ->)|(r & Hr & ->)]; [left; exists (k :: r), z; split; [|reflexivity]; eapply At_key; eauto|right; exists (k :: r); split; [|reflexivity]; eapply Hollow_key; eauto].
Qed.
Lemma leaf_d3 shown : forall v p w, leaf_at false v p w -> forall name, d3_branch (to_d3 shown name v) (name :: map chars p ++ [str shown w]).
Proof.
  induction 1 as [v D N S|l k w p v I L IH|l w p v S I L IH]; intro name; [| |discriminate].
  - destruct v; try discriminate; cbn [to_d3 map app]; (eapply D3_on; [now left|apply D3_end]).
  - cbn [to_d3 map app]. destruct l as [|[k' w'] l]; [easy|]. eapply D3_on; [|apply IH]. apply in_map_iff. exists (k, w). now split.
Qed.
Inductive empty_at : value -> list string -> Prop :=
| Empty_here : empty_at (Dict []) []
| Empty_key l k w p : In (k, w) l -> empty_at w p -> empty_at (Dict l) (k :: p).
Lemma d3_leaf shown : forall v name p, d3_branch (to_d3 shown name v) p -> (exists q w, leaf_at false v q w /\ p = name :: map chars q ++ [str shown w]) \/ (exists q, empty_at v q /\ p = name :: map chars q ++ [chars "{}"]).
Proof.
  assert (G : forall v, is_dict v = false -> forall name p, d3_branch (D3 name (Some [D3 (str shown v) None])) p -> exists q w, leaf_at false v q w /\ p = name :: map chars q ++ [str shown w]).
  { intros v D name p B. inversion B as [|? ? c q I B']; subst. destruct I as [<-|[]]. inversion B'; subst. exists [], v. split; [constructor; [exact D|now right|reflexivity]|reflexivity]. }
  apply (value_all (fun v => forall name p, d3_branch (to_d3 shown name v) p -> (exists q w, leaf_at false v q w /\ p = name :: map chars q ++ [str shown w]) \/ (exists q, empty_at v q /\ p = name :: map chars q ++ [chars "{}"]))); try (intros; left; now apply G).
  intros l F name p B. destruct l as [|kw l].
  - cbn [to_d3] in B. inversion B as [|? ? c q I B']; subst. destruct I as [<-|[]]. inversion B'; subst. right. exists []. split; [constructor|reflexivity].
  - remember (kw :: l) as m eqn:M. assert (T : to_d3 shown name (Dict m) = D3 name (Some (map (fun kv => let '(k, w) := kv in to_d3 shown (chars k) w) m))) by (rewrite M; reflexivity).
    rewrite T in B. inversion B as [|? ? c q I B']; subst t cs p. apply in_map_iff in I. destruct I as ([k w] & <- & I). rewrite Forall_forall in F. destruct (F (k, w) I (chars k) q B') as [(r & z & L & ->)|(r & Hr & ->)].
    + left. exists (k :: r), z. split; [|reflexivity]. eapply At_key; eauto.
    + right. exists (k :: r). split; [|reflexivity]. eapply Empty_key; eauto.
Qed.

(** ** redirection *)
Lemma is_open_true y h : is_open y h = true <-> ~ In h (y_closed y).
Proof.
  unfold is_open. rewrite negb_true_iff. split; intro H.
  - intro I. assert (existsb (Nat.eqb h) (y_closed y) = true) by (apply existsb_exists; exists h; split; [exact I|apply Nat.eqb_refl]). congruence.
  - destruct (existsb (Nat.eqb h) (y_closed y)) eqn:X; [|reflexivity]. apply existsb_exists in X. destruct X as (k & K & Q). apply Nat.eqb_eq in Q. subst. easy.
Qed.
(** what a program does to the state *)
Record neat (n : nat) (p : prog) (y y' : sys) (r : option pyerr) : Prop := {
  neat_out : y_out y' = y_out y;
  neat_err : y_err y' = y_err y;
  neat_next : y_next y <= y_next y';
  neat_closed : forall h, In h (y_closed y') <-> In h (y_closed y) \/ y_next y <= h < y_next y';
  neat_raise : forall e, r = Some e -> In e (failures p);
  neat_log : exists l, y_log y' = y_log y ++ l }.
Lemma open_target_is n y t d y1 h b : open_target y t d = (y1, h, b) -> n <= y_next y -> (forall k, In k (y_closed y) -> n <= k < y_next y) -> d < y_next y /\ ~ In d (y_closed y) -> (forall k, t = Stream k -> k < n) ->
  y_out y1 = y_out y /\ y_err y1 = y_err y /\ y_closed y1 = y_closed y /\ y_log y1 = y_log y /\ h < y_next y1 /\ ~ In h (y_closed y1) /\
  ((b = true /\ h = y_next y /\ y_next y1 = S (y_next y)) \/ (b = false /\ y_next y1 = y_next y)).
Proof.
  intros E N C [D1 D2] S. destruct t; cbn in E; injection E as <- <- <-; cbn [y_out y_err y_closed y_log y_next]; repeat split; try assumption; try lia; try tauto.
  - intro I. apply C in I. lia.
  - specialize (S _ eq_refl). lia.
  - specialize (S _ eq_refl). intro I. apply C in I. lia.
Qed.
Lemma run_neat n : forall p y y' r, sane n y -> (forall h, In h (streams p) -> h < n) -> run p y = (y', r) -> neat n p y y' r.
Proof.
  induction p as [s|s|e|p IHp q IHq|o e p IH]; intros y y' r I S E.
  - cbn [run] in E. unfold write in E. rewrite (proj2 (is_open_true y (y_out y)) (proj2 (sane_out _ _ I))) in E. injection E as <- <-. constructor; cbn; try reflexivity; try easy; [intro h; split; [now left|intros [H|H]; [exact H|lia]]|eauto].
  - cbn [run] in E. unfold write in E. rewrite (proj2 (is_open_true y (y_err y)) (proj2 (sane_err _ _ I))) in E. injection E as <- <-. constructor; cbn; try reflexivity; try easy; [intro h; split; [now left|intros [H|H]; [exact H|lia]]|eauto].
  - cbn [run] in E. injection E as <- <-. constructor; try reflexivity; [intro h; split; [now left|intros [H|H]; [exact H|lia]]|intros e' H; injection H as ->; now left|exists []; now rewrite app_nil_r].
  - cbn [run] in E. destruct (run p y) as [y1 r1] eqn:E1. destruct (IHp _ _ _ I (fun h H => S h (in_or_app _ _ _ (or_introl H))) E1) as [A1 A2 A3 A4 A5 [l1 A6]].
    destruct r1 as [x|].
    + injection E as <- <-. constructor; try assumption; [|eauto]. intros e' H. apply in_or_app. left. now apply A5.
    + assert (I1 : sane n y1).
      { destruct I as [J1 J2 J3 J4]. constructor; [lia| | |].
        - intros h H. apply A4 in H. destruct H as [H|H]; [apply J2 in H; lia|lia].
        - rewrite A1. split; [lia|]. intro H. apply A4 in H. destruct H as [H|H]; [now apply J3 in H|lia].
        - rewrite A2. split; [lia|]. intro H. apply A4 in H. destruct H as [H|H]; [now apply J4 in H|lia]. }
      destruct (IHq _ _ _ I1 (fun h H => S h (in_or_app _ _ _ (or_intror H))) E) as [B1 B2 B3 B4 B5 [l2 B6]]. constructor; [congruence|congruence|lia| | |].
      * intro h. rewrite B4, A4. split; [intros [[H|H]|H]; [now left|right; lia|right; lia]|intros [H|H]; [now left; left|]]. destruct (Nat.lt_ge_cases h (y_next y1)); [left; right; lia|right; lia].
      * intros e' H. apply in_or_app. right. now apply B5.
      * exists (l1 ++ l2). rewrite B6, A6. now rewrite app_assoc.
  - cbn [run] in E. unfold make in E. destruct (open_target y o (y_out y)) as [[y1 ho] no] eqn:EO. destruct (open_target y1 e (y_err y1)) as [[y2 he] ne] eqn:EE. destruct I as [J1 J2 J3 J4].
    assert (SO : forall k, o = Stream k -> k < n) by (intros k ->; apply S; cbn [streams]; apply in_or_app; left; now left).
    assert (SE : forall k, e = Stream k -> k < n) by (intros k ->; apply S; cbn [streams]; apply in_or_app; right; apply in_or_app; left; now left).
    assert (SP : forall h, In h (streams p) -> h < n) by (intros h H; apply S; cbn [streams]; apply in_or_app; right; apply in_or_app; now right).
    destruct (open_target_is n _ _ _ _ _ _ EO J1 J2 J3 SO) as (O1 & O2 & O3 & O4 & O5 & O6 & O7).
    assert (N1 : y_next y <= y_next y1) by (destruct O7 as [(_ & _ & ->)|(_ & ->)]; lia).
    destruct (open_target_is n _ _ _ _ _ _ EE ltac:(lia) ltac:(intros k K; rewrite O3 in K; apply J2 in K; lia) ltac:(rewrite O2, O3; destruct J4; split; [lia|assumption]) SE) as (P1 & P2 & P3 & P4 & P5 & P6 & P7).
    assert (N2 : y_next y1 <= y_next y2) by (destruct P7 as [(_ & _ & ->)|(_ & ->)]; lia).
    unfold enter in E. rewrite (proj2 (is_open_true y2 (y_out y2))), (proj2 (is_open_true y2 (y_err y2))) in E by (rewrite ?P1, ?P2, ?O1, ?O2, P3, O3; first [apply J3|apply J4]). cbn [andb r_out r_err r_newout r_newerr] in E.
    set (y3 := Sys ho he (y_closed y2) (y_next y2) (y_log y2)) in *. destruct (run p y3) as [y4 r4] eqn:E4.
    assert (I3 : sane n y3).
    { unfold y3. constructor; cbn [y_next y_closed y_out y_err]; [lia| | |].
      - intros h H. rewrite P3, O3 in H. apply J2 in H. lia.
      - split; [lia|]. now rewrite P3.
      - split; [lia|exact P6]. }
    destruct (IH _ _ _ I3 SP E4) as [A1 A2 A3 A4 A5 [l A6]]. unfold leave in E. cbn [r_out r_err r_newout r_newerr r_old] in E.
    assert (OPo : ~ In ho (y_closed y4)) by (intro H; apply A4 in H; cbn [y3 y_closed y_next] in H; destruct H as [H|H]; [rewrite P3 in H; now apply O6|lia]).
    assert (OPe : ~ In he (y_closed y4)) by (intro H; apply A4 in H; cbn [y3 y_closed y_next] in H; destruct H as [H|H]; [now apply P6|lia]).
    rewrite (proj2 (is_open_true y4 ho) OPo), (proj2 (is_open_true y4 he) OPe) in E. cbn [andb] in E. injection E as <- <-. cbn [y3 y_out y_err y_closed y_next y_log] in *.
    constructor; cbn [y_out y_err y_closed y_next y_log].
    + congruence.
    + congruence.
    + lia.
    + intro h. rewrite !in_app_iff, A4, P3, O3. destruct O7 as [(-> & -> & X1)|(-> & X1)], P7 as [(-> & -> & X2)|(-> & X2)]; cbn [In]; rewrite X1 in *; rewrite X2 in *.
      * split; [intros [[<-|[]]|[[<-|[]]|[H|H]]]; [right; lia|right; lia|now left|right; lia]|]. intros [H|H]; [tauto|]. destruct (Nat.eq_dec (y_next y) h); [tauto|]. destruct (Nat.eq_dec (Datatypes.S (y_next y)) h); [tauto|]. right. right. right. lia.
      * split; [intros [[<-|[]]|[[]|[H|H]]]; [right; lia|now left|right; lia]|]. intros [H|H]; [tauto|]. destruct (Nat.eq_dec (y_next y) h); [tauto|]. right. right. right. lia.
      * split; [intros [[]|[[<-|[]]|[H|H]]]; [right; lia|now left|right; lia]|]. intros [H|H]; [tauto|]. destruct (Nat.eq_dec (y_next y) h); [tauto|]. right. right. right. lia.
      * split; [intros [[]|[[]|[H|H]]]; [now left|right; lia]|]. tauto.
    + exact A5.
    + exists l. rewrite A6, P4, O4. reflexivity.
Qed.
Lemma run_lines : forall p ls y, lines p = Some ls -> ~ In (y_out y) (y_closed y) -> ~ In (y_err y) (y_closed y) ->
  run p y = (Sys (y_out y) (y_err y) (y_closed y) (y_next y) (y_log y ++ map (fun bs => (if fst bs : bool then y_out y else y_err y, snd bs)) ls), None).
Proof.
  induction p as [s|s|e|p IHp q IHq|o e p IH]; intros ls y L O E; cbn [lines] in L; try discriminate.
  - injection L as <-. cbn [run]. unfold write. now rewrite (proj2 (is_open_true y _) O).
  - injection L as <-. cbn [run]. unfold write. now rewrite (proj2 (is_open_true y _) E).
  - destruct (lines p) as [a|]; [|discriminate]. destruct (lines q) as [b|]; [|discriminate]. injection L as <-. cbn [run]. rewrite (IHp a y eq_refl O E), (IHq b _ eq_refl) by assumption. cbn [y_out y_err y_closed y_next y_log]. now rewrite map_app, app_assoc.
Qed.

(** ** folders *)
Lemma path_eqb_spec a b : reflect (a = b) (path_eqb a b).
Proof.
  destruct a as [a1 a2], b as [b1 b2]. unfold path_eqb. cbn [fst snd]. destruct (String.eqb_spec a1 b1), (String.eqb_spec a2 b2); cbn; constructor; congruence.
Qed.
Lemma fset_same f p v : fset f p v p = v.
Proof. unfold fset. destruct (path_eqb_spec p p); congruence. Qed.
Lemma fset_other f p v q : p <> q -> fset f p v q = f q.
Proof. unfold fset. destruct (path_eqb_spec p q); congruence. Qed.
(** whether a name is carried over: nothing in the way, or what is there is replaced *)
Definition carried (force : bool) (f : files) (dst : path) : bool := match f dst with Some _ => force | None => true end.
Lemma transfer_is move force f src dst c : src <> dst -> f src = Some c ->
  exists f', transfer move force f src dst = (f', None) /\
  f' dst = (if carried force f dst then Some c else f dst) /\ f' src = (if carried force f dst && move then None else Some c)%bool /\ forall q, q <> src -> q <> dst -> f' q = f q.
Proof.
  intros D C. unfold transfer, carried. destruct (path_eqb_spec src dst) as [X|_]; [easy|]. destruct (f dst) as [old|] eqn:FD; [destruct force|].
  - rewrite fset_other, C by congruence. destruct move; eexists; (split; [reflexivity|]); cbn [andb].
    + split; [rewrite fset_other, fset_same by congruence; reflexivity|]. split; [apply fset_same|]. intros q Q1 Q2. now rewrite !fset_other by congruence.
    + split; [apply fset_same|]. split; [now rewrite !fset_other by congruence|]. intros q Q1 Q2. now rewrite !fset_other by congruence.
  - exists f. cbn [andb]. repeat split; [congruence|exact C].
  - rewrite C. destruct move; eexists; (split; [reflexivity|]); cbn [andb].
    + split; [rewrite fset_other, fset_same by congruence; reflexivity|]. split; [apply fset_same|]. intros q Q1 Q2. now rewrite !fset_other by congruence.
    + split; [apply fset_same|]. split; [now rewrite !fset_other by congruence|]. intros q Q1 Q2. now rewrite !fset_other by congruence.
Qed.
Lemma transfers_is move force to cwd : forall ns f, NoDup (map base ns) -> (forall n, In n ns -> fst (abspath cwd n) <> to /\ f (abspath cwd n) <> None) ->
  exists f', transfers move force to cwd ns f = (f', None) /\
  (forall n, In n ns -> f' (to, base n) = (if carried force f (to, base n) then f (abspath cwd n) else f (to, base n)) /\ f' (abspath cwd n) = (if carried force f (to, base n) && move then None else f (abspath cwd n))%bool) /\
  (forall q, (forall n, In n ns -> q <> (to, base n) /\ q <> abspath cwd n) -> f' q = f q).
Proof.
  assert (SB : forall n, snd (abspath cwd n) = base n) by (now intros []).
  induction ns as [|n ns IH]; intros f D H; [exists f; repeat split; easy|]. cbn [map] in D. inversion D as [|? ? ND D']; subst. cbn [transfers].
  destruct (H n (or_introl eq_refl)) as [H1 H2]. destruct (f (abspath cwd n)) as [c|] eqn:C; [|easy].
  destruct (transfer_is move force f (abspath cwd n) (to, base n) c ltac:(intro X; rewrite X in H1; now apply H1) C) as (f1 & -> & T1 & T2 & T3).
  assert (OT : forall m, In m ns -> abspath cwd m <> abspath cwd n /\ abspath cwd m <> (to, base n) /\ (to, base m) <> abspath cwd n /\ (to, base m) <> (to, base n)).
  { intros m M. assert (BN : base m <> base n) by (intro X; apply ND; rewrite <- X; now apply in_map). destruct (H m (or_intror M)) as [M1 _]. repeat split; intro X.
    - apply (f_equal snd) in X. rewrite !SB in X. easy.
    - rewrite X in M1. now apply M1.
    - rewrite <- X in H1. now apply H1.
    - injection X as X. easy. }
  destruct (IH f1 D') as (f2 & -> & G1 & G2).
  { intros m M. destruct (H m (or_intror M)) as [M1 M2]. split; [exact M1|]. destruct (OT m M) as (A & B & _). now rewrite T3. }
  exists f2. split; [reflexivity|]. split.
  - intros m [<-|M].
    + assert (Q1 : f2 (to, base n) = f1 (to, base n)) by (apply G2; intros m M; destruct (OT m M) as (_ & A & _ & B); split; congruence).
      assert (Q2 : f2 (abspath cwd n) = f1 (abspath cwd n)) by (apply G2; intros m M; destruct (OT m M) as (A & _ & B & _); split; congruence).
      rewrite Q1, Q2, T1, T2, C. split; reflexivity.
    + destruct (G1 m M) as [A B]. destruct (OT m M) as (X1 & X2 & X3 & X4). assert (CA : carried force f1 (to, base m) = carried force f (to, base m)) by (unfold carried; now rewrite T3).
      rewrite A, B, CA. now rewrite !T3.
  - intros q Q. rewrite G2 by (intros m M; apply Q; now right). destruct (Q n (or_introl eq_refl)). now apply T3.
Qed.
