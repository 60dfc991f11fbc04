(** * Trees on file, and redirection: properties C176 - C179 *)
From Coq Require Import List Arith Ascii String Bool Lia.
From Verif Require Import PyBase P_Dict M_Tree S_Tree P_Tree.
Import ListNotations.
Local Open Scope list_scope.

(** ** C176 *)
(** however the parser cuts the texts: what is saved is read back, but for blanks at the ends of contents *)
Theorem C176_round_trip : forall d evs, told (indent 0 (to_element d)) evs -> exists d', load evs = Ok d' /\ alike d d'.
Proof. intros d evs T. exists (clean (indent 0 (to_element d))). split; [now apply load_told|apply clean_indent]. Qed.
Lemma ends_unique s r : without_ends s r -> r = strip s.
Proof.
  intros (a & b & -> & A & B & [-> |[(c & m & -> & C) (m' & d & E & D)]]).
  - cbn [app]. symmetry. apply strip_blanks. apply Forall_app. now split.
  - rewrite app_assoc, strip_app by exact B. unfold strip. rewrite lstrip_blank by exact A. cbn [lstrip]. rewrite C, E, rev_app_distr. cbn [rev app lstrip]. rewrite D. cbn [rev]. now rewrite rev_involutive.
Qed.
(** trees whose contents have no blanks at the ends are read back exactly *)
Inductive tidy : node -> Prop := Tidy t a c es : without_ends c c -> Forall tidy es -> tidy (Node t a c es).
Theorem C176_exact : forall d evs, tidy d -> told (indent 0 (to_element d)) evs -> load evs = Ok d.
Proof.
  intros d evs T H. destruct (C176_round_trip d evs H) as (d' & -> & A). f_equal. clear H evs. revert d' T A. apply (node_all (fun d => forall d', tidy d -> alike d d' -> d' = d)).
  intros t a c es IH d' T A. inversion T as [? ? ? ? TC TE]; subst. inversion A as [? ? ? c' ? es' AC AE]; subst. rewrite (ends_unique _ _ AC), <- (ends_unique _ _ TC). f_equal. clear - IH TE AE. induction AE as [|e e' es es' X F IHF]; [reflexivity|].
  inversion IH; subst. inversion TE; subst. f_equal; [now auto|now apply IHF].
Qed.
(** every entry of a dictionary is one element with its key as tag: its text, or the tree of the dictionary in it *)
Theorem C176_entries : forall shown l n, from_dict shown (Dict l) = Ok n -> NoDup (map fst l) ->
  n_tag n = match dget "tag" l with Some (Str s) => M_Data.translate s | _ => "node"%string end /\ map n_tag (n_elements n) = map fst l /\
  forall k w, In (k, w) l -> exists e, get_elements n k = [e] /\ n_tag e = k /\
    if is_dict w then exists n', from_dict shown w = Ok n' /\ n_elements e = n_elements n' /\ n_content e = [] else n_content e = str shown w /\ n_elements e = [].
Proof.
  intros shown l n H D. rewrite from_dict_eq in H. unfold root_tag in H. destruct (entries shown l) as [es|] eqn:E; [|destruct (dget "tag" l) as [[]|]; discriminate].
  pose proof (entries_all _ _ _ E) as F. assert (N : exists t, n = Node t [] [] es /\ t = match dget "tag" l with Some (Str s) => M_Data.translate s | _ => "node"%string end).
  { destruct (dget "tag" l) as [[]|]; try discriminate; injection H as <-; eauto. }
  destruct N as (t & -> & ->). cbn [n_tag n_elements]. split; [reflexivity|]. split.
  - clear - F. induction F as [|[k w] e l es (n & _ & ->) F IH]; [reflexivity|]. cbn [map fst]. now rewrite with_tag_tag, IH.
  - intros k w I. destruct (get_unique _ _ _ F D k w I) as (m & M & G). exists (with_tag m k). split; [exact G|]. split; [apply with_tag_tag|]. unfold entry_of in M. destruct w; cbn [is_dict] in *; try (injection M as <-; now split).
    exists m. split; [exact M|]. destruct m as [tm am cm em]. split; [reflexivity|]. cbn. rewrite from_dict_eq in M. destruct (root_tag l0); [|discriminate]. cbn [bind] in M. destruct (entries shown l0); [|discriminate]. now injection M.
Qed.
(** it fails exactly when some dictionary has a tag that is not a string *)
Inductive bad_tag : value -> Prop :=
| Bad_here l w : dget "tag" l = Some w -> (forall s, w <> Str s) -> bad_tag (Dict l)
| Bad_below l k w : In (k, w) l -> bad_tag w -> bad_tag (Dict l).
Theorem C176_tags : forall shown l, (bad_tag (Dict l) -> from_dict shown (Dict l) = Err AttributeError) /\ (~ bad_tag (Dict l) -> exists n, from_dict shown (Dict l) = Ok n).
Proof.
  intro shown. assert (G : forall v, (bad_tag v -> from_dict shown v = Err AttributeError) /\ (is_dict v = true -> ~ bad_tag v -> exists n, from_dict shown v = Ok n)).
  { apply value_all; try (intros; split; [intro B; inversion B|discriminate]). intros l F. rewrite !from_dict_eq.
    assert (X : (exists k w, In (k, w) l /\ bad_tag w) -> entries shown l = Err AttributeError).
    { induction F as [|[k w] l [F1 F2] F IH]; intros (k' & w' & I & B); [easy|]. cbn [entries]. fold (entries shown). destruct I as [I|I].
      - injection I as -> ->. assert (DW : is_dict w' = true) by (inversion B; reflexivity). rewrite DW. cbn [snd] in F1. rewrite F1 by exact B. reflexivity.
      - rewrite IH by eauto. cbn [snd] in *. destruct (is_dict w) eqn:DW; [|reflexivity]. destruct (from_dict shown w) eqn:E; [reflexivity|]. cbn [bind]. destruct w; try discriminate. rewrite from_dict_eq in E. clear - E.
        assert (T : forall v e, from_dict shown v = Err e -> e = AttributeError).
        { apply (value_all (fun v => forall e, from_dict shown v = Err e -> e = AttributeError)); try (intros; cbn in *; congruence). intros l' F' e'. rewrite from_dict_eq. unfold root_tag. destruct (dget "tag" l') as [[]|]; cbn [bind]; try congruence.
          - intro H. destruct (entries shown l') eqn:E'; [discriminate|]. cbn in H. injection H as <-. clear - F' E'. induction F' as [|[k w] l' W F' IH]; [discriminate|]. cbn [entries] in E'. fold (entries shown) in E'. destruct (is_dict w); [destruct (from_dict shown w) eqn:Q|]; cbn [bind] in E'; try (destruct (entries shown l'); cbn [bind] in E'; [discriminate|apply IH; congruence]). injection E' as <-. now apply W.
          - intro H. destruct (entries shown l') eqn:E'; [discriminate|]. cbn in H. injection H as <-. clear - F' E'. induction F' as [|[k w] l' W F' IH]; [discriminate|]. cbn [entries] in E'. fold (entries shown) in E'. destruct (is_dict w); [destruct (from_dict shown w) eqn:Q|]; cbn [bind] in E'; try (destruct (entries shown l'); cbn [bind] in E'; [discriminate|apply IH; congruence]). injection E' as <-. now apply W. }
        rewrite <- from_dict_eq in E. rewrite (T _ _ E). reflexivity. }
    split.
    - intro B. inversion B as [? w T N|? k w I BW]; subst.
      + unfold root_tag. rewrite T. destruct w; try reflexivity. now specialize (N s).
      + unfold root_tag. destruct (dget "tag" l) as [[]|]; try reflexivity; cbn [bind]; rewrite X by eauto; reflexivity.
    - intros _ N. assert (R : exists t, root_tag l = Ok t). { unfold root_tag. destruct (dget "tag" l) as [w|] eqn:T; [|eauto]. destruct w; eauto; exfalso; apply N; eapply Bad_here; eauto; discriminate. }
      destruct R as (t & ->). cbn [bind]. assert (Y : exists es, entries shown l = Ok es).
      { assert (NB : forall k w, In (k, w) l -> ~ bad_tag w) by (intros k w I B; apply N; eapply Bad_below; eauto). clear N X t. induction F as [|[k w] l [F1 F2] F IH]; [exists []; reflexivity|]. cbn [entries]. fold (entries shown).
        destruct IH as (es & ->); [intros k' w' I; apply (NB k'); now right|]. cbn [snd] in *. destruct (is_dict w); [|cbn; eauto]. destruct (F2 eq_refl) as (n & ->); [apply (NB k); now left|]. cbn. eauto. }
      destruct Y as (es & ->). cbn. eauto. }
  intro l. split; [apply G|now apply G].
Qed.
Example C176_example : exists evs, told (indent 0 (to_element (Node "a" [("k"%string, chars "v")] [] [Node "b" [] (chars "1 2") []; Node "c" [] [] [Node "d" [] [] []]]))) evs /\
  load evs = Ok (Node "a" [("k"%string, chars "v")] [] [Node "b" [] (chars "1 2") []; Node "c" [] [] [Node "d" [] [] []]]).
Proof.
  eexists. split.
  - cbn. eapply (told_node _ _ _ _ _ [_]); [cbn [List.concat]; apply app_nil_r|].
    eapply (told_cons _ _ _ [_]); [eapply (told_node _ _ _ _ _ [chars "1"; chars " 2"]); [reflexivity|constructor]|cbn [List.concat]; apply app_nil_r|].
    eapply (told_cons _ _ _ [_]); [|cbn [List.concat]; apply app_nil_r|constructor].
    eapply (told_node _ _ _ _ _ [_]); [cbn [List.concat]; apply app_nil_r|].
    eapply (told_cons _ _ _ [_]); [eapply (told_node _ _ _ _ _ []); [reflexivity|constructor]|cbn [List.concat]; apply app_nil_r|constructor].
  - reflexivity.
Qed.

(** ** C177 *)
(** every value is at the end of a branch spelling its keys; lists add no level *)
Theorem C177_map : forall shown l p w, leaf_at true (Dict l) p w ->
  branch (freemind shown (Dict l)) ((match dget "tag" l with Some (Str s) => [chars s] | _ => [] end) ++ map chars p ++ [str shown w]).
Proof.
  intros shown l p w L. pose proof (leaf_branch shown _ _ _ L) as B. unfold freemind. destruct (dget "tag" l) as [[s| | | |]|]; try exact B. cbn [fm_nodes map app]. eapply Branch_on; [now left|exact B].
Qed.
(** and every branch ends with a value, or with the key of something without values *)
Theorem C177_map_only : forall shown l b, branch (freemind shown (Dict l)) b -> exists p,
  b = (match dget "tag" l with Some (Str s) => [chars s] | _ => [] end) ++ p /\
  ((exists q w, leaf_at true (Dict l) q w /\ p = map chars q ++ [str shown w]) \/ (exists q, hollow_at (Dict l) q /\ p = map chars q)).
Proof.
  intros shown l b B. unfold freemind in B. assert (G : branch (fm_nodes shown (Dict l)) b -> exists p, b = [] ++ p /\ ((exists q w, leaf_at true (Dict l) q w /\ p = map chars q ++ [str shown w]) \/ (exists q, hollow_at (Dict l) q /\ p = map chars q))) by (intro B'; exists b; split; [reflexivity|now apply branch_leaf]).
  destruct (dget "tag" l) as [[s| | | |]|] eqn:T; try exact (G B). cbn [fm_nodes map] in B. inversion B as [? t I|? t bs p I B']; subst; (destruct I as [I|[]]).
  - exfalso. injection I as _ I. destruct l; discriminate.
  - injection I as <- <-. exists p. split; [reflexivity|]. now apply branch_leaf.
Qed.
(** the same for d3 trees, where lists are written out *)
Theorem C177_d3 : forall shown l root, exists t, save_tree shown (Dict l) root = Ok t /\
  let name := match dget "tag" l with Some w => str shown w | None => if String.eqb root "" then chars "output" else chars root end in
  (forall p w, leaf_at false (Dict l) p w -> d3_branch t (name :: map chars p ++ [str shown w])) /\
  (forall b, d3_branch t b -> (exists q w, leaf_at false (Dict l) q w /\ b = name :: map chars q ++ [str shown w]) \/ (exists q, empty_at (Dict l) q /\ b = name :: map chars q ++ [chars "{}"])).
Proof.
  intros shown l root. cbn [save_tree]. destruct (dget "tag" l) as [w|].
  - exists (to_d3 shown (str shown w) (Dict l)). split; [now destruct w|]. split; [intros p v L; now apply leaf_d3|intros b B; now apply d3_leaf].
  - exists (to_d3 shown (if String.eqb root "" then chars "output" else chars root) (Dict l)). split; [now destruct root|]. split; [intros p v L; now apply leaf_d3|intros b B; now apply d3_leaf].
Qed.
(** the file does not tell an empty dictionary from the text {} *)
Theorem C177_empty_refuted : forall shown, ~ (forall l l' root, save_tree shown (Dict l) root = save_tree shown (Dict l') root -> l = l').
Proof. intros shown H. specialize (H [("a"%string, Dict [])] [("a"%string, Str "{}")] "r"%string eq_refl). discriminate. Qed.
(** adding an element to a tree always fails *)
Theorem C177_append : forall t e, tree_append t e = Err NameError.
Proof. reflexivity. Qed.
Example C177_example : forall shown, branch (freemind shown (Dict [("tag"%string, Str "wing"); ("a"%string, Seq [Str "x"; Dict [("b"%string, Str "y")]])])) [chars "wing"; chars "a"; chars "b"; chars "y"].
Proof.
  intro shown. apply (C177_map shown [("tag"%string, Str "wing"); ("a"%string, Seq [Str "x"; Dict [("b"%string, Str "y")]])] ["a"%string; "b"%string] (Str "y")).
  eapply At_key; [right; now left|]. eapply At_item; [reflexivity|right; now left|]. eapply At_key; [now left|]. constructor; [reflexivity|left; discriminate|discriminate].
Qed.

(** ** C178 *)
(** after any nesting of redirections, whether or not something was raised: the interpreter's streams are the old ones;
    files opened for it are closed and nothing else is; only what the program raised is raised; what was written stays *)
Theorem C178_restored : forall n p y y' r, sane n y -> (forall h, In h (streams p) -> h < n) -> run p y = (y', r) ->
  y_out y' = y_out y /\ y_err y' = y_err y /\ (forall h, In h (y_closed y') <-> In h (y_closed y) \/ y_next y <= h < y_next y') /\
  (forall e, r = Some e -> In e (failures p)) /\ exists l, y_log y' = y_log y ++ l.
Proof. intros n p y y' r I S E. destruct (run_neat n p y y' r I S E) as [A B _ C D F]. exact (conj A (conj B (conj C (conj D F)))). Qed.
(** inside, prints go to the given stream and complaints to the other *)
Theorem C178_captured : forall n p ls y, sane n y -> lines p = Some ls ->
  exists y' f, run (With File Nothing p) y = (y', None) /\ f = y_next y /\ In f (y_closed y') /\
  y_log y' = y_log y ++ map (fun bs => (if fst bs : bool then f else y_err y, snd bs)) ls.
Proof.
  intros n p ls y I L. destruct I as [J1 J2 [J3 J3'] [J4 J4']]. cbn [run make open_target]. unfold make. cbn [open_target y_err]. unfold enter. cbn [y_out y_err r_out r_err r_newout r_newerr].
  rewrite !(proj2 (is_open_true _ _)) by assumption. cbn [andb]. rewrite (run_lines p ls _ L) by (cbn; try assumption; intro H; apply J2 in H; lia). cbn [y_out y_err y_closed y_next y_log]. unfold leave. cbn [r_out r_err r_old r_newout r_newerr].
  rewrite !(proj2 (is_open_true _ _)) by (cbn; try assumption; intro H; apply J2 in H; lia). cbn [andb]. do 2 eexists. split; [reflexivity|]. split; [reflexivity|]. split; [now left|reflexivity].
Qed.
(** one object used twice, one use inside the other, does not restore the streams *)
Theorem C178_nested_refuted : ~ (forall y y1 y2 y3 y4 y5 r r1 r2, sane 2 y -> make y File Nothing = (y1, r) -> enter y1 r = Ok (y2, r1) -> enter y2 r1 = Ok (y3, r2) -> leave y3 r2 = Ok y4 ->
  (leave y4 r2 = Ok y5 \/ leave y4 r2 = Err ValueError /\ y5 = y4) -> y_out y5 = y_out y).
Proof.
  intro H. assert (S : sane 2 (Sys 0 1 [] 2 [])) by (constructor; cbn; try lia; intuition lia).
  specialize (H (Sys 0 1 [] 2 []) _ _ _ _ _ _ _ _ S eq_refl eq_refl eq_refl eq_refl (or_intror (conj eq_refl eq_refl))). discriminate.
Qed.
(** nor can it be used again after its file was closed *)
Theorem C178_again_refuted : ~ (forall y y1 y2 y3 r r1, sane 2 y -> make y File Nothing = (y1, r) -> enter y1 r = Ok (y2, r1) -> leave y2 r1 = Ok y3 -> exists y4 r2 y5, enter y3 r1 = Ok (y4, r2) /\ leave y4 r2 = Ok y5).
Proof.
  intro H. assert (S : sane 2 (Sys 0 1 [] 2 [])) by (constructor; cbn; try lia; intuition lia).
  destruct (H (Sys 0 1 [] 2 []) _ _ _ _ _ S eq_refl eq_refl eq_refl) as (y4 & r2 & y5 & E1 & E2). cbn in E1. injection E1 as <- <-. discriminate.
Qed.
Example C178_example : sane 2 (Sys 0 1 [] 2 []) /\ run (Then (With File (Stream 0) (Then (Print (chars "a")) (Then (Complain (chars "b")) (Fail KeyError)))) (Print (chars "c"))) (Sys 0 1 [] 2 []) =
  (Sys 0 1 [2] 3 [(2, chars "a"); (0, chars "b")], Some KeyError).
Proof. split; [constructor; cbn; try lia; intuition lia|reflexivity]. Qed.

(** ** C179 *)
Lemma path_dec (a b : path) : {a = b} + {a <> b}.
Proof. destruct (path_eqb_spec a b); [now left|now right]. Qed.
(** files pulled are copied before anything else is done; those that were there are replaced, or kept when not forced; nothing else changes *)
Theorem C179_pull : forall folder pull force b k, folder <> k_cwd k -> NoDup (map base pull) ->
  (forall n, In n pull -> fst (abspath (k_cwd k) n) <> folder /\ k_files k (abspath (k_cwd k) n) <> None) ->
  exists f, in_folder folder pull force b k = in_folder folder [] force b (Disk f (k_cwd k)) /\
  (forall n, In n pull -> f (folder, base n) = match k_files k (folder, base n) with Some old => if force then k_files k (abspath (k_cwd k) n) else Some old | None => k_files k (abspath (k_cwd k) n) end) /\
  (forall q, (forall n, In n pull -> q <> (folder, base n)) -> f q = k_files k q).
Proof.
  intros folder pull force b k NF D H. destruct (transfers_is false force folder (k_cwd k) pull (k_files k) D H) as (f & E & G1 & G2). exists f. split; [|split].
  - unfold in_folder. cbn [k_cwd k_files transfers]. rewrite (proj2 (String.eqb_neq folder (k_cwd k)) NF), E. reflexivity.
  - intros n N. destruct (G1 n N) as [A _]. rewrite A. unfold carried. destruct (k_files k (folder, base n)) eqn:Q; [|reflexivity]. destruct force; reflexivity.
  - intros q Q. destruct (in_dec path_dec q (map (abspath (k_cwd k)) pull)) as [I|I].
    + apply in_map_iff in I. destruct I as (n & <- & N). destruct (G1 n N) as [_ B]. rewrite B. now rewrite andb_false_r.
    + apply G2. intros n N. split; [now apply Q|]. intros ->. apply I. now apply in_map.
Qed.
(** files pushed are moved back when the body is done, also if it raised; then the interpreter is where it was and what the body raised is raised *)
Theorem C179_push : forall folder force b k k2 push e2, folder <> k_cwd k -> b (Disk (k_files k) folder) = (k2, push, e2) -> NoDup (map base push) ->
  (forall n, In n push -> fst (abspath (k_cwd k2) n) <> k_cwd k /\ k_files k2 (abspath (k_cwd k2) n) <> None) ->
  exists k', in_folder folder [] force b k = (k', e2) /\ k_cwd k' = k_cwd k /\
  (forall n, In n push -> let src := abspath (k_cwd k2) n in let dst := (k_cwd k, base n) in
     match k_files k2 dst with
     | Some old => if force then k_files k' dst = k_files k2 src /\ k_files k' src = None else k_files k' dst = Some old /\ k_files k' src = k_files k2 src
     | None => k_files k' dst = k_files k2 src /\ k_files k' src = None
     end) /\
  (forall q, (forall n, In n push -> q <> (k_cwd k, base n) /\ q <> abspath (k_cwd k2) n) -> k_files k' q = k_files k2 q).
Proof.
  intros folder force b k k2 push e2 NF B D H. destruct (transfers_is true force (k_cwd k) (k_cwd k2) push (k_files k2) D H) as (f & E & G1 & G2).
  exists (Disk f (k_cwd k)). unfold in_folder. rewrite (proj2 (String.eqb_neq folder (k_cwd k)) NF). cbn [transfers]. rewrite B, E. split; [reflexivity|]. split; [reflexivity|]. split; [|exact G2].
  intros n N. cbv zeta. destruct (G1 n N) as [A C]. cbn [k_files]. rewrite A, C. unfold carried. destruct (k_files k2 (k_cwd k, base n)) eqn:Q; [destruct force|]; cbn [andb]; split; reflexivity.
Qed.
(** with the folder it is in already, nothing is copied or moved *)
Theorem C179_same : forall pull force b k, in_folder (k_cwd k) pull force b k = (fst (fst (b k)), snd (b k)).
Proof. intros. unfold in_folder. rewrite String.eqb_refl. now destruct (b k) as [[k' p] e]. Qed.
(** pulling a file that is not there destroys the one in the folder *)
Theorem C179_pull_missing : forall folder n b k, folder <> k_cwd k -> k_files k (k_cwd k, n) = None ->
  exists k', in_folder folder [Here n] true b k = (k', Some GenericException) /\ k_cwd k' = k_cwd k /\ k_files k' (folder, n) = None.
Proof.
  intros folder n b k NF M. assert (P : (k_cwd k, n) <> (folder, n)) by congruence. unfold in_folder. rewrite (proj2 (String.eqb_neq folder (k_cwd k)) NF). cbn [transfers abspath base]. unfold transfer. destruct (path_eqb_spec (k_cwd k, n) (folder, n)) as [X|_]; [easy|].
  destruct (k_files k (folder, n)) eqn:F.
  - rewrite fset_other, M by congruence. eexists. split; [reflexivity|]. split; [reflexivity|]. apply fset_same.
  - rewrite M. eexists. split; [reflexivity|]. split; [reflexivity|exact F].
Qed.
(** the interpreter is not brought back when a file to be pushed is not there *)
Theorem C179_back_refuted : ~ (forall folder pull force b k k' e, (forall d, k_cwd (fst (fst (b d))) = k_cwd d) -> in_folder folder pull force b k = (k', e) -> k_cwd k' = k_cwd k).
Proof.
  intro H. specialize (H "w"%string [] true (fun d => (d, [Here "x"%string], None)) (Disk (fun _ => None) "h"%string) _ _ ltac:(reflexivity) eq_refl). discriminate.
Qed.
(** naming a file twice loses it *)
Theorem C179_twice_refuted : ~ (forall folder b k k' e n c, folder <> k_cwd k -> (forall d, fst (fst (b d)) = d) -> (forall d, snd (fst (b d)) = [Here n; Here n]) -> k_files k (folder, n) = Some c ->
  in_folder folder [] true b k = (k', e) -> exists q, k_files k' q = Some c).
Proof.
  intro H. set (b := fun d : disk => (d, [Here "x"%string; Here "x"%string], @None pyerr)). set (k := Disk (fun q => if path_eqb q ("w", "x")%string then Some (chars "data") else None) "h"%string).
  assert (NF : "w"%string <> k_cwd k) by discriminate. destruct (H "w"%string b k _ _ "x"%string (chars "data") NF (fun d => eq_refl) (fun d => eq_refl) eq_refl eq_refl) as (q & Q).
  unfold b, k in Q. cbn in Q. unfold fset in Q. clear - Q. repeat match type of Q with context [path_eqb ?u ?v] => destruct (path_eqb_spec u v); cbv iota in Q end; try discriminate; congruence.
Qed.
Example C179_example : exists k', in_folder "w" [Here "in"%string] true (fun d => (Disk (fset (k_files d) ("w", "out")%string (k_files d ("w", "in")%string)) "w", [Here "out"%string], Some KeyError))
    (Disk (fun q => if path_eqb q ("h", "in")%string then Some (chars "data") else None) "h") = (k', Some KeyError) /\ k_cwd k' = "h"%string /\ k_files k' ("h", "out")%string = Some (chars "data").
Proof. eexists. split; [reflexivity|]. split; reflexivity. Qed.
Print Assumptions C176_round_trip.
Print Assumptions C176_exact.
Print Assumptions C176_entries.
Print Assumptions C176_tags.
Print Assumptions C177_map.
Print Assumptions C177_map_only.
Print Assumptions C177_d3.
Print Assumptions C177_empty_refuted.
Print Assumptions C177_append.
Print Assumptions C178_restored.
Print Assumptions C178_captured.
Print Assumptions C178_nested_refuted.
Print Assumptions C178_again_refuted.
Print Assumptions C179_pull.
Print Assumptions C179_push.
Print Assumptions C179_same.
Print Assumptions C179_pull_missing.
Print Assumptions C179_back_refuted.
Print Assumptions C179_twice_refuted.
