(** * Sweeps, records and surrogate based optimisation: proofs *)
From Coq Require Import Reals List Arith Ascii String Bool Lia Lra.
From Verif Require Import PyBase M_Opt P_Opt M_Noise P_Noise M_Sweep S_Sweep.
Import ListNotations.
Local Open Scope list_scope.

(** ** text *)
Lemma eqb_sym' a b : Ascii.eqb a b = Ascii.eqb b a.
Proof. destruct (Ascii.eqb_spec a b), (Ascii.eqb_spec b a); congruence. Qed.
Lemma remove_char c s : remove [c] 0 s = filter (fun d => negb (Ascii.eqb c d)) s.
Proof.
  induction s as [|d s IH]; [reflexivity|]. cbn [remove filter starts List.length Nat.sub]. destruct (Ascii.eqb c d); cbn [andb negb]; [exact IH|]. now rewrite IH.
Qed.
Lemma starts_nth : forall p s i, starts p s = true -> (i < List.length p)%nat -> nth_error s i = nth_error p i.
Proof.
  induction p as [|a p IH]; intros s i H L; [cbn in L; lia|]. destruct s as [|b s]; [discriminate|]. cbn [starts] in H. apply andb_prop in H. destruct H as [E H]. apply Ascii.eqb_eq in E. subst b.
  destruct i as [|i]; [reflexivity|]. cbn [nth_error]. apply IH; [exact H|cbn [List.length] in L; lia].
Qed.
Lemma starts_app p b : starts p (p ++ b) = true.
Proof. induction p as [|a p IH]; [reflexivity|]. cbn [starts app]. now rewrite Ascii.eqb_refl. Qed.
Definition noeq (s : text) : Prop := forall c, In c s -> c <> "="%char.
Lemma noeq_app a b : noeq a -> noeq b -> noeq (a ++ b).
Proof. intros A B c I. apply in_app_or in I. destruct I; auto. Qed.
Lemma noeq_nth s i : noeq s -> nth_error s i <> Some "="%char.
Proof. intros N E. apply nth_error_In in E. now apply (N _ E). Qed.
Lemma remove_skip p a b : remove p (List.length a) (a ++ b) = remove p 0 b.
Proof. induction a as [|c a IH]; [reflexivity|]. cbn [List.length app remove]. exact IH. Qed.
Lemma nth_error_ext' {A} : forall (a b : list A), List.length a = List.length b -> (forall i, (i < List.length a)%nat -> nth_error a i = nth_error b i) -> a = b.
Proof.
  induction a as [|x a IH]; intros [|y b] L H; try discriminate; [reflexivity|]. pose proof (H 0%nat ltac:(cbn; lia)) as E. cbn in E. injection E as ->. f_equal. apply IH; [cbn in L; lia|].
  intros i I. apply (H (S i)). cbn. lia.
Qed.
Lemma app_inv_tail_length {A} (a b c d : list A) : a ++ b = c ++ d -> List.length b = List.length d -> b = d.
Proof.
  revert c. induction a as [|x a IH]; intros [|y c] E L; cbn [app] in E; try assumption.
  - exfalso. apply (f_equal (@List.length A)) in E. cbn in E. rewrite app_length in E. lia.
  - exfalso. apply (f_equal (@List.length A)) in E. cbn in E. rewrite app_length in E. lia.
  - injection E as _ E. now apply (IH c).
Qed.
Section Pattern.
Variables (w r : text).
Hypotheses (W : noeq w) (W0 : w <> []).
Let p := w ++ "="%char :: r.
Lemma p_eq : nth_error p (List.length w) = Some "="%char.
Proof. unfold p. rewrite nth_error_app2 by lia. now rewrite Nat.sub_diag. Qed.
Lemma p_len : (List.length w < List.length p)%nat.
Proof. unfold p. rewrite app_length. cbn [List.length]. lia. Qed.
Lemma p_low i : (i < List.length w)%nat -> nth_error p i <> Some "="%char.
Proof. intro I. unfold p. rewrite nth_error_app1 by exact I. now apply noeq_nth. Qed.
Lemma hit a b : noeq a -> remove p 0 (a ++ p ++ b) = a ++ remove p 0 b.
Proof.
  induction a as [|c a IH]; intro N.
  - cbn [app]. assert (E : exists c q, p = c :: q) by (unfold p; destruct w as [|c q]; [easy|cbn [app]; eauto]). destruct E as (c & q & E). pose proof (starts_app p b) as S. rewrite E in S |- *. cbn [app remove]. cbn [app] in S. rewrite S. cbn [List.length Nat.sub]. rewrite Nat.sub_0_r. apply remove_skip.
  - cbn [app remove]. destruct (starts p (c :: a ++ p ++ b)) eqn:S.
    + exfalso. pose proof (starts_nth _ _ _ S p_len) as E. rewrite p_eq in E.
      change (c :: a ++ p ++ b) with ((c :: a) ++ p ++ b) in E. destruct (Nat.lt_ge_cases (List.length w) (List.length (c :: a))) as [L|L].
      * rewrite nth_error_app1 in E by exact L. now apply (noeq_nth _ _ N) in E.
      * rewrite nth_error_app2 in E by exact L. rewrite nth_error_app1 in E by (pose proof p_len; cbn [List.length] in *; lia). apply p_low in E; [exact E|cbn [List.length] in *; lia].
    + f_equal. apply IH. intros d D. apply N. now right.
Qed.
Lemma none s : noeq s -> remove p 0 s = s.
Proof.
  induction s as [|c s IH]; intro N; [reflexivity|]. cbn [remove]. destruct (starts p (c :: s)) eqn:S.
  - exfalso. pose proof (starts_nth _ _ _ S p_len) as E. rewrite p_eq in E. now apply (noeq_nth _ _ N) in E.
  - f_equal. apply IH. intros d D. apply N. now right.
Qed.
Lemma miss1 w' u v : w = w' ++ u -> List.length u = List.length v -> u <> v -> noeq v -> forall a b, noeq a -> remove p 0 (a ++ v ++ "="%char :: b) = a ++ v ++ "="%char :: remove p 0 b.
Proof.
  intros Ew Lu D Nv.
  assert (G : forall q a b, a ++ v = q -> noeq a \/ a = [] -> noeq q -> starts p (q ++ "="%char :: b) = false).
  { intros q a b Q Na N. destruct (starts p (q ++ "="%char :: b)) eqn:S; [|reflexivity]. exfalso. pose proof (starts_nth _ _ _ S p_len) as E. rewrite p_eq in E.
    destruct (lt_eq_lt_dec (List.length w) (List.length q)) as [[L|L]|L].
    - rewrite nth_error_app1 in E by exact L. now apply (noeq_nth _ _ N) in E.
    - apply D. assert (P : w = q).
      { apply nth_error_ext'; [exact L|]. intros i I. pose proof (starts_nth _ _ i S ltac:(pose proof p_len; lia)) as F. rewrite nth_error_app1 in F by lia. unfold p in F. rewrite nth_error_app1 in F by exact I. congruence. }
      rewrite Ew, <- Q in P. apply app_inv_tail_length in P; [exact P|exact Lu].
    - pose proof (starts_nth _ _ (List.length q) S ltac:(pose proof p_len; lia)) as F. rewrite nth_error_app2 in F by lia. rewrite Nat.sub_diag in F. cbn [nth_error] in F. symmetry in F. now apply p_low in F. }
  assert (T : forall v' b, (exists z, v = z ++ v') -> remove p 0 (v' ++ "="%char :: b) = v' ++ "="%char :: remove p 0 b).
  { induction v' as [|c v' IH]; intros b (z & Z).
    - cbn [app remove]. destruct (starts p ("="%char :: b)) eqn:S; [|reflexivity]. exfalso.
      pose proof (starts_nth _ _ 0%nat S ltac:(pose proof p_len; lia)) as F. change (nth_error ("="%char :: b) 0) with (Some "="%char) in F. symmetry in F. apply p_low in F; [exact F|]. destruct w; [easy|cbn; lia].
    - cbn [app remove]. assert (S : starts p ((c :: v') ++ "="%char :: b) = false).
      { destruct (starts p ((c :: v') ++ "="%char :: b)) eqn:S; [|reflexivity]. exfalso. assert (N : noeq (c :: v')) by (intros d I; apply Nv; rewrite Z; apply in_or_app; now right).
        pose proof (starts_nth _ _ _ S p_len) as E. rewrite p_eq in E. destruct (lt_eq_lt_dec (List.length w) (List.length (c :: v'))) as [[L|L]|L].
        - rewrite nth_error_app1 in E by exact L. now apply (noeq_nth _ _ N) in E.
        - assert (P : w = c :: v').
          { apply nth_error_ext'; [exact L|]. intros i I. pose proof (starts_nth _ _ i S ltac:(pose proof p_len; lia)) as F. rewrite nth_error_app1 in F by lia. unfold p in F. rewrite nth_error_app1 in F by exact I. congruence. }
          assert (Lz : List.length z = 0%nat). { rewrite P in Ew. apply (f_equal (@List.length ascii)) in Ew. apply (f_equal (@List.length ascii)) in Z. rewrite app_length in Ew, Z. cbn [List.length] in *. lia. }
          destruct z; [|discriminate]. cbn [app] in Z. apply D. rewrite Ew in P. rewrite <- Z in P. apply (app_inv_tail_length w' u [] v) in P; [exact P|exact Lu].
        - pose proof (starts_nth _ _ (List.length (c :: v')) S ltac:(pose proof p_len; lia)) as F. rewrite nth_error_app2 in F by lia. rewrite Nat.sub_diag in F. cbn [nth_error] in F. symmetry in F. now apply p_low in F. }
      change (c :: v' ++ "="%char :: b) with ((c :: v') ++ "="%char :: b). rewrite S. f_equal. apply IH. exists (z ++ [c]). rewrite <- app_assoc. exact Z. }
  induction a as [|c a IH]; intros b N; [apply T; exists []; reflexivity|].
  cbn [app remove]. assert (S : starts p ((c :: a ++ v) ++ "="%char :: b) = false) by (apply (G _ (c :: a)); [reflexivity|now left|apply (noeq_app (c :: a)); assumption]).
  cbn [app] in S. rewrite <- app_assoc in S. rewrite S. f_equal. apply IH. intros d D'. apply N. now right.
Qed.
End Pattern.

(** ** the line as written, stripped *)
Definition joined (sep : text) : list text -> text := fix go ws := match ws with [] => [] | [w] => w | w :: r => w ++ sep ++ go r end.
Definition plain (w : text) : Prop := forall c, In c w -> ~ In c separators.
Lemma commas_joined : forall ws, commas ws = joined (chars ", ") ws.
Proof. induction ws as [|w [|v ws] IH]; [reflexivity..|]. change (commas (w :: v :: ws)) with (w ++ chars ", " ++ commas (v :: ws)). rewrite IH. reflexivity. Qed.
Definition keepc (d : ascii) : bool := (negb (Ascii.eqb "[" d) && negb (Ascii.eqb "]" d) && negb (Ascii.eqb "," d))%char%bool.
Lemma filter_filter {B} (f g : B -> bool) s : filter f (filter g s) = filter (fun x => g x && f x)%bool s.
Proof. induction s as [|x s IH]; [reflexivity|]. cbn [filter]. destruct (g x); cbn [filter andb]; [destruct (f x); now rewrite IH|exact IH]. Qed.
Lemma brackets s : remove (chars ",") 0 (remove (chars "]") 0 (remove (chars "[") 0 s)) = filter keepc s.
Proof. unfold chars, list_ascii_of_string. rewrite !remove_char, !filter_filter. apply filter_ext. intro c. unfold keepc. now rewrite andb_assoc. Qed.
Lemma plain_keep w : plain w -> filter keepc w = w.
Proof.
  induction w as [|c w IH]; intro P; [reflexivity|]. cbn [filter]. assert (K : keepc c = true).
  { specialize (P c (or_introl eq_refl)). unfold separators in P. cbn [In] in P. unfold keepc. repeat rewrite (proj2 (Ascii.eqb_neq _ _)); [reflexivity|intro; apply P; subst; tauto..]. }
  rewrite K, IH; [reflexivity|]. intros d D. apply P. now right.
Qed.
Lemma joined_cons sep w v ws : joined sep (w :: v :: ws) = w ++ sep ++ joined sep (v :: ws).
Proof. reflexivity. Qed.
Lemma joined_app sep a b : a <> [] -> b <> [] -> joined sep (a ++ b) = joined sep a ++ sep ++ joined sep b.
Proof.
  intros A B. induction a as [|w a IH]; [easy|]. destruct a as [|v a].
  - cbn [app]. destruct b; [easy|]. now rewrite joined_cons.
  - change ((w :: v :: a) ++ b) with (w :: v :: (a ++ b)). rewrite !joined_cons. change (v :: a ++ b) with ((v :: a) ++ b). rewrite IH by easy. now rewrite !app_assoc.
Qed.
Lemma joined_keep ws : Forall plain ws -> filter keepc (joined (chars ", ") ws) = joined (chars " ") ws.
Proof.
  induction 1 as [|w ws P F IH]; [reflexivity|]. destruct ws as [|v ws]; [now apply plain_keep|]. rewrite !joined_cons, !filter_app, IH, (plain_keep w P). reflexivity.
Qed.
Lemma plain_noeq w : plain w -> noeq w.
Proof. intros P c C E. apply (P c C). subst c. unfold separators. cbn [In]. tauto. Qed.
Lemma noeq_lit s : forallb (fun c => negb (Ascii.eqb c "="%char)) s = true -> noeq s.
Proof. intros H c C E. rewrite forallb_forall in H. specialize (H c C). subst c. discriminate. Qed.
Lemma joined_noeq ws : Forall plain ws -> noeq (joined (chars " ") ws).
Proof.
  induction 1 as [|w ws P F IH]; [intros c []|]. destruct ws as [|v ws]; [now apply plain_noeq|]. rewrite joined_cons. apply noeq_app; [now apply plain_noeq|]. apply noeq_app; [now apply noeq_lit|exact IH].
Qed.
Lemma hit' w r a b : forallb (fun c => negb (Ascii.eqb c "="%char)) w = true -> w <> [] -> noeq a -> remove (w ++ "="%char :: r) 0 (a ++ (w ++ "="%char :: r) ++ b) = a ++ remove (w ++ "="%char :: r) 0 b.
Proof. intros W W0. apply hit; [now apply noeq_lit|exact W0]. Qed.
Lemma miss' w' u r v a b : forallb (fun c => negb (Ascii.eqb c "="%char)) (w' ++ u) = true -> w' <> [] -> List.length u = List.length v -> u <> v -> forallb (fun c => negb (Ascii.eqb c "="%char)) v = true -> noeq a ->
  remove ((w' ++ u) ++ "="%char :: r) 0 (a ++ v ++ "="%char :: b) = a ++ v ++ "="%char :: remove ((w' ++ u) ++ "="%char :: r) 0 b.
Proof.
  intros W W0 L D V N. assert (W1 : w' ++ u <> []) by (destruct w'; [easy|discriminate]).
  exact (miss1 (w' ++ u) r (noeq_lit _ W) W1 w' u v eq_refl L D (noeq_lit _ V) a b N).
Qed.
Lemma none' w r s : forallb (fun c => negb (Ascii.eqb c "="%char)) w = true -> w <> [] -> noeq s -> remove (w ++ "="%char :: r) 0 s = s.
Proof. intros W W0. apply none. Qed.

Lemma strip_written I O J K : noeq I -> noeq O -> noeq J -> noeq K ->
  remove (chars "constraints = ") 0 (remove (chars "inputs = ") 0 (remove (chars " objective = ") 0 (remove (chars "iteration = ") 0
    (chars "iteration = " ++ I ++ chars "  objective = " ++ O ++ chars " inputs = " ++ J ++ chars " constraints = " ++ K)))) =
  I ++ chars " " ++ O ++ chars " " ++ J ++ chars " " ++ K.
Proof.
  intros NI NO NJ NK. set (sp := chars " ").
  assert (L : forall a b, forallb (fun c => negb (Ascii.eqb c "="%char)) b = true -> noeq a -> noeq (a ++ b)) by (intros a b B A; apply noeq_app; [exact A|now apply noeq_lit]).
  assert (Lb : forall a b, forallb (fun c => negb (Ascii.eqb c "="%char)) b = true -> noeq a -> noeq (b ++ a)) by (intros a b B A; apply noeq_app; [now apply noeq_lit|exact A]).
  (* iteration *)
  replace (remove (chars "iteration = ") 0 (chars "iteration = " ++ I ++ chars "  objective = " ++ O ++ chars " inputs = " ++ J ++ chars " constraints = " ++ K))
    with (I ++ chars "  objective = " ++ O ++ chars " inputs = " ++ J ++ chars " constraints = " ++ K).
  2:{ symmetry. change (chars "iteration = ") with ((chars "itera" ++ chars "tion ") ++ "="%char :: sp).
      etransitivity; [apply (hit' (chars "itera" ++ chars "tion ") sp []); [reflexivity|discriminate|easy]|]. cbn [app].
      replace (I ++ chars "  objective = " ++ O ++ chars " inputs = " ++ J ++ chars " constraints = " ++ K)
        with ((I ++ chars "  objec") ++ chars "tive " ++ "="%char :: ((sp ++ O ++ chars " in") ++ chars "puts " ++ "="%char :: ((sp ++ J ++ chars " constra") ++ chars "ints " ++ "="%char :: (sp ++ K))))
        by (rewrite <- !app_assoc; reflexivity).
      etransitivity; [apply (miss' (chars "itera") (chars "tion ") sp (chars "tive ")); [reflexivity|discriminate|reflexivity|discriminate|reflexivity|now apply L]|].
      do 3 f_equal. etransitivity; [apply (miss' (chars "itera") (chars "tion ") sp (chars "puts ")); [reflexivity|discriminate|reflexivity|discriminate|reflexivity|apply Lb; [reflexivity|now apply L]]|].
      do 3 f_equal. etransitivity; [apply (miss' (chars "itera") (chars "tion ") sp (chars "ints ")); [reflexivity|discriminate|reflexivity|discriminate|reflexivity|apply Lb; [reflexivity|now apply L]]|].
      do 3 f_equal. apply (none' (chars "itera" ++ chars "tion ") sp); [reflexivity|discriminate|now apply Lb]. }
  (* objective *)
  replace (remove (chars " objective = ") 0 (I ++ chars "  objective = " ++ O ++ chars " inputs = " ++ J ++ chars " constraints = " ++ K))
    with (I ++ chars " " ++ O ++ chars " inputs = " ++ J ++ chars " constraints = " ++ K).
  2:{ symmetry. change (chars " objective = ") with ((chars " objec" ++ chars "tive ") ++ "="%char :: sp).
      replace (I ++ chars "  objective = " ++ O ++ chars " inputs = " ++ J ++ chars " constraints = " ++ K)
        with ((I ++ sp) ++ ((chars " objec" ++ chars "tive ") ++ "="%char :: sp) ++ ((O ++ chars " in") ++ chars "puts " ++ "="%char :: ((sp ++ J ++ chars " constra") ++ chars "ints " ++ "="%char :: (sp ++ K))))
        by (rewrite <- !app_assoc; reflexivity).
      etransitivity; [apply (hit' (chars " objec" ++ chars "tive ") sp); [reflexivity|discriminate|now apply L]|].
      transitivity ((I ++ sp) ++ (O ++ chars " in") ++ chars "puts " ++ "="%char :: ((sp ++ J ++ chars " constra") ++ chars "ints " ++ "="%char :: (sp ++ K))); [|rewrite <- !app_assoc; reflexivity].
      f_equal. etransitivity; [apply (miss' (chars " objec") (chars "tive ") sp (chars "puts ")); [reflexivity|discriminate|reflexivity|discriminate|reflexivity|now apply L]|].
      do 3 f_equal. etransitivity; [apply (miss' (chars " objec") (chars "tive ") sp (chars "ints ")); [reflexivity|discriminate|reflexivity|discriminate|reflexivity|apply Lb; [reflexivity|now apply L]]|].
      do 3 f_equal. apply (none' (chars " objec" ++ chars "tive ") sp); [reflexivity|discriminate|now apply Lb]. }
  (* inputs *)
  replace (remove (chars "inputs = ") 0 (I ++ chars " " ++ O ++ chars " inputs = " ++ J ++ chars " constraints = " ++ K))
    with (I ++ chars " " ++ O ++ chars " " ++ J ++ chars " constraints = " ++ K).
  2:{ symmetry. change (chars "inputs = ") with ((chars "in" ++ chars "puts ") ++ "="%char :: sp).
      replace (I ++ chars " " ++ O ++ chars " inputs = " ++ J ++ chars " constraints = " ++ K)
        with ((I ++ sp ++ O ++ sp) ++ ((chars "in" ++ chars "puts ") ++ "="%char :: sp) ++ ((J ++ chars " constra") ++ chars "ints " ++ "="%char :: (sp ++ K)))
        by (rewrite <- !app_assoc; reflexivity).
      etransitivity; [apply (hit' (chars "in" ++ chars "puts ") sp); [reflexivity|discriminate|apply noeq_app; [exact NI|apply Lb; [reflexivity|now apply L]]]|].
      transitivity ((I ++ sp ++ O ++ sp) ++ (J ++ chars " constra") ++ chars "ints " ++ "="%char :: (sp ++ K)); [|rewrite <- !app_assoc; reflexivity].
      f_equal. etransitivity; [apply (miss' (chars "in") (chars "puts ") sp (chars "ints ")); [reflexivity|discriminate|reflexivity|discriminate|reflexivity|now apply L]|].
      do 3 f_equal. apply (none' (chars "in" ++ chars "puts ") sp); [reflexivity|discriminate|now apply Lb]. }
  change (chars "constraints = ") with ((chars "constra" ++ chars "ints ") ++ "="%char :: sp).
  replace (I ++ chars " " ++ O ++ chars " " ++ J ++ chars " constraints = " ++ K)
    with ((I ++ sp ++ O ++ sp ++ J ++ sp) ++ ((chars "constra" ++ chars "ints ") ++ "="%char :: sp) ++ K)
    by (rewrite <- !app_assoc; reflexivity).
  etransitivity; [apply (hit' (chars "constra" ++ chars "ints ") sp); [reflexivity|discriminate|apply noeq_app; [exact NI|apply Lb; [reflexivity|apply noeq_app; [exact NO|apply Lb; [reflexivity|now apply L]]]]]|].
  transitivity ((I ++ sp ++ O ++ sp ++ J ++ sp) ++ K); [|rewrite <- !app_assoc; reflexivity].
  f_equal. apply (none' (chars "constra" ++ chars "ints ") sp); [reflexivity|discriminate|exact NK].
Qed.
Lemma split_word w rest : (forall c, In c w -> c <> " "%char) -> split (w ++ " "%char :: rest) = w :: split rest.
Proof.
  induction w as [|c w IH]; intro N; [reflexivity|]. cbn [app split]. rewrite (proj2 (Ascii.eqb_neq c " "%char)) by (apply N; now left). rewrite IH; [reflexivity|]. intros d D. apply N. now right.
Qed.
Lemma split_last w : (forall c, In c w -> c <> " "%char) -> split w = [w].
Proof.
  induction w as [|c w IH]; intro N; [reflexivity|]. cbn [split]. rewrite (proj2 (Ascii.eqb_neq c " "%char)) by (apply N; now left). rewrite IH; [reflexivity|]. intros d D. apply N. now right.
Qed.
Lemma plain_space w : plain w -> forall c, In c w -> c <> " "%char.
Proof. intros P c C E. apply (P c C). subst c. unfold separators. cbn [In]. tauto. Qed.
Lemma plain_line w : plain w -> forall c, In c w -> c <> newline.
Proof. intros P c C E. apply (P c C). subst c. unfold separators, newline. cbn [In]. tauto. Qed.
Lemma split_joined ws rest : Forall plain ws -> ws <> [] -> split (joined (chars " ") ws ++ chars " " ++ rest) = ws ++ split rest.
Proof.
  intros F N. induction F as [|w ws P F IH]; [easy|]. destruct ws as [|v ws].
  - cbn [joined]. apply (split_word w rest (plain_space w P)).
  - rewrite joined_cons, <- !app_assoc. etransitivity; [apply (split_word w _ (plain_space w P))|]. cbn [app]. f_equal. change ((v :: ws) ++ split rest) with (v :: (ws ++ split rest)) in IH. apply IH. easy.
Qed.
Lemma readlines_line l rest : (forall c, In c l -> c <> newline) -> readlines (l ++ newline :: rest) = (l ++ [newline]) :: readlines rest.
Proof.
  induction l as [|c l IH]; intro N; [reflexivity|]. cbn [app readlines]. rewrite (proj2 (Ascii.eqb_neq c newline)) by (apply N; now left). rewrite IH; [reflexivity|]. intros d D. apply N. now right.
Qed.

Section Reading.
Variables (A : Type) (show : A -> text) (parse : text -> option A).
Hypothesis FA : faithful show parse.
Lemma show_plain x : plain (show x).
Proof. exact (proj1 (proj2 (proj1 FA x))). Qed.
Lemma shows_plain l : Forall plain (map show l).
Proof. apply Forall_forall. intros w W. apply in_map_iff in W. destruct W as (x & <- & _). apply show_plain. Qed.
Lemma floats_show l r : floats A parse (map show l ++ r) = bind (floats A parse r) (fun s => Ok (l ++ s)).
Proof.
  induction l as [|x l IH]; cbn [map app floats].
  - now destruct (floats A parse r).
  - destruct (proj1 FA x) as (_ & _ & -> & _). rewrite IH. now destruct (floats A parse r).
Qed.
Lemma line_text e : filter keepc (write_entry A show e) =
  chars "iteration = " ++ show (e_iter e) ++ chars "  objective = " ++ show (e_obj e) ++ chars " inputs = " ++ joined (chars " ") (map show (e_in e)) ++ chars " constraints = " ++ (joined (chars " ") (map show (e_con e)) ++ [newline]).
Proof.
  unfold write_entry, show_list. rewrite !commas_joined, !filter_app, !joined_keep by apply shows_plain. rewrite !(plain_keep (show _)) by apply show_plain.
  cbn [chars list_ascii_of_string filter app keepc Ascii.eqb Bool.eqb andb negb newline]. rewrite <- ?app_assoc. reflexivity.
Qed.
Lemma noeq_nl s : noeq s -> noeq (s ++ [newline]).
Proof. intro N. apply noeq_app; [exact N|]. now apply noeq_lit. Qed.
Lemma strip_entry e : strip (write_entry A show e) = show (e_iter e) ++ chars " " ++ show (e_obj e) ++ chars " " ++ joined (chars " ") (map show (e_in e)) ++ chars " " ++ (joined (chars " ") (map show (e_con e)) ++ [newline]).
Proof.
  unfold strip. rewrite brackets, line_text. apply strip_written; [apply plain_noeq, show_plain..|apply joined_noeq, shows_plain|apply noeq_nl, joined_noeq, shows_plain].
Qed.
Lemma floats_last l : l <> [] -> floats A parse (split (joined (chars " ") (map show l) ++ [newline])) = Ok l.
Proof.
  intro N. induction l as [|x l IH]; [easy|]. destruct (proj1 FA x) as (_ & P & S & SN). destruct l as [|y l].
  - cbn [map joined]. rewrite split_last.
    + cbn [floats]. change [newline] with ["010"%char]. now rewrite SN.
    + intros c C. apply in_app_or in C. destruct C as [C|[<-|[]]]; [now apply (plain_space _ P)|discriminate].
  - cbn [map]. rewrite joined_cons, <- !app_assoc. etransitivity; [apply (f_equal (floats A parse)); apply (split_word _ _ (plain_space _ P))|]. cbn [floats]. rewrite S. cbn [map] in IH. now rewrite IH.
Qed.
Definition row (e : entry A) : list A := e_iter e :: e_obj e :: e_in e ++ e_con e.
Lemma floats_entry e : floats A parse (split (strip (write_entry A show e))) = match e_in e, e_con e with [], _ | _, [] => Err ValueError | _, _ => Ok (row e) end.
Proof.
  rewrite strip_entry. destruct (proj1 FA (e_iter e)) as (_ & PI & SI & _). destruct (proj1 FA (e_obj e)) as (_ & PO & SO & _).
  etransitivity; [apply (f_equal (floats A parse)); apply (split_word _ _ (plain_space _ PI))|]. cbn [floats]. rewrite SI.
  etransitivity; [apply (f_equal (fun z => bind (floats A parse z) (fun l => Ok (e_iter e :: l)))); apply (split_word _ _ (plain_space _ PO))|]. cbn [floats]. rewrite SO.
  destruct (e_in e) as [|i ins] eqn:EI.
  - cbn [map joined app]. cbn [chars list_ascii_of_string app split Ascii.eqb Bool.eqb floats]. change (" " =? " ")%char with true. cbv iota. cbn [floats]. now rewrite (proj1 (proj2 FA)).
  - rewrite split_joined by (try apply shows_plain; discriminate). rewrite floats_show. destruct (e_con e) as [|k con] eqn:EC.
    + cbn [map joined app split]. change (newline =? " ")%char with false. cbv iota. cbn [split floats]. change [newline] with ["010"%char]. now rewrite (proj2 (proj2 FA)).
    + rewrite floats_last by discriminate. unfold row. now rewrite EI, EC.
Qed.
Definition body (e : entry A) : text :=
  chars "iteration = " ++ show (e_iter e) ++ chars " , " ++ chars "objective = " ++ show (e_obj e) ++ chars ", inputs = " ++ show_list A show (e_in e) ++ chars ", constraints = " ++ show_list A show (e_con e).
Lemma written_body e : write_entry A show e = body e ++ [newline].
Proof. unfold write_entry, body. now rewrite <- !app_assoc. Qed.
Definition nonl (s : text) : Prop := forall c, In c s -> c <> newline.
Lemma nonl_app a b : nonl a -> nonl b -> nonl (a ++ b).
Proof. intros HA HB c I. apply in_app_or in I. destruct I; auto. Qed.
Lemma nonl_lit s : forallb (fun c => negb (Ascii.eqb c newline)) s = true -> nonl s.
Proof. intros H c C E. rewrite forallb_forall in H. specialize (H c C). subst c. discriminate. Qed.
Lemma nonl_list l : nonl (show_list A show l).
Proof.
  unfold show_list. rewrite commas_joined. apply nonl_app; [now apply nonl_lit|]. apply nonl_app; [|now apply nonl_lit].
  induction l as [|x l IH]; [intros c []|]. destruct l as [|y l]; [exact (plain_line _ (show_plain x))|]. cbn [map]. rewrite joined_cons. apply nonl_app; [exact (plain_line _ (show_plain x))|]. apply nonl_app; [now apply nonl_lit|exact IH].
Qed.
Lemma body_line e : nonl (body e).
Proof.
  unfold body. pose proof (fun x => plain_line _ (show_plain x) : nonl (show x)) as P. pose proof nonl_list as Q.
  repeat match goal with |- nonl (chars _ ++ _) => apply nonl_app; [now apply nonl_lit|] | |- nonl (show _ ++ _) => apply nonl_app; [apply P|] | |- nonl (show_list _ _ _ ++ _) => apply nonl_app; [apply Q|] end. apply Q.
Qed.
Lemma write_all_app es : forall f, write_all A show f es = f ++ List.concat (map (write_entry A show) es).
Proof.
  induction es as [|e es IH]; intro f; [cbn; now rewrite app_nil_r|]. cbn [map List.concat]. rewrite app_assoc. rewrite <- IH. reflexivity.
Qed.
Lemma lines_written es : readlines (write_all A show [] es) = map (write_entry A show) es.
Proof.
  rewrite write_all_app. cbn [app]. induction es as [|e es IH]; [reflexivity|]. cbn [map List.concat]. rewrite written_body, <- app_assoc. cbn [app]. rewrite readlines_line by apply body_line. now rewrite IH.
Qed.
Lemma rows_ok es : (forall e, In e es -> e_in e <> [] /\ e_con e <> []) -> rows A parse (map (write_entry A show) es) = Ok (map row es).
Proof.
  induction es as [|e es IH]; intro H; [reflexivity|]. cbn [map rows]. rewrite floats_entry. destruct (H e (or_introl eq_refl)) as [I C]. destruct (e_in e); [easy|]. destruct (e_con e); [easy|]. cbn [bind]. rewrite IH; [reflexivity|]. intros e' I'. apply H. now right.
Qed.
Lemma rows_bad es : (exists e, In e es /\ (e_in e = [] \/ e_con e = [])) -> rows A parse (map (write_entry A show) es) = Err ValueError.
Proof.
  induction es as [|e es IH]; intros (b & I & B); [easy|]. cbn [map rows]. rewrite floats_entry. destruct I as [->|I].
  - destruct B as [-> | ->]; [reflexivity|]. now destruct (e_in b).
  - destruct (e_in e); [reflexivity|]. destruct (e_con e); [reflexivity|]. cbn [bind]. rewrite IH by eauto. reflexivity.
Qed.
Lemma column_map i f es : (forall e, nth_error (row e) i = Some (f e)) -> column A i (map row es) = Ok (map f es).
Proof.
  intro H. unfold column. induction es as [|e es IH]; [reflexivity|]. cbn [map]. rewrite H, IH. reflexivity.
Qed.
Lemma read_written ni nc es : (0 < ni)%nat -> (0 < nc)%nat -> es <> [] -> (forall e, In e es -> List.length (e_in e) = ni /\ List.length (e_con e) = nc) ->
  read_outputs A parse (write_all A show [] es) ni nc = Ok (map e_iter es, map e_obj es, map e_in es, map e_con es).
Proof.
  intros NI NC NE H. unfold read_outputs. rewrite lines_written, rows_ok.
  2:{ intros e I. destruct (H e I) as [L M]. split; intro E; rewrite E in *; cbn in *; lia. }
  cbn [bind]. assert (RE : rectangular A (map row es) = true).
  { destruct es as [|e es]; [easy|]. cbn [map rectangular]. apply forallb_forall. intros q Q. apply in_map_iff in Q. destruct Q as (e' & <- & I). apply Nat.eqb_eq. unfold row. cbn [List.length]. rewrite !app_length.
    destruct (H e (or_introl eq_refl)) as [-> ->], (H e' (or_intror I)) as [-> ->]. reflexivity. }
  rewrite RE, (column_map 0 e_iter) by reflexivity. cbn [bind]. rewrite (column_map 1 e_obj) by reflexivity. cbn [bind]. rewrite !map_map. do 2 f_equal; [f_equal|].
  - apply map_ext_in. intros e I. destruct (H e I) as [L M]. unfold row. cbn [skipn]. rewrite <- L, firstn_app, Nat.sub_diag, firstn_all. cbn [firstn]. apply app_nil_r.
  - apply map_ext_in. intros e I. destruct (H e I) as [L M]. unfold row. replace (ni + 2)%nat with (S (S ni)) by lia. cbn [skipn]. rewrite skipn_app, <- L, skipn_all, Nat.sub_diag. cbn [app skipn]. rewrite <- M. apply firstn_all.
Qed.
Lemma read_bad ni nc es : (exists e, In e es /\ (e_in e = [] \/ e_con e = [])) -> read_outputs A parse (write_all A show [] es) ni nc = Err ValueError.
Proof. intro H. unfold read_outputs. rewrite lines_written, rows_bad by exact H. reflexivity. Qed.
End Reading.

(** ** sweeps *)
Local Open Scope R_scope.
Lemma set_val_len i v t : List.length (set_val i v t) = List.length t.
Proof. revert i. induction t as [|r t IH]; intros [|i]; cbn [set_val List.length]; try reflexivity. now rewrite IH. Qed.
Lemma set_val_same : forall t i v r, nth_error t i = Some r -> nth_error (set_val i v t) i = Some (with_val r v).
Proof. induction t as [|q t IH]; intros [|i] v r H; cbn in *; try discriminate; [now injection H as ->|now apply IH]. Qed.
Lemma set_val_other : forall t i j v, j <> i -> nth_error (set_val i v t) j = nth_error t j.
Proof. induction t as [|q t IH]; intros [|i] [|j] v H; cbn; try reflexivity; try easy. apply IH. lia. Qed.
Lemma set_twice : forall t i v w, set_val i v (set_val i w t) = set_val i v t.
Proof. induction t as [|q t IH]; intros [|i] v w; cbn; try reflexivity. now rewrite IH. Qed.
Lemma set_swap : forall t i j v w, i <> j -> set_val i v (set_val j w t) = set_val j w (set_val i v t).
Proof. induction t as [|q t IH]; intros [|i] [|j] v w H; cbn; try reflexivity; [easy|]. rewrite IH by lia. reflexivity. Qed.
Lemma set_over t i0 i1 a b a' b' : set_val i1 b (set_val i0 a (set_val i1 b' (set_val i0 a' t))) = set_val i1 b (set_val i0 a t).
Proof.
  destruct (Nat.eq_dec i0 i1) as [->|N]; [now rewrite !set_twice|]. rewrite (set_swap (set_val i0 a' t) i0 i1) by exact N. now rewrite !set_twice.
Qed.
Lemma line_loop_is p i xs : forall t acc, line_loop p i xs t acc =
  (match xs with [] => t | _ => set_val i (last xs 0) t end, acc ++ map (fun x => (sw_f p (values (set_val i x t)) * sw_scale p, sw_g p (values (set_val i x t)))) xs).
Proof.
  induction xs as [|x xs IH]; intros t acc; [cbn; now rewrite app_nil_r|]. cbn [line_loop map]. rewrite IH, <- app_assoc. cbn [app]. f_equal.
  - destruct xs as [|y xs]; [reflexivity|]. rewrite set_twice. reflexivity.
  - do 2 f_equal. apply map_ext. intro y. now rewrite set_twice.
Qed.
Lemma pair_dec (a b : nat * nat) : {a = b} + {a <> b}.
Proof. decide equality; apply Nat.eq_dec. Qed.
Lemma carpet_fold p i0 i1 x0 x1 t0 : forall l t m, (forall a b, set_val i1 b (set_val i0 a t) = set_val i1 b (set_val i0 a t0)) ->
  let v i j := let q := values (set_val i1 (nth j x1 0) (set_val i0 (nth i x0 0) t0)) in (sw_f p q * sw_scale p, sw_g p q) in
  forall t' m', fold_left (carpet_step p i0 i1 x0 x1) l (t, m) = (t', m') ->
  (forall i j, In (i, j) l -> m' j i = v i j) /\ (forall i j, ~ In (i, j) l -> m' j i = m j i) /\
  (forall k, k <> i0 -> k <> i1 -> nth_error t' k = nth_error t k) /\ (l <> [] -> t' = set_val i1 (nth (snd (last l (0, 0)%nat)) x1 0) (set_val i0 (nth (fst (last l (0, 0)%nat)) x0 0) t0)).
Proof.
  induction l as [|[i j] l IH]; intros t m T v t' m' E.
  - cbn in E. injection E as <- <-. repeat split; easy.
  - cbn [fold_left] in E. unfold carpet_step at 2 in E.
    assert (T2 : forall a b, set_val i1 b (set_val i0 a (set_val i1 (nth j x1 0) (set_val i0 (nth i x0 0) t))) = set_val i1 b (set_val i0 a t0)) by (intros a b; rewrite set_over; apply T).
    destruct (IH _ _ T2 t' m' E) as (H1 & H2 & H3 & H4). split; [|split; [|split]].
    + intros i' j' I. destruct (in_dec pair_dec (i', j') l) as [Y|N]; [now apply H1|]. destruct I as [I|I]; [|easy]. injection I as -> ->.
      rewrite H2 by exact N. unfold put. rewrite !Nat.eqb_refl. cbn [andb]. unfold v. now rewrite T.
    + intros i' j' N. rewrite H2 by (intro; apply N; now right). unfold put. destruct (Nat.eqb_spec j j') as [->|]; [|reflexivity]. destruct (Nat.eqb_spec i i') as [->|]; [|reflexivity]. exfalso. apply N. now left.
    + intros k K0 K1. rewrite H3 by assumption. now rewrite !set_val_other by assumption.
    + intros _. destruct l as [|c l].
      * cbn [last fst snd]. cbn in E. injection E as <- _. now rewrite T.
      * change (last ((i, j) :: c :: l) (0, 0)%nat) with (last (c :: l) (0, 0)%nat). apply H4. discriminate.
Qed.
Lemma in_square n i j : (i < n)%nat -> (j < n)%nat -> In (i, j) (list_prod (seq 0 n) (seq 0 n)).
Proof. intros I J. apply in_prod; apply in_seq; lia. Qed.
Lemma values_nth t k : nth_error (values t) k = option_map i_val (nth_error t k).
Proof. unfold values. apply nth_error_map. Qed.
Lemma nth_error_nth0 (l : list R) k v : nth_error l k = Some v <-> (k < List.length l)%nat /\ nth k l 0 = v.
Proof.
  split; intro H.
  - split; [apply nth_error_Some; now rewrite H|]. now apply nth_error_nth.
  - destruct H as [L <-]. now apply nth_error_nth'.
Qed.
Lemma last_nth (l : list R) : last l 0 = nth (List.length l - 1) l 0.
Proof.
  induction l as [|x l IH]; [reflexivity|]. destruct l as [|y l]; [reflexivity|]. change (last (x :: y :: l) 0) with (last (y :: l) 0). rewrite IH. cbn [List.length]. now rewrite !Nat.sub_succ, Nat.sub_0_r.
Qed.
Lemma linspace_last a b n : (2 <= n)%nat -> last (linspace a b n) 0 = b.
Proof.
  intro N. rewrite last_nth, linspace_length, linspace_nth by lia. assert (0 < INR (n - 1)) by (apply lt_0_INR; lia). field. lra.
Qed.

(** ** additive corrections *)
Definition consistent (f1 f2 : list R -> R) (d : data) : Prop := d_lo d = map f1 (d_x d) /\ d_hi d = map f2 (d_x d).
Lemma add_consistent f1 f2 d x : consistent f1 f2 d -> consistent f1 f2 (add_point f1 f2 d x).
Proof. intros [A B]. unfold consistent, add_point. cbn [d_x d_lo d_hi]. now rewrite A, B, !map_app. Qed.
Lemma last_app1 {A} (l : list A) x d : last (l ++ [x]) d = x.
Proof. induction l as [|y l IH]; [reflexivity|]. cbn [app]. destruct (l ++ [x]) eqn:E; [now destruct l|]. exact IH. Qed.
Lemma iterate_is f1 f2 search final m tol : forall left k d a, iterate f1 f2 search final m tol k left d = Ok a -> consistent f1 f2 d ->
  consistent f1 f2 (a_data a) /\ (k < a_iter a <= k + S left)%nat /\
  (exists pts, d_x (a_data a) = d_x d ++ pts /\
    ((List.length pts = (a_iter a - k)%nat /\ (m = basic -> a_x a = Some (last pts []))) \/
     (S (List.length pts) = (a_iter a - k)%nat /\ a_x a = match m with basic => None | mei => Some (final (a_data a)) end /\ snd (search (a_iter a - 1)%nat (a_data a)) = None))) /\
  match m with
  | basic => (a_f a = None /\ a_x a = None /\ a_conv a = false) \/ (exists x, a_x a = Some x /\ In x (d_x (a_data a)) /\
      ((a_f a = Some (f2 x) /\ a_conv a = false /\ a_iter a = (k + S left)%nat) \/ (a_conv a = true /\ (a_iter a < k + S left)%nat /\ exists v, a_f a = Some v /\ Rabs (v - f2 x) < tol)))
  | mei => exists y, y = final (a_data a) /\ a_x a = Some y /\ a_f a = Some (f2 y) /\ a_conv a = false
  end.
Proof.
  induction left as [|left IH]; intros k d a E C; cbn [iterate] in E; destruct (search k d) as [fo [x|]] eqn:S.
  - destruct (Nat.ltb_spec (List.length x) 2) as [L|L]; [discriminate|]. destruct m; injection E as <-; cbn [a_data a_iter a_x a_f a_conv].
    + split; [now apply add_consistent|]. split; [lia|]. split; [exists [x]; split; [reflexivity|left; split; [cbn [List.length]; lia|reflexivity]]|]. right. exists x. split; [reflexivity|]. split; [cbn [add_point d_x]; apply in_or_app; right; now left|]. left. repeat split. lia.
    + split; [now apply add_consistent|]. split; [lia|]. split; [exists [x]; split; [reflexivity|left; split; [cbn [List.length]; lia|discriminate]]|]. eexists. repeat split.
  - destruct m; injection E as <-; cbn [a_data a_iter a_x a_f a_conv].
    + split; [exact C|]. split; [lia|]. split; [exists []; split; [now rewrite app_nil_r|right; split; [cbn [List.length]; lia|split; [reflexivity|]]]|now left]. replace (Datatypes.S k - 1)%nat with k by lia. now rewrite S.
    + split; [exact C|]. split; [lia|]. split; [exists []; split; [now rewrite app_nil_r|right; split; [cbn [List.length]; lia|split; [reflexivity|]]]|eexists; repeat split]. replace (Datatypes.S k - 1)%nat with k by lia. now rewrite S.
  - destruct (Nat.ltb_spec (List.length x) 2) as [L|L]; [discriminate|].
    assert (G : iterate f1 f2 search final m tol (Datatypes.S k) left (add_point f1 f2 d x) = Ok a -> consistent f1 f2 (a_data a) /\ (k < a_iter a <= k + Datatypes.S (Datatypes.S left))%nat /\
  (exists pts, d_x (a_data a) = d_x d ++ pts /\
    ((List.length pts = (a_iter a - k)%nat /\ (m = basic -> a_x a = Some (last pts []))) \/
     (Datatypes.S (List.length pts) = (a_iter a - k)%nat /\ a_x a = match m with basic => None | mei => Some (final (a_data a)) end /\ snd (search (a_iter a - 1)%nat (a_data a)) = None))) /\
  match m with
  | basic => (a_f a = None /\ a_x a = None /\ a_conv a = false) \/ (exists x, a_x a = Some x /\ In x (d_x (a_data a)) /\
      ((a_f a = Some (f2 x) /\ a_conv a = false /\ a_iter a = (k + Datatypes.S (Datatypes.S left))%nat) \/ (a_conv a = true /\ (a_iter a < k + Datatypes.S (Datatypes.S left))%nat /\ exists v, a_f a = Some v /\ Rabs (v - f2 x) < tol)))
  | mei => exists y, y = final (a_data a) /\ a_x a = Some y /\ a_f a = Some (f2 y) /\ a_conv a = false
  end).
    { intro E'. destruct (IH _ _ _ E' (add_consistent _ _ _ _ C)) as (H1 & H2 & (pts & P & Q) & H4). split; [exact H1|]. split; [lia|]. split.
      - exists (x :: pts). split; [rewrite P; cbn [add_point d_x]; now rewrite <- app_assoc|]. destruct Q as [[Q1 Q2]|(Q1 & Q2)]; [left|right]; (split; [cbn [List.length]; lia|]); [|exact Q2].
        intro M. rewrite (Q2 M). f_equal. destruct pts; [cbn in Q1; lia|reflexivity].
      - destruct m; [|exact H4]. destruct H4 as [H4|(z & Z1 & Z2 & Z3)]; [now left|right]. exists z. split; [exact Z1|]. split; [exact Z2|].
        destruct Z3 as [(A & B & D)|(A & B & D)]; [left|right]; repeat split; try assumption; lia. }
    destruct m; [|exact (G E)]. destruct (Rltb _ tol) eqn:T; [|exact (G E)]. injection E as <-. cbn [a_data a_iter a_x a_f a_conv]. apply Rltb_true in T. cbn [add_point d_hi] in T. rewrite last_app1 in T.
    split; [now apply add_consistent|]. split; [lia|]. split; [exists [x]; split; [reflexivity|left; split; [cbn [List.length]; lia|reflexivity]]|]. right. exists x. split; [reflexivity|]. split; [cbn [add_point d_x]; apply in_or_app; right; now left|]. right. split; [reflexivity|]. split; [lia|]. exists fo. now split.
  - destruct m; injection E as <-; cbn [a_data a_iter a_x a_f a_conv].
    + split; [exact C|]. split; [lia|]. split; [exists []; split; [now rewrite app_nil_r|right; split; [cbn [List.length]; lia|split; [reflexivity|]]]|now left]. replace (Datatypes.S k - 1)%nat with k by lia. now rewrite S.
    + split; [exact C|]. split; [lia|]. split; [exists []; split; [now rewrite app_nil_r|right; split; [cbn [List.length]; lia|split; [reflexivity|]]]|eexists; repeat split]. replace (Datatypes.S k - 1)%nat with k by lia. now rewrite S.
Qed.

(** ** surrogate optimisation *)
Lemma refine_is optimum : forall left j done, done = map optimum (seq 0 j) ->
  exists k, (j <= k <= j + left)%nat /\ refine optimum j left done = map optimum (seq 0 k) /\
  (forall i, (j <= i < k)%nat -> (1 < i)%nat -> ~ distance (optimum i) (optimum (i - 1)%nat) < 1 / 10000) /\
  ((k < j + left)%nat -> (1 < k)%nat /\ distance (optimum k) (optimum (k - 1)%nat) < 1 / 10000).
Proof.
  induction left as [|left IH]; intros j done D; cbn [refine].
  - exists j. split; [lia|]. split; [exact D|]. split; [intros; lia|lia].
  - assert (LD : forall x, last done x = match j with O => x | S i => optimum i end).
    { intro x. rewrite D. destruct j as [|i]; [reflexivity|]. rewrite seq_S, map_app. cbn [map]. apply last_app1. }
    destruct (Nat.ltb 1 j && Rltb (distance (optimum j) (last done [])) (1 / 10000))%bool eqn:T.
    + apply andb_prop in T. destruct T as [J T]. apply Nat.ltb_lt in J. apply Rltb_true in T. exists j. split; [lia|]. split; [exact D|]. split; [intros; lia|]. intros _. split; [exact J|].
      rewrite LD in T. destruct j as [|i]; [lia|]. now replace (S i - 1)%nat with i by lia.
    + destruct (IH (S j) (done ++ [optimum j])) as (k & K1 & K2 & K3 & K4); [rewrite D, seq_S, map_app; reflexivity|]. exists k. split; [lia|]. split; [exact K2|]. split.
      * intros i I I1. destruct (Nat.eq_dec i j) as [->|N]; [|apply K3; lia]. apply andb_false_iff in T. destruct T as [T|T]; [apply Nat.ltb_ge in T; lia|]. apply Rltb_false in T. rewrite LD in T. destruct j as [|j']; [lia|]. replace (S j' - 1)%nat with j' by lia. lra.
      * intro L. apply K4. lia.
Qed.
