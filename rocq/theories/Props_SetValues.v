(** * C14, part one: writing the optimiser's inputs into the problem, reading the outputs *)
From Coq Require Import String List Bool.
From Verif Require Import PyBase M_Data S_Data M_SetValues S_SetValues P_SetValues.
Import ListNotations.
Local Open Scope string_scope.
Local Open Scope list_scope.

Section Props.
  Context {A : Type}.

  (** C14: when every input name has exactly one alias, every location the alias names (each one,
      if it is a list; every child, where it has a star) ends up with that input's value, and
      every location unrelated to them is unchanged *)
  Theorem C14_set_values : forall (t : tree A) names vals aliases ps plss,
    one_alias names aliases ps -> Forall2 points_to ps plss -> List.length vals = List.length names ->
    Forall (Forall good_place) plss -> Forall (Forall (resolves t)) plss ->
    Forall (fun v => is_node v = false) vals ->
    Forall (fun pv => holds_value t (fst pv)) (assignments t plss vals) ->
    exists t', set_values t names vals aliases = Ok t' /\
      (forall p v, In (p, v) (assignments t plss vals) ->
         (forall v', In (p, v') (assignments t plss vals) -> v' = v) -> at_path t' p = Some v) /\
      (forall q, (forall p v, In (p, v) (assignments t plss vals) ->
         is_prefix q p = false /\ is_prefix p q = false) -> at_path t' q = at_path t q).
  Proof. exact set_values_spec. Qed.

  (** C14: the outputs read are the values at the aliased locations, in order *)
  Theorem C14_get_values : forall (t : tree A) names aliases paths vs,
    one_alias names aliases (map (fun p => PStr (render (Here p))) paths) ->
    Forall (fun p => p <> [] /\ Forall good_name p) paths ->
    Forall2 (fun p v => at_path t p = Some v) paths vs ->
    get_values t names aliases = Ok vs.
  Proof. exact get_values_spec. Qed.
End Props.

(** a problem with a scalar alias, a list alias and a star *)
Definition problem : tree nat :=
  Node [("configs", Node [("base", Node [("mass", Leaf 1); ("area", Leaf 2)]); ("cruise", Node [("mass", Leaf 3); ("area", Leaf 4)])]);
        ("range", Leaf 5)].
Definition problem_aliases : list alias :=
  [("m", PStr "configs.*.mass"); ("unused", PStr "range"); ("s", PList ["configs.base.area"; "range"])].
Definition problem_places : list (list place) :=
  [[Each ["configs"] ["mass"]]; [Here ["configs"; "base"; "area"]; Here ["range"]]].
Example C14_set_values_case :
  one_alias ["m"; "s"] problem_aliases [PStr "configs.*.mass"; PList ["configs.base.area"; "range"]] /\
  Forall2 points_to [PStr "configs.*.mass"; PList ["configs.base.area"; "range"]] problem_places /\
  Forall (Forall good_place) problem_places /\ Forall (Forall (resolves problem)) problem_places /\
  assignments problem problem_places [Leaf 10; Leaf 20] =
    [(["configs"; "base"; "mass"], Leaf 10); (["configs"; "cruise"; "mass"], Leaf 10);
     (["configs"; "base"; "area"], Leaf 20); (["range"], Leaf 20)] /\
  Forall (fun pv => holds_value problem (fst pv)) (assignments problem problem_places [Leaf 10; Leaf 20]) /\
  set_values problem ["m"; "s"] [Leaf 10; Leaf 20] problem_aliases =
    Ok (Node [("configs", Node [("base", Node [("mass", Leaf 10); ("area", Leaf 20)]); ("cruise", Node [("mass", Leaf 10); ("area", Leaf 4)])]);
              ("range", Leaf 20)]).
Proof.
  split; [repeat constructor|]. split.
  { apply Forall2_cons; [eexists; split; reflexivity|]. apply Forall2_cons; [reflexivity|constructor]. }
  split.
  { repeat apply Forall_cons; try apply Forall_nil; cbn; repeat split; try discriminate;
      repeat apply Forall_cons; try apply Forall_nil; repeat split. }
  split.
  { repeat apply Forall_cons; try apply Forall_nil; cbn; auto.
    eexists. split; [reflexivity|]. repeat apply Forall_cons; try apply Forall_nil; reflexivity. }
  split; [reflexivity|]. split; [|reflexivity].
  cbn. repeat apply Forall_cons; try apply Forall_nil; cbn; eexists; split; reflexivity.
Qed.
Example C14_get_values_case :
  one_alias ["r"; "a"] [("a", PStr "configs.base.area"); ("r", PStr "range")]
    (map (fun p => PStr (render (Here p))) [["range"]; ["configs"; "base"; "area"]]) /\
  get_values problem ["r"; "a"] [("a", PStr "configs.base.area"); ("r", PStr "range")] = Ok [Leaf 5; Leaf 2].
Proof. split; [repeat constructor|reflexivity]. Qed.

(** C14: outside that guard it fails, because values are matched to the collected aliases by
    position.  A name with two aliases shifts the values of the inputs after it (or runs out of
    values); a name without alias shifts them the other way *)
Theorem C14_two_aliases_refuted : exists (t : tree nat) aliases,
  aliases = [("a", PStr "x.p"); ("a", PStr "x.q"); ("b", PStr "x.r")] /\
  set_values t ["a"; "b"] [Leaf 10; Leaf 20] aliases = Err IndexError /\
  exists t', set_values t ["a"; "b"; "c"] [Leaf 10; Leaf 20; Leaf 30] aliases = Ok t' /\
    at_path t' ["x"; "q"] = Some (Leaf 20) /\ at_path t' ["x"; "r"] = Some (Leaf 30).
Proof.
  exists (Node [("x", Node [("p", Leaf 1); ("q", Leaf 2); ("r", Leaf 3)])]). eexists. split; [reflexivity|].
  split; [reflexivity|]. eexists. repeat split; reflexivity.
Qed.
Theorem C14_missing_alias_refuted : exists (t : tree nat) t',
  set_values t ["a"; "b"] [Leaf 10; Leaf 20] [("b", PStr "x.r")] = Ok t' /\
  at_path t' ["x"; "r"] = Some (Leaf 10).
Proof. exists (Node [("x", Node [("r", Leaf 3)])]). eexists. split; reflexivity. Qed.
(** C14: the star is only usable between two names: in first position the keys are a view that
    cannot be indexed, in last position the trailing dot makes an empty name *)
Theorem C14_star_position_refuted : exists (t : tree nat),
  set_values t ["a"] [Leaf 10] [("a", PStr "*.p")] = Err TypeError /\
  (exists e, set_values t ["a"] [Leaf 10] [("a", PStr "x.*")] = Err e) /\
  exists t', set_values t ["a"] [Leaf 10] [("a", PStr "x.*.p")] = Ok t' /\ at_path t' ["x"; "y"; "p"] = Some (Leaf 10).
Proof.
  exists (Node [("x", Node [("y", Node [("p", Leaf 1)])])]). split; [reflexivity|]. split; [eexists; reflexivity|].
  eexists. split; reflexivity.
Qed.

Print Assumptions C14_set_values.
Print Assumptions C14_get_values.
Print Assumptions C14_two_aliases_refuted.
Print Assumptions C14_missing_alias_refuted.
Print Assumptions C14_star_position_refuted.
