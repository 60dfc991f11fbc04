(** * Properties C01-C05: attribute trees and containers *)
From Coq Require Import String Ascii List Bool Arith ZArith.
From Verif Require Import PyBase M_Data S_Data P_Dict P_Data P_Append.
Import ListNotations.
Local Open Scope string_scope.
Local Open Scope list_scope.

Section Props.
  Context {A : Type}.
  Notation tree := (tree A).
  Notation data := (dict tree).

  (** C01: what [a.update(b)] leaves under every key *)
  Theorem C01_update_lookup (a b r : data) :
    wf (Node a) -> wf (Node b) -> data_update a (Node b) = Ok r ->
    wf (Node r) /\
    forall k, dget k r =
      if private k then dget k a
      else match dget k a, dget k b with
           | _, None => dget k a
           | Some (Node sa), Some (Node sb) =>
               match data_update sa (Node sb) with Ok m => Some (Node m) | Err _ => None end
           | _, Some v => Some v
           end.
  Proof. exact (update_lookup_api a b r). Qed.

  (** C01: key order -- old keys keep their places, new public keys follow in b's order *)
  Theorem C01_update_keys (a b r : data) :
    wf (Node b) -> data_update a (Node b) = Ok r ->
    dkeys r = dkeys a ++ filter (fun k => negb (private k) && negb (dhas k a)) (dkeys b).
  Proof. exact (update_keys_api a b r). Qed.

  (** C01: a non-dictionary argument is refused *)
  Theorem C01_update_type_error (a : data) (t : tree) :
    data_update a t = Err TypeError <-> is_node t = false.
  Proof. exact (update_type_error a t). Qed.

  (** C01: at any depth, a non-Data value of [b] reached by public keys ends up in [a] *)
  Theorem C01_update_override (a b r : data) p x :
    wf (Node b) -> data_update a (Node b) = Ok r ->
    forallb (fun k => negb (private k)) p = true ->
    at_path (Node b) p = Some x -> is_node x = false ->
    at_path (Node r) p = Some x.
  Proof. exact (update_override_api a b r p x). Qed.

  (** C01: at any depth, what [b] does not mention is kept *)
  Theorem C01_update_frame (a b r : data) p x :
    wf (Node b) -> data_update a (Node b) = Ok r ->
    at_path (Node a) p = Some x ->
    at_path (Node b) p = None ->
    (forall q y, is_prefix q p = true -> at_path (Node b) q = Some y -> is_node y = true) ->
    at_path (Node r) p = Some x.
  Proof. exact (update_frame_api a b r p x). Qed.

  (** C02: idempotence *)
  Theorem C02_update_idempotent (a b r : data) :
    wf (Node a) -> wf (Node b) -> data_update a (Node b) = Ok r ->
    data_update r (Node b) = Ok r.
  Proof. exact (update_idem_api a b r). Qed.

  (** C02: updating an object by itself *)
  Theorem C02_update_self (a : data) :
    wf (Node a) -> data_update a (Node a) = Ok a.
  Proof. exact (update_self_api a). Qed.

  (** C02: constructing from a dictionary keeps its public part, in order *)
  Theorem C02_init_public (d : data) :
    wf (Node d) ->
    dkeys (data_init d) = filter (fun k => negb (private k)) (dkeys d) /\
    forall k, dget k (data_init d) = if private k then None else dget k d.
  Proof. exact (init_public d). Qed.

  (** C05: deep_set then deep_get *)
  Theorem C05_deep_set_get (t t' v : tree) ks k :
    plain_key k = true -> deep_set t (ks ++ [k]) v = Ok t' ->
    deep_get t' (ks ++ [k]) = Ok v.
  Proof. exact (deep_set_get_api t t' v ks k). Qed.

  (** C05: every unrelated path reads the same before and after *)
  Theorem C05_deep_set_frame (t t' v : tree) ks k q :
    plain_key k = true -> deep_set t (ks ++ [k]) v = Ok t' ->
    q <> [] -> is_prefix q (ks ++ [k]) = false -> is_prefix (ks ++ [k]) q = false ->
    deep_get t' q = deep_get t q.
  Proof. exact (deep_set_frame_api t t' v ks k q). Qed.

  (** C05: success exactly when the parent path exists and is a Data; otherwise
      KeyError or TypeError *)
  Theorem C05_deep_set_total (t v : tree) ks k :
    plain_key k = true ->
    ((exists t', deep_set t (ks ++ [k]) v = Ok t') <-> (exists d, at_path t ks = Some (Node d))) /\
    (forall e, deep_set t (ks ++ [k]) v = Err e -> e = KeyError \/ e = TypeError).
  Proof. exact (deep_set_total t v ks k). Qed.

  (** C05: dotted strings name key lists *)
  Theorem C05_dotted (t v : tree) ks :
    ks <> [] -> forallb (no_char ".") ks = true ->
    deep_set_str t (join_with "." ks) v = deep_set t ks v /\
    deep_get_str t (join_with "." ks) = deep_get t ks.
  Proof. exact (dotted t v ks). Qed.

  (** C05: indexed assignment *)
  Theorem C05_index_set_get (t t' v : tree) idx :
    index_set t idx v = Ok t' -> seq_at t' idx = Some v.
  Proof. exact (index_set_get idx t t' v). Qed.

  Theorem C05_index_set_frame (t t' v : tree) idx jdx :
    index_set t idx v = Ok t' -> diverge t idx jdx -> seq_at t' jdx = seq_at t jdx.
  Proof. exact (index_set_frame idx t t' v jdx). Qed.
End Props.

Section PropsAppend.
  Context {V B : Type}.

  (** C03: the exact effect of Data.append *)
  Theorem C03_append (key : string) (v : V) (d : dict V) :
    (In (translate key) (dkeys d) -> data_append key v d = Err KeyError) /\
    (~ In (translate key) (dkeys d) -> data_append key v d = Ok (d ++ [(translate key, v)])).
  Proof. exact (data_append_exact key v d). Qed.

  (** C03: normalisation *)
  Theorem C03_normalised (s : string) (n : nat) (c : ascii) :
    String.get n (translate s) = Some c ->
    exists c0, String.get n s = Some c0 /\ normal_char c0 c.
  Proof. exact (translate_spec s n c). Qed.

  Theorem C03_normalise_idempotent (s : string) : translate (translate s) = translate s.
  Proof. exact (translate_idem s). Qed.

  (** C04: any history *)
  Theorem C04_history (ops : list (nat * component B)) :
    let '(df, log) := run_appends ops [] in
    NoDup (dkeys df) /\
    df = map (fun e => (translate (c_tag (fst e)), fst e)) (filter snd log) /\
    map (fun e => c_body (fst e)) log = map (fun op => c_body (snd op)) ops.
  Proof. exact (run_appends_api ops). Qed.

  (** C04: one call: exactly one entry added at the end, or KeyError and nothing *)
  Theorem C04_step (rand : nat) (c : component B) (d : dict (component B)) :
    match container_append rand c d with
    | (c', Ok d') => c_body c' = c_body c /\
                     ~ In (translate (c_tag c')) (dkeys d) /\
                     d' = d ++ [(translate (c_tag c'), c')]
    | (_, Err e) => e = KeyError
    end.
  Proof. exact (container_append_step rand c d). Qed.

  (** C04: an unused tag is stored as it is *)
  Theorem C04_fresh (rand : nat) (c : component B) (d : dict (component B)) :
    ~ In (translate (c_tag c)) (dkeys d) ->
    container_append rand c d = (c, Ok (d ++ [(translate (c_tag c), c)])).
  Proof. exact (container_append_fresh rand c d). Qed.

  (** C04: a used tag gets a number appended: the first suffix is (occurrences of the
      raw tag in the concatenated keys) + 1 *)
  Theorem C04_numbered (rand : nat) (c : component B) (d : dict (component B)) :
    let n := str_count (c_tag c) (str_concat (dkeys d)) in
    let k := (translate (c_tag c) ++ str_of_nat (n + 1))%string in
    In (translate (c_tag c)) (dkeys d) -> ~ In k (dkeys d) ->
    container_append rand c d = (retag k c, Ok (d ++ [(k, retag k c)])).
  Proof. exact (container_append_numbered rand c d). Qed.

  (** C04: extend with a list never works *)
  Theorem C04_extend_list_refuted {A} (d : dict (tree A)) (l : list (tree A)) :
    container_extend d (ExtList l) = Err NameError.
  Proof. exact (eq_refl _). Qed.
End PropsAppend.

(** C04: "appending always succeeds" is false: three components tagged "Wing" and
    the draw 1 (the draw decides; 0 succeeds) *)
Theorem C04_append_always_succeeds_refuted :
  exists (ops : list (nat * component nat)) (rand : nat) (c : component nat),
    rand <= 1000 /\ Forall (fun op => fst op <= 1000) ops /\
    snd (container_append rand c (fst (run_appends ops []))) = Err KeyError /\
    is_ok (snd (container_append 0 c (fst (run_appends ops [])))) = true.
Proof. exact append_refuted. Qed.

(** ** the hypotheses above are met by non-trivial objects *)
Definition ex_a : dict (tree nat) :=
  [("wing", Node [("span", Leaf 10); ("_private", Leaf 1)]); ("mass", Leaf 5); ("_p", Leaf 7)].
Definition ex_b : dict (tree nat) :=
  [("_p", Leaf 8); ("wing", Node [("chord", Leaf 3); ("_private", Leaf 2)]); ("mass", Node [("x", Leaf 1)]);
   ("tail", Seq [Leaf 1; Seq [Leaf 2]])].

Example ex_wf : wf (Node ex_a) /\ wf (Node ex_b).
Proof. exact ex_wf_proof. Qed.
Example ex_update : data_update ex_a (Node ex_b) = Ok
  [("wing", Node [("span", Leaf 10); ("_private", Leaf 1); ("chord", Leaf 3)]);
   ("mass", Node [("x", Leaf 1)]); ("_p", Leaf 7); ("tail", Seq [Leaf 1; Seq [Leaf 2]])].
Proof. reflexivity. Qed.
Example ex_deep_set :
  deep_set_str (Node ex_a) "wing.span" (Leaf 12) =
    Ok (Node [("wing", Node [("span", Leaf 12); ("_private", Leaf 1)]); ("mass", Leaf 5); ("_p", Leaf 7)])
  /\ plain_key "span" = true
  /\ deep_set_str (Node ex_b) "tail[1][-1]" (Leaf 9) =
     Ok (Node [("_p", Leaf 8); ("wing", Node [("chord", Leaf 3); ("_private", Leaf 2)]);
               ("mass", Node [("x", Leaf 1)]); ("tail", Seq [Leaf 1; Seq [Leaf 9]])])
  /\ deep_set_str (Node ex_a) "tail.span" (Leaf 12) = Err KeyError.
Proof. repeat split. Qed.
Example ex_container :
  let c t := {| c_tag := t; c_body := 0 |} in
  dkeys (fst (run_appends [(5, c "Main Wing"); (5, c "main_wing"); (7, c "main_wing"); (1, c "Main Wing")] []))
  = ["main_wing"; "main_wing2"; "main_wing3"; "main_wing1"].
Proof. reflexivity. Qed.

Print Assumptions C01_update_lookup.
Print Assumptions C01_update_keys.
Print Assumptions C01_update_type_error.
Print Assumptions C01_update_override.
Print Assumptions C01_update_frame.
Print Assumptions C02_update_idempotent.
Print Assumptions C02_update_self.
Print Assumptions C02_init_public.
Print Assumptions C03_append.
Print Assumptions C03_normalised.
Print Assumptions C03_normalise_idempotent.
Print Assumptions C04_history.
Print Assumptions C04_step.
Print Assumptions C04_fresh.
Print Assumptions C04_numbered.
Print Assumptions C04_extend_list_refuted.
Print Assumptions C04_append_always_succeeds_refuted.
Print Assumptions C05_deep_set_get.
Print Assumptions C05_deep_set_frame.
Print Assumptions C05_deep_set_total.
Print Assumptions C05_dotted.
Print Assumptions C05_index_set_get.
Print Assumptions C05_index_set_frame.
