(** * C08, C09: DataOrdered *)
From Coq Require Import String List Bool Arith ZArith Lia.
From Verif Require Import PyBase M_Data M_Ordered S_Ordered P_Ordered.
Import ListNotations.
Local Open Scope string_scope.
Local Open Scope list_scope.

(** C08: under every history of assignments, deletions, clears and appends, keys() (a walk
    along the linked list, which terminates) lists the live keys in insertion order. *)
Theorem C08_keys : forall (V : Type) class_attr (ps : list (oop V)),
  o_keys (o_run class_attr ps) = Some (dkeys (live class_attr ps)).
Proof. intros. exact (keys_inv _ _ _ (inv_run _ ps)). Qed.

(** C08: no key is listed twice, and no class attribute name is listed. *)
Theorem C08_keys_distinct : forall (V : Type) class_attr (ps : list (oop V)) ks,
  o_keys (o_run class_attr ps) = Some ks ->
  NoDup ks /\ forall k, In k ks -> class_attr k = false.
Proof.
  intros V class_attr ps ks H. rewrite (keys_inv _ _ _ (inv_run _ ps)) in H. inversion H; subst.
  exact (conj (i_nd _ _ _ (inv_run _ ps)) (i_vis _ _ _ (inv_run _ ps))).
Qed.

(** C08: items() holds the latest value of every live key, in order. *)
Theorem C08_items : forall (V : Type) class_attr (ps : list (oop V)),
  o_items class_attr (o_run class_attr ps) =
  Ok (map (fun p => (fst p, Some (snd p))) (live class_attr ps)).
Proof. intros. exact (items_inv _ _ _ (inv_run _ ps)). Qed.

(** C08: attribute / string indexing. *)
Theorem C08_get : forall (V : Type) class_attr (ps : list (oop V)) k,
  class_attr k = false ->
  o_get class_attr (o_run class_attr ps) k =
  match dget k (live class_attr ps) with Some v => Ok (Some v) | None => Err AttributeError end.
Proof. intros. exact (get_inv _ _ _ k (inv_run _ ps) H). Qed.

(** C08: integer indexing follows the same order, negative indices count from the end. *)
Theorem C08_get_int : forall (V : Type) class_attr (ps : list (oop V)) i,
  o_get_int class_attr (o_run class_attr ps) i =
  match norm_index (List.length (live class_attr ps)) i with
  | Some n => match nth_error (live class_attr ps) n with
              | Some p => Ok (Some (snd p)) | None => Err IndexError end
  | None => Err IndexError
  end.
Proof. intros. exact (get_int_inv _ _ _ i (inv_run _ ps)). Qed.

(** C08: assigning never fails; deleting fails exactly for keys that are not live. *)
Theorem C08_set_succeeds : forall (V : Type) class_attr (ps : list (oop V)) k v,
  exists o', o_set class_attr (o_run class_attr ps) k v = Ok o'.
Proof.
  intros. destruct (inv_set _ _ _ k v (inv_run class_attr ps)) as (o' & H & _). exists o'. exact H.
Qed.
Theorem C08_del_succeeds : forall (V : Type) class_attr (ps : list (oop V)) k,
  snd (o_del (o_run class_attr ps) k) = None <-> In k (dkeys (live class_attr ps)).
Proof. intros. exact (proj2 (inv_del _ _ _ k (inv_run class_attr ps))). Qed.

(** C08: len() is the number of live keys as long as no class attribute name was assigned. *)
Theorem C08_len : forall (V : Type) class_attr (ps : list (oop V)),
  (forall p k, In p ps -> assigned p = Some k -> class_attr k = false) ->
  o_len (o_run class_attr ps) = List.length (live class_attr ps).
Proof. intros. exact (len_run _ ps H). Qed.

(** C08, negative part: a key that is also a class attribute is stored and counted by
    len() but not listed. *)
Theorem C08_len_refuted : exists class_attr (ps : list (oop Z)),
  o_len (o_run class_attr ps) = 1 /\ o_keys (o_run class_attr ps) = Some [] /\
  o_get class_attr (o_run class_attr ps) "values" = Ok (Some 7%Z).
Proof. exists (String.eqb "values"), [OSet "values" 7%Z]. repeat split. Qed.

Definition history : list (oop Z) :=
  [OSet "b" 1%Z; OSet "a" 2%Z; OSet "c" 3%Z; OSet "b" 4%Z; ODel "a"; OAppend "A Tag" 5%Z;
   OSet "a" 6%Z; ODel "zz"].
Example C08_ex :
  o_keys (o_run (fun _ => false) history) = Some ["b"; "c"; "a_tag"; "a"] /\
  o_items (fun _ => false) (o_run (fun _ => false) history) =
    Ok [("b", Some 4%Z); ("c", Some 3%Z); ("a_tag", Some 5%Z); ("a", Some 6%Z)] /\
  o_get_int (fun _ => false) (o_run (fun _ => false) history) (-1) = Ok (Some 6%Z) /\
  o_keys (o_run (fun _ => false) (history ++ [OClear; OSet "q" 1%Z])) = Some ["q"].
Proof. repeat split. Qed.

(** C09: appending under a tag that is already present raises nothing: the previous element
    is replaced, in place, and everything else is as before. *)
Theorem C09_append_overwrites : forall (V : Type) class_attr (ps : list (oop V)) key v,
  class_attr (translate key) = false ->
  In (translate key) (dkeys (live class_attr ps)) ->
  translate key <> "_root" -> translate key <> "_map" ->
  exists o', o_append class_attr (o_run class_attr ps) key v = Ok o' /\
    o_keys o' = o_keys (o_run class_attr ps) /\
    o_get class_attr o' (translate key) = Ok (Some v) /\
    (forall k, k <> translate key -> class_attr k = false ->
       o_get class_attr o' k = o_get class_attr (o_run class_attr ps) k).
Proof. intros. exact (append_dup _ ps key v H H0 H1 H2). Qed.

(** C09: KeyError is raised only for the two reserved names. *)
Theorem C09_append_error : forall (V : Type) class_attr (ps : list (oop V)) key v e,
  o_append class_attr (o_run class_attr ps) key v = Err e ->
  e = KeyError /\ (translate key = "_root" \/ translate key = "_map").
Proof.
  intros V class_attr ps key v e H. pose proof (inv_append _ _ _ key v (inv_run class_attr ps)) as G.
  rewrite H in G. exact G.
Qed.

(** C09: elements appended under distinct tags are all kept, in order. *)
Theorem C09_distinct_kept : forall (V : Type) class_attr (l : list (string * V)),
  NoDup (map (fun p => translate (fst p)) l) ->
  (forall p, In p l -> class_attr (translate (fst p)) = false /\
                       translate (fst p) <> "_root" /\ translate (fst p) <> "_map") ->
  o_items class_attr (o_run class_attr (map (fun p => OAppend (fst p) (snd p)) l)) =
  Ok (map (fun p => (translate (fst p), Some (snd p))) l).
Proof.
  intros V class_attr l H1 H2. rewrite (items_inv _ _ _ (inv_run _ _)), (live_appends _ l H1 H2), map_map.
  reflexivity.
Qed.

Example C09_ex :
  let ps := [OAppend "Main Wing" 1%Z; OAppend "tail" 2%Z] in
  In (translate "MAIN-WING") (dkeys (live (fun _ => false) ps)) /\
  o_items (fun _ => false) (o_run (fun _ => false) (ps ++ [OAppend "MAIN-WING" 3%Z])) =
    Ok [("main_wing", Some 3%Z); ("tail", Some 2%Z)].
Proof. split; [left; reflexivity|reflexivity]. Qed.

Print Assumptions C08_keys.
Print Assumptions C08_keys_distinct.
Print Assumptions C08_items.
Print Assumptions C08_get.
Print Assumptions C08_get_int.
Print Assumptions C08_set_succeeds.
Print Assumptions C08_del_succeeds.
Print Assumptions C08_len.
Print Assumptions C08_len_refuted.
Print Assumptions C09_append_overwrites.
Print Assumptions C09_append_error.
Print Assumptions C09_distinct_kept.
