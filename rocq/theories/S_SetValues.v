(** * Vocabulary: what the pointers of the optimisation problem name *)
From Coq Require Import String Ascii List Bool Arith.
From Verif Require Import PyBase M_Data S_Data M_SetValues.
Import ListNotations.
Local Open Scope string_scope.
Local Open Scope list_scope.

Section Spec.
  Context {A : Type}.
  Notation tree := (tree A).

  (** an abstract pointer: a path, or a path with a star between two non-empty parts *)
  Inductive place : Type :=
  | Here (p : list string)
  | Each (pre post : list string).

  (** the places of the tree it stands for *)
  Definition targets (t : tree) (pl : place) : list (list string) :=
    match pl with
    | Here p => [p]
    | Each pre post => match at_path t pre with
                       | Some (Node d) => map (fun k => pre ++ k :: post) (dkeys d)
                       | _ => []
                       end
    end.

  (** names that can be written in a dotted string without star or brackets *)
  Definition good_name (k : string) : Prop :=
    has_char "." k = false /\ has_char "*" k = false /\ plain_key k = true.
  Definition good_place (pl : place) : Prop :=
    match pl with
    | Here p => p <> [] /\ Forall good_name p
    | Each pre post => pre <> [] /\ post <> [] /\ Forall good_name pre /\ Forall good_name post
    end.

  (** the dotted string *)
  Definition render (pl : place) : string :=
    match pl with
    | Here p => join_with "." p
    | Each pre post => join_with "." (pre ++ "*" :: post)
    end.
  (** a pointer is one string, or a list of strings *)
  Definition points_to (p : pointer) (pls : list place) : Prop :=
    match p with
    | PStr s => exists pl, pls = [pl] /\ s = render pl
    | PList l => l = map render pls
    end.
  Definition all_targets (t : tree) (pls : list place) : list (list string) := flat_map (targets t) pls.

  (** each input name has exactly one alias *)
  Definition one_alias (names : list string) (aliases : list alias) (ps : list pointer) : Prop :=
    Forall2 (fun n p => filter (fun a => String.eqb n (fst a)) aliases = [(n, p)]) names ps.

  (** the names under a star can be written in a dotted string *)
  Definition resolves (t : tree) (pl : place) : Prop :=
    match pl with
    | Here _ => True
    | Each pre _ => exists d, at_path t pre = Some (Node d) /\ Forall (fun k => has_char "." k = false) (dkeys d)
    end.

  (** the tree holds a value that is not a Data there *)
  Definition holds_value (t : tree) (p : list string) : Prop :=
    exists x, at_path t p = Some x /\ is_node x = false.

  (** the assignments the optimisation problem asks for *)
  Definition assignments (t : tree) (pls : list (list place)) (vals : list tree)
    : list (list string * tree) :=
    flat_map (fun '(pl, v) => map (fun p => (p, v)) (all_targets t pl)) (combine pls vals).
End Spec.
