(** * Vocabulary for trees on file, and redirection *)
From Coq Require Import List Arith Ascii String.
From Verif Require Import PyBase M_Tree.
Import ListNotations.

(** [r] is [s] without the blanks at both ends *)
Definition without_ends (s r : text) : Prop :=
  exists a b, s = a ++ r ++ b /\ Forall (fun c => blank c = true) a /\ Forall (fun c => blank c = true) b /\
  (r = [] \/ (exists c m, r = c :: m /\ blank c = false) /\ (exists m d, r = m ++ [d] /\ blank d = false)).
(** the same tree but for blanks at the ends of contents *)
Inductive alike : node -> node -> Prop :=
| Alike t a c c' es es' : without_ends c c' -> Forall2 alike es es' -> alike (Node t a c es) (Node t a c' es').

(** what is written for a value at a path of keys: dictionaries are descended *)
Inductive leaf_at (seqs : bool) : value -> list string -> value -> Prop :=
| At_leaf v : is_dict v = false -> v <> Non \/ seqs = false -> (forall l, v = Seq l -> seqs = false) -> leaf_at seqs v [] v
| At_key l k w p v : In (k, w) l -> leaf_at seqs w p v -> leaf_at seqs (Dict l) (k :: p) v
| At_item l w p v : seqs = true -> In w l -> leaf_at seqs w p v -> leaf_at seqs (Seq l) p v.
(** a branch of a map: texts from the top to a node with nothing below *)
Inductive branch : list fm -> list text -> Prop :=
| Branch_end ns t : In (Fm t []) ns -> branch ns [t]
| Branch_on ns t bs p : In (Fm t bs) ns -> branch bs p -> branch ns (t :: p).
Inductive d3_branch : d3 -> list text -> Prop :=
| D3_end t : d3_branch (D3 t None) [t]
| D3_on t cs c p : In c cs -> d3_branch c p -> d3_branch (D3 t (Some cs)) (t :: p).

(** programs *)
Fixpoint streams (p : prog) : list nat :=
  match p with
  | Then p q => streams p ++ streams q
  | With o e p => (match o with Stream h => [h] | _ => [] end) ++ (match e with Stream h => [h] | _ => [] end) ++ streams p
  | _ => []
  end.
Fixpoint failures (p : prog) : list pyerr :=
  match p with Fail e => [e] | Then p q => failures p ++ failures q | With _ _ p => failures p | _ => [] end.
(** programs that only print *)
Fixpoint lines (p : prog) : option (list (bool * text)) :=
  match p with
  | Print s => Some [(true, s)]
  | Complain s => Some [(false, s)]
  | Then p q => match lines p, lines q with Some a, Some b => Some (a ++ b) | _, _ => None end
  | _ => None
  end.
(** a state in which streams below [n] are given ones that nobody closes *)
Record sane (n : nat) (y : sys) : Prop := {
  sane_next : n <= y_next y;
  sane_closed : forall h, In h (y_closed y) -> n <= h < y_next y;
  sane_out : y_out y < y_next y /\ ~ In (y_out y) (y_closed y);
  sane_err : y_err y < y_next y /\ ~ In (y_err y) (y_closed y) }.
