(** * Vocabulary used to state the properties of attribute trees

    Nothing here refers to the modelled methods. *)
From Coq Require Import String Ascii List Bool ZArith.
From Verif Require Import PyBase M_Data.
Import ListNotations.
Local Open Scope string_scope.

Section Spec.
  Context {A : Type}.

  (** well-formed: at every level the keys of a dictionary are pairwise distinct
      (true of every python dictionary) *)
  Fixpoint wf (t : tree A) : Prop :=
    match t with
    | Leaf _ => True
    | Seq l => (fix all (l : list (tree A)) : Prop :=
                  match l with [] => True | x :: r => wf x /\ all r end) l
    | Node d => NoDup (map fst d) /\
                (fix all (d : list (string * tree A)) : Prop :=
                   match d with [] => True | (_, x) :: r => wf x /\ all r end) d
    end.

  (** the value found by following a list of keys, if any *)
  Fixpoint at_path (t : tree A) (p : list string) : option (tree A) :=
    match p with
    | [] => Some t
    | k :: r => match t with
                | Node d => match dget k d with
                            | Some t' => at_path t' r
                            | None => None
                            end
                | _ => None
                end
    end.

  Definition is_node (t : tree A) : bool := match t with Node _ => true | _ => false end.

  (** [p] is a prefix of [q] *)
  Fixpoint is_prefix (p q : list string) : bool :=
    match p, q with
    | [], _ => true
    | _, [] => false
    | a :: p', b :: q' => String.eqb a b && is_prefix p' q'
    end.

  (** the value at a list of (possibly negative) indices *)
  Fixpoint seq_at (t : tree A) (idx : list Z) : option (tree A) :=
    match idx with
    | [] => Some t
    | i :: r => match t with
                | Seq l => match norm_index (List.length l) i with
                           | Some n => match nth_error l n with
                                       | Some x => seq_at x r
                                       | None => None
                                       end
                           | None => None
                           end
                | _ => None
                end
    end.

  (** two index lists that name places neither of which contains the other *)
  Fixpoint diverge (t : tree A) (idx jdx : list Z) : Prop :=
    match idx, jdx, t with
    | i :: ir, j :: jr, Seq l =>
        norm_index (List.length l) i <> norm_index (List.length l) j \/
        (exists n x, norm_index (List.length l) i = Some n /\
                     norm_index (List.length l) j = Some n /\
                     nth_error l n = Some x /\ diverge x ir jr)
    | _, _, _ => False
    end.
End Spec.

(** a key that does not use the index syntax and is not empty *)
Definition plain_key (k : string) : bool :=
  match last_char k with
  | None => false
  | Some c => negb (Ascii.eqb c "]")
  end.

(** what tag normalisation does to one character: punctuation and white space
    become '_', upper case becomes lower case, the rest is kept *)
Definition char_in (c : ascii) (s : string) : Prop := exists n, String.get n s = Some c.
Definition punct_space : string :=
  "!""#$%&'()*+,-./:;<=>?@[\]^_`{|}~ " ++
  String (ascii_of_nat 9) (String (ascii_of_nat 10) (String (ascii_of_nat 11)
  (String (ascii_of_nat 12) (String (ascii_of_nat 13) "")))).
Definition upper : string := "ABCDEFGHIJKLMNOPQRSTUVWXYZ".
Definition lower : string := "abcdefghijklmnopqrstuvwxyz".
Inductive normal_char (c : ascii) : ascii -> Prop :=
| NPunct : char_in c punct_space -> normal_char c "_"
| NUpper n l : String.get n upper = Some c -> String.get n lower = Some l -> normal_char c l
| NKeep : ~ char_in c punct_space -> ~ char_in c upper -> normal_char c c.

