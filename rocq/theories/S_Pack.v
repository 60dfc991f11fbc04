(** * Vocabulary for the pack/unpack properties *)
From Coq Require Import String List Bool Arith.
From Verif Require Import PyBase M_Data M_Pack.
Import ListNotations.

Section Spec.
  Context {T F : Type}.
  Notation ptree := (tree (pval T F)).

  (** arrays really have the shape they carry *)
  Definition leaf_ok (v : pval T F) : Prop :=
    match v with Mat n cols => Forall (fun c => List.length c = n) cols | _ => True end.
  Fixpoint shapes_ok (t : ptree) : Prop :=
    match t with
    | Leaf v => leaf_ok v
    | Seq _ => True
    | Node d => (fix all (d : list (string * ptree)) : Prop :=
                   match d with [] => True | (_, x) :: r => shapes_ok x /\ all r end) d
    end.

  (** number of scalars an entry contributes to the packed vector *)
  Definition leaf_slots (v : pval T F) : nat :=
    match v with
    | Scalar _ | ZeroD _ => 1
    | Vec l => List.length l
    | Mat n cols => n * List.length cols
    | Other _ => 0
    end.
  Fixpoint slots (t : ptree) : nat :=
    match t with
    | Leaf v => leaf_slots v
    | Seq _ => 0
    | Node d => (fix sum (d : list (string * ptree)) : nat :=
                   match d with [] => 0 | (_, x) :: r => slots x + sum r end) d
    end.

  (** same keys in the same order, same kinds and shapes of arrays, and
      everything that is not a number is the very same object *)
  Definition leaf_same (v w : pval T F) : Prop :=
    match v, w with
    | Scalar _, Scalar _ => True
    | ZeroD _, ZeroD _ => True
    | Vec l, Vec l' => List.length l = List.length l'
    | Mat n c, Mat n' c' => n = n' /\ List.length c = List.length c'
    | Other f, Other g => f = g
    | _, _ => False
    end.
  Inductive same_shape : ptree -> ptree -> Prop :=
  | SSLeaf v w : leaf_same v w -> same_shape (Leaf v) (Leaf w)
  | SSSeq l : same_shape (Seq l) (Seq l)
  | SSNode d d' : Forall2 (fun a b => fst a = fst b /\ same_shape (snd a) (snd b)) d d' ->
                  same_shape (Node d) (Node d').

  (** every packable entry is a vector or matrix with [n] rows *)
  Definition leaf_uniform (n : nat) (v : pval T F) : Prop :=
    match v with
    | Scalar _ | ZeroD _ => False
    | Vec l => List.length l = n
    | Mat r cols => r = n /\ Forall (fun c => List.length c = n) cols
    | Other _ => True
    end.
  Fixpoint uniform (n : nat) (t : ptree) : Prop :=
    match t with
    | Leaf v => leaf_uniform n v
    | Seq _ => True
    | Node d => (fix all (d : list (string * ptree)) : Prop :=
                   match d with [] => True | (_, x) :: r => uniform n x /\ all r end) d
    end.
  Definition leaf_width (v : pval T F) : nat :=
    match v with Vec _ => 1 | Mat _ cols => List.length cols | _ => 0 end.
  Fixpoint width (t : ptree) : nat :=
    match t with
    | Leaf v => leaf_width v
    | Seq _ => 0
    | Node d => (fix sum (d : list (string * ptree)) : nat :=
                   match d with [] => 0 | (_, x) :: r => width x + sum r end) d
    end.
End Spec.
