(** * C06, C07: pack_array / unpack_array *)
From Coq Require Import String List Bool Arith ZArith Lia.
From Verif Require Import PyBase M_Data M_Pack S_Pack P_Pack.
Import ListNotations.
Local Open Scope string_scope.
Local Open Scope list_scope.

(** C06: unpacking what was packed leaves the Data unchanged and issues no warning. *)
Theorem C06_unpack_after_pack : forall (T F : Type) (t : tree (pval T F)) M,
  shapes_ok t -> pack_vec t = Ok M -> unpack_vec t M = Ok (t, false).
Proof. intros T F t M. exact (unpack_pack_api t M). Qed.

(** C06: every vector of the packed length is accepted, is what packing then returns, and
    only numbers change: keys, their order, array shapes, foreign objects are kept. *)
Theorem C06_pack_after_unpack : forall (T F : Type) (t : tree (pval T F)) M0 M,
  shapes_ok t -> pack_vec t = Ok M0 -> List.length M = List.length M0 ->
  exists t', unpack_vec t M = Ok (t', false) /\ pack_vec t' = Ok M /\
             same_shape t t' /\ shapes_ok t'.
Proof. intros T F t M0 M. exact (pack_unpack_api t M0 M). Qed.

(** C06: the packed length is the number of numbers in the tree. *)
Theorem C06_packed_length : forall (T F : Type) (t : tree (pval T F)) M,
  shapes_ok t -> pack_vec t = Ok M -> List.length M = slots t.
Proof. intros T F t M Hs HM. exact (pack_length t Hs M HM). Qed.

(** C06: surplus values are ignored, with a warning. *)
Theorem C06_long_vector : forall (T F : Type) (t : tree (pval T F)) M0 M extra,
  shapes_ok t -> pack_vec t = Ok M0 -> List.length M = List.length M0 -> extra <> [] ->
  exists t', unpack_vec t (M ++ extra) = Ok (t', true) /\ pack_vec t' = Ok M /\ same_shape t t'.
Proof. intros T F t M0 M extra. exact (unpack_long_api t M0 M extra). Qed.

(** C06: whenever unpacking succeeds, the warning tells exactly whether the lengths differ. *)
Theorem C06_warning_exact : forall (T F : Type) (t t' : tree (pval T F)) M w,
  unpack_vec t M = Ok (t', w) -> (w = false <-> List.length M = slots t).
Proof. intros T F t t' M w. exact (unpack_warning_api t t' M w). Qed.

(** C06, negative part: a vector that is too short does not always fail.  A single
    remaining value is broadcast over a whole vector entry (only a warning is issued). *)
Theorem C06_short_vector_fails_refuted :
  exists (t t' : tree (pval Z unit)) M0 M,
    shapes_ok t /\ pack_vec t = Ok M0 /\ (List.length M < List.length M0)%nat /\
    unpack_vec t M = Ok (t', true) /\ pack_vec t' = Ok [5%Z; 5%Z; 5%Z].
Proof.
  exists (Node [("a", Leaf (Vec [1%Z; 2%Z; 3%Z]))]), (Node [("a", Leaf (Vec [5%Z; 5%Z; 5%Z]))]),
         [1%Z; 2%Z; 3%Z], [5%Z].
  repeat split; simpl; lia.
Qed.

(** A configuration with a scalar, a vector, a 2x2 matrix in a sub-Data, a string and a list *)
Definition sample : tree (pval Z string) :=
  Node [("x", Leaf (Scalar 1%Z));
        ("name", Leaf (Other "wing"));
        ("sub", Node [("v", Leaf (Vec [2%Z; 3%Z])); ("m", Leaf (Mat 2 [[4%Z; 5%Z]; [6%Z; 7%Z]]))]);
        ("l", Seq [Leaf (Scalar 9%Z)])].
Example C06_ex : shapes_ok sample /\ pack_vec sample = Ok [1%Z; 2%Z; 3%Z; 4%Z; 5%Z; 6%Z; 7%Z] /\
  slots sample = 7 /\
  unpack_vec sample [10%Z; 20%Z; 30%Z; 40%Z; 50%Z; 60%Z; 70%Z] =
   Ok (Node [("x", Leaf (Scalar 10%Z));
        ("name", Leaf (Other "wing"));
        ("sub", Node [("v", Leaf (Vec [20%Z; 30%Z])); ("m", Leaf (Mat 2 [[40%Z; 50%Z]; [60%Z; 70%Z]]))]);
        ("l", Seq [Leaf (Scalar 9%Z)])], false) /\
  unpack_vec sample [10%Z; 20%Z] = Err ValueError.
Proof. repeat split; repeat constructor. Qed.

(** C07: array mode on trees all of whose packable entries are arrays of [n] rows *)
Theorem C07_unpack_after_pack : forall (T F : Type) n (t : tree (pval T F)),
  uniform n t -> width t <> 0 ->
  exists M, pack_arr t = Ok M /\ fst M = n /\ List.length (snd M) = width t /\
            unpack_arr t M = Ok (t, false).
Proof. intros T F n t. exact (arr_round_trip n t). Qed.

Theorem C07_pack_after_unpack : forall (T F : Type) n (t : tree (pval T F)) cols,
  uniform n t -> width t <> 0 ->
  List.length cols = width t -> Forall (fun c => List.length c = n) cols ->
  exists t', unpack_arr t (n, cols) = Ok (t', false) /\ pack_arr t' = Ok (n, cols) /\
             uniform n t' /\ same_shape t t'.
Proof. intros T F n t cols. exact (arr_unpack_pack n t cols). Qed.

(** C07, outside the domain: a scalar makes the round trip corrupt another entry *)
Theorem C07_scalar_refuted :
  exists (t t' : tree (pval Z unit)) M w, shapes_ok t /\ pack_arr t = Ok M /\
    unpack_arr t M = Ok (t', w) /\
    t = Node [("a", Leaf (Scalar 5%Z)); ("b", Leaf (Vec [7%Z]))] /\
    t' = Node [("a", Leaf (Scalar 5%Z)); ("b", Leaf (Vec [5%Z]))].
Proof.
  exists (Node [("a", Leaf (Scalar 5%Z)); ("b", Leaf (Vec [7%Z]))]),
         (Node [("a", Leaf (Scalar 5%Z)); ("b", Leaf (Vec [5%Z]))]), (1, [[5%Z]; [7%Z]]), true.
  repeat split.
Qed.

(** C07, outside the domain: unequal row counts make the round trip fail *)
Theorem C07_rows_refuted :
  exists (t : tree (pval Z unit)) M, shapes_ok t /\ pack_arr t = Ok M /\
    unpack_arr t M = Err ValueError.
Proof.
  exists (Node [("a", Leaf (Vec [1%Z; 2%Z])); ("b", Leaf (Vec [3%Z; 4%Z; 5%Z])); ("c", Leaf (Vec [6%Z; 7%Z]))]).
  exists (2, [[1%Z; 2%Z]; [6%Z; 7%Z]]). repeat split.
Qed.

Definition sample2 : tree (pval Z string) :=
  Node [("t", Leaf (Vec [1%Z; 2%Z])); ("name", Leaf (Other "seg"));
        ("sub", Node [("m", Leaf (Mat 2 [[4%Z; 5%Z]; [6%Z; 7%Z]]))])].
Example C07_ex : uniform 2 sample2 /\ width sample2 = 3 /\
  pack_arr sample2 = Ok (2, [[1%Z; 2%Z]; [4%Z; 5%Z]; [6%Z; 7%Z]]).
Proof. repeat split; repeat constructor. Qed.

Print Assumptions C06_unpack_after_pack.
Print Assumptions C06_pack_after_unpack.
Print Assumptions C06_packed_length.
Print Assumptions C06_long_vector.
Print Assumptions C06_warning_exact.
Print Assumptions C06_short_vector_fails_refuted.
Print Assumptions C07_unpack_after_pack.
Print Assumptions C07_pack_after_unpack.
Print Assumptions C07_scalar_refuted.
Print Assumptions C07_rows_refuted.
