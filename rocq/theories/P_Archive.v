(** * Saving and reading back: proofs *)
From Coq Require Import String List Bool ZArith.
From Verif Require Import PyBase M_Archive S_Archive.
Import ListNotations.
Local Open Scope string_scope.
Local Open Scope list_scope.

Section Proofs.
Context {F : Type}.
Variable class_attr : string -> bool.
Notation pyval := (pyval F).

Fixpoint back (v : pyval) : pyval :=
  match v with
  | PScalar s => PScalar s
  | PFloat64 f => PScalar (SFloat f)
  | PArray (Num s) => PScalar s
  | PArray (Rows l) => PArray (Rows l)
  | PList l => PArray (Rows (map rows_of l))
  | PFunction | POther => PScalar SNone
  | PNode _ d => PNode KOrdered (map (fun p => (fst p, back (snd p))) d)
  end.

Definition dumps_list := fix go (l : list (item F)) : option (list (json F)) := match l with
  | [] => Some []
  | x :: r => match dumps x, go r with Some a, Some b => Some (a :: b) | _, _ => None end
  end.
Definition dumps_dict := fix go (d : list (string * item F)) : option (list (string * json F)) := match d with
  | [] => Some []
  | (k, x) :: r => match dumps x, go r with Some a, Some b => Some ((k, a) :: b) | _, _ => None end
  end.
Lemma dumps_IList : forall l, dumps (IList l) = option_map JList (dumps_list l). Proof. reflexivity. Qed.
Lemma dumps_IDict : forall d, dumps (IDict d) = option_map JObj (dumps_dict d). Proof. reflexivity. Qed.

Lemma dumps_list_map : forall (l : list (item F)) (g : json F -> nest F) (h : item F -> nest F),
  (forall x, In x l -> exists j, dumps x = Some j /\ g j = h x) -> exists js, dumps_list l = Some js /\ map g js = map h l.
Proof.
  induction l as [|x l IH]; intros g h H; [now exists []|].
  destruct (H x (or_introl eq_refl)) as (j & D & E). destruct (IH g h) as (js & Ds & Es); [intros; apply H; now right|].
  exists (j :: js). simpl. rewrite D, Ds, E, Es. now split.
Qed.
Fixpoint nest_all (P : nest F -> Prop) (Hn : forall s, P (Num s)) (Hr : forall l, (forall x, In x l -> P x) -> P (Rows l)) (a : nest F) : P a :=
  match a with
  | Num s => Hn s
  | Rows l => Hr l ((fix go l : forall x, In x l -> P x := match l with
      | [] => fun x h => match h with end
      | y :: r => fun x h => match h with or_introl e => eq_ind y P (nest_all P Hn Hr y) x e | or_intror h => go r x h end
      end) l)
  end.
Lemma dumps_tolist : forall a : nest F, exists j, dumps (tolist a) = Some j /\ np_rows j = a.
Proof.
  apply nest_all; [intro s; now exists (JAtom s)|]. intros l IH.
  destruct (dumps_list_map (map tolist l) np_rows rows_of) as (js & D & E).
  - intros x I. apply in_map_iff in I. destruct I as (a & <- & I). destruct (IH a I) as (j & Dj & Ej). exists j. split; [exact Dj|].
    rewrite Ej. clear. revert a. apply nest_all; [reflexivity|]. intros l H. simpl. f_equal. rewrite map_map. rewrite <- (map_id l) at 1. apply map_ext_in. exact H.
  - exists (JList js). simpl tolist. rewrite dumps_IList, D. split; [reflexivity|]. simpl. f_equal. rewrite E, map_map.
    rewrite <- (map_id l) at 2. apply map_ext_in. intros a _. revert a. apply nest_all; [reflexivity|]. intros l' H. simpl. f_equal. rewrite map_map.
    rewrite <- (map_id l') at 2. now apply map_ext_in.
Qed.
Lemma dumps_plain : forall i : item F, plain i -> exists j, dumps i = Some j /\ np_rows j = rows_of i.
Proof.
  induction 1 as [s | l _ IH]; [now exists (JAtom s)|].
  destruct (dumps_list_map l np_rows rows_of IH) as (js & D & E). exists (JList js). rewrite dumps_IList, D. split; [reflexivity|].
  simpl. now rewrite E.
Qed.

Lemma dumps_dict_map : forall (d : list (string * pyval)),
  (forall n v, In (n, v) d -> exists j, dumps (build_dict_r v) = Some j /\ build_data_r class_attr j = back v) ->
  exists js, dumps_dict (map (fun p => (fst p, build_dict_r (snd p))) d) = Some js /\
    map (fun p => (fst p, build_data_r class_attr (snd p))) js = map (fun p => (fst p, back (snd p))) d.
Proof.
  induction d as [|[n v] d IH]; intro H; [now exists []|].
  destruct (H n v (or_introl eq_refl)) as (j & D & E). destruct IH as (js & Ds & Es); [intros; eapply H; right; eassumption|].
  exists ((n, j) :: js). simpl. rewrite D, Ds, E, Es. now split.
Qed.
Lemma keys_work_ok : forall k (d : list (string * pyval)), (forall n, In n (dkeys d) -> n <> "keys") -> keys_work k d = true.
Proof.
  intros [] d H; try reflexivity. unfold keys_work, dhas. assert (dget "keys" d = None) as ->; [|reflexivity].
  induction d as [|[n v] d IH]; [reflexivity|]. cbn [dget]. destruct (String.eqb_spec "keys" n) as [<-|].
  - elim (H "keys"); [now left | reflexivity].
  - apply IH. intros m I. apply H. now right.
Qed.
Lemma listed_all : forall (d : list (string * pyval)), (forall n, In n (dkeys d) -> class_attr n = false) -> listed class_attr d = d.
Proof.
  unfold listed. induction d as [|[n v] d IH]; intro H; [reflexivity|]. simpl. rewrite (H n (or_introl eq_refl)). simpl.
  f_equal. apply IH. intros m I. apply H. now right.
Qed.
Lemma dkeys_back : forall (d : list (string * pyval)), dkeys (map (fun p => (fst p, back (snd p))) d) = dkeys d.
Proof. intro d. unfold dkeys. rewrite map_map. reflexivity. Qed.

Lemma round : forall v, storable class_attr v -> exists j, dumps (build_dict_r v) = Some j /\ build_data_r class_attr j = back v.
Proof.
  induction 1 as [s | f | a | l P | | | k d N K _ IH].
  - now exists (JAtom s).
  - now exists (JAtom (SFloat f)).
  - destruct a as [s | l]; [now exists (JAtom s)|].
    destruct (dumps_tolist (Rows l)) as (j & D & E). exists j. split; [exact D|].
    simpl tolist in D. rewrite dumps_IList in D. destruct (dumps_list _); [|discriminate]. injection D as <-. simpl in *. now rewrite E.
  - destruct (dumps_list_map l np_rows rows_of) as (js & D & E); [intros x I; apply dumps_plain; auto|].
    exists (JList js). simpl build_dict_r. rewrite dumps_IList, D. split; [reflexivity|]. simpl. now rewrite E.
  - now exists (JAtom SNone).
  - now exists (JAtom SNone).
  - destruct (dumps_dict_map d IH) as (js & D & E). exists (JObj js). simpl build_dict_r.
    rewrite keys_work_ok by (intros n I; now apply K). rewrite dumps_IDict, D. split; [reflexivity|].
    simpl. rewrite E. rewrite listed_all; [reflexivity|]. rewrite dkeys_back. intros n I. now apply K.
Qed.
Lemma back_comes_back : forall v, comes_back v (back v).
Proof. destruct v as [s | f | [s | l] | l | | | k d]; simpl; constructor. Qed.
Lemma dget_back : forall k (d : list (string * pyval)), dget k (map (fun p => (fst p, back (snd p))) d) = option_map back (dget k d).
Proof. induction d as [|[n v] d IH]; [reflexivity|]. simpl. destruct (String.eqb k n); [reflexivity | exact IH]. Qed.
Lemma path_back : forall p v, at_path p (back v) = option_map back (at_path p v).
Proof.
  induction p as [|k p IH]; intro v; [reflexivity|].
  destruct v as [s | f | [s | l] | l | | | kk d]; try reflexivity. simpl. rewrite dget_back. destruct (dget k d); [apply IH | reflexivity].
Qed.
Lemma names_back : forall v, names (back v) = names v.
Proof. destruct v as [s | f | [s | l] | l | | | k d]; try reflexivity. simpl. apply dkeys_back. Qed.
Lemma storable_back : forall v, storable class_attr v -> storable class_attr (back v) /\ back (back v) = back v.
Proof.
  induction 1 as [s | f | a | l P | | | k d N K _ IH]; simpl; try (split; [constructor | reflexivity]).
  - destruct a; (split; [constructor | reflexivity]).
  - split.
    + constructor; rewrite ?dkeys_back; auto. intros n v I. apply in_map_iff in I. destruct I as ([m w] & E & I). injection E as <- <-. now apply (IH m w).
    + f_equal. rewrite map_map. apply map_ext_in. intros [m w] I. simpl. f_equal. now apply (IH m w).
Qed.
End Proofs.
