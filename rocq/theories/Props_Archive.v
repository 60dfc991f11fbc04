(** * Saving and reading back: C46 *)
From Coq Require Import String List Bool ZArith.
From Verif Require Import PyBase M_Archive S_Archive P_Archive.
Import ListNotations.
Local Open Scope string_scope.
Local Open Scope list_scope.

(** the whole tree may be saved: below the top every value is storable, at the top no entry is called "keys" *)
Definition saveable {F} (class_attr : string -> bool) (d : list (string * pyval F)) : Prop :=
  NoDup (dkeys d) /\ ~ In "keys" (dkeys d) /\ forall n v, In (n, v) d -> storable class_attr v.

Lemma saved : forall F class_attr k (d : list (string * pyval F)) name disk, saveable class_attr d ->
  exists disk', archive (PNode k d) name disk = (Ok tt, disk') /\
    load class_attr name disk' = Ok (PNode KData (map (fun p => (fst p, back (snd p))) d)) /\
    forall other, other <> name -> disk' other = disk other.
Proof.
  intros F ca k d name disk (N & K & S).
  destruct (dumps_dict_map ca d) as (js & D & E); [intros n v I; apply round; eapply S; eassumption|].
  unfold archive. rewrite keys_work_ok by (intros n I ->; contradiction). rewrite dumps_IDict, D. simpl option_map.
  eexists. split; [reflexivity|]. split.
  - unfold load. rewrite String.eqb_refl. simpl. now rewrite E.
  - intros other O. destruct (String.eqb_spec other name); [contradiction | reflexivity].
Qed.

(** every value comes back at its path, with the same names below it in the same order, nothing is added, and no other
    file is touched *)
Theorem C46_round_trip : forall F class_attr k (d : list (string * pyval F)) name disk, saveable class_attr d ->
  exists disk' data', archive (PNode k d) name disk = (Ok tt, disk') /\ load class_attr name disk' = Ok data' /\
    (forall p v, at_path p (PNode k d) = Some v -> exists v', at_path p data' = Some v' /\ names v' = names v /\ (p <> [] -> comes_back v v')) /\
    (forall p v', at_path p data' = Some v' -> exists v, at_path p (PNode k d) = Some v) /\
    (forall other, other <> name -> disk' other = disk other).
Proof.
  intros F ca k d name disk S. destruct (saved F ca k d name disk S) as (disk' & A & L & O).
  exists disk', (PNode KData (map (fun p => (fst p, back (snd p))) d)). split; [exact A|]. split; [exact L|]. split; [|split; [|exact O]].
  - intros [|n p] v E.
    + injection E as <-. eexists. split; [reflexivity|]. split; [apply dkeys_back | congruence].
    + simpl in E. simpl. rewrite dget_back. destruct (dget n d) as [w|]; [|discriminate]. simpl. exists (back v). rewrite path_back, E.
      split; [reflexivity|]. split; [apply names_back|]. intros _. apply back_comes_back.
  - intros [|n p] v' E; [now exists (PNode k d)|]. simpl in E |- *. rewrite dget_back in E. destruct (dget n d) as [w|]; [|discriminate].
    simpl in E. rewrite path_back in E. destruct (at_path p w) as [v|]; [now exists v | discriminate].
Qed.
(** what has been read once is saved and read without any further change *)
Theorem C46_again : forall F class_attr k (d : list (string * pyval F)) name disk, saveable class_attr d ->
  exists disk' data', archive (PNode k d) name disk = (Ok tt, disk') /\ load class_attr name disk' = Ok data' /\
    exists disk'', archive data' name disk' = (Ok tt, disk'') /\ load class_attr name disk'' = Ok data'.
Proof.
  intros F ca k d name disk S. destruct (saved F ca k d name disk S) as (disk' & A & L & _).
  exists disk', (PNode KData (map (fun p => (fst p, back (snd p))) d)). split; [exact A|]. split; [exact L|].
  destruct S as (N & K & S).
  destruct (saved F ca KData (map (fun p => (fst p, back (snd p))) d) name disk') as (disk'' & A' & L' & _).
  - split; [now rewrite dkeys_back|]. split; [now rewrite dkeys_back|]. intros n v I. apply in_map_iff in I. destruct I as ([m w] & E & I).
    injection E as <- <-. apply storable_back. eapply S. eassumption.
  - exists disk''. split; [exact A'|]. rewrite L'. do 2 f_equal. rewrite map_map. apply map_ext_in. intros [m w] I. simpl. f_equal.
    apply (storable_back ca). eapply S. eassumption.
Qed.
(** when saving fails, no file has changed *)
Theorem C46_failure : forall F (data : pyval F) name disk e disk', archive data name disk = (Err e, disk') -> forall n, disk' n = disk n.
Proof.
  intros F data name disk e disk' E n. unfold archive in E. destruct data; try (now injection E as _ <-).
  destruct (keys_work _ _); [|now injection E as _ <-]. destruct (dumps _); [discriminate | now injection E as _ <-].
Qed.
(** a nested Data with an entry called "keys" is lost altogether; at the top such an entry makes saving fail *)
Theorem C46_keys_refuted : forall F class_attr (v w : pyval F) disk,
  (exists disk', archive (PNode KData [("a", PNode KData [("x", v); ("keys", w)])]) "f" disk = (Ok tt, disk') /\
     load class_attr "f" disk' = Ok (PNode KData [("a", PScalar SNone)])) /\
  archive (PNode KData [("x", v); ("keys", w)]) "f" disk = (Err TypeError, disk).
Proof. intros. split; [|reflexivity]. eexists. split; reflexivity. Qed.
(** below the top an entry with the name of a method is no longer among the keys *)
Theorem C46_method_refuted : forall F class_attr (s : scalar F) m disk, class_attr m = true -> m <> "keys" ->
  exists disk', archive (PNode KData [("a", PNode KData [(m, PScalar s)])]) "f" disk = (Ok tt, disk') /\
    load class_attr "f" disk' = Ok (PNode KData [("a", PNode KOrdered [])]).
Proof.
  intros F ca s m disk M K. unfold archive. simpl. unfold dhas. cbn [dget]. destruct (String.eqb_spec "keys" m); [congruence|]. simpl.
  eexists. split; [reflexivity|]. unfold load. rewrite String.eqb_refl. simpl. unfold listed. simpl. now rewrite M.
Qed.
(** a list that holds an array or an object cannot be saved, and with it the whole tree *)
Theorem C46_list_refuted : forall F k (d : list (string * pyval F)) n l name disk, In (n, PList l) d -> In IBad l ->
  exists e, archive (PNode k d) name disk = (Err e, disk).
Proof.
  intros F k d n l name disk I B. unfold archive. destruct (keys_work k d); [|eauto].
  assert (dumps (IDict (map (fun p => (fst p, build_dict_r (snd p))) d)) = None) as ->; [|eauto].
  rewrite dumps_IDict. assert (L : dumps_list l = None).
  { clear I. induction l as [|x l IH]; [destruct B|]. simpl. destruct B as [-> | B]; [reflexivity|]. rewrite (IH B). now destruct (dumps x). }
  assert (dumps_dict (map (fun p => (fst p, build_dict_r (snd p))) d) = None) as ->; [|reflexivity].
  induction d as [|[m v] d IH]; [destruct I|]. destruct I as [E | I].
  - injection E as -> ->. cbn [map dumps_dict fst snd]. change (build_dict_r (PList l)) with (IList l). now rewrite dumps_IList, L.
  - cbn [map dumps_dict fst snd]. rewrite (IH I). now destruct (dumps (build_dict_r v)).
Qed.
Example C46_ex : saveable (F := nat) (fun s => String.eqb s "append")
  [("wing", PNode KData [("span", PFloat64 34%nat); ("points", PArray (Rows [Num (SFloat 0%nat); Num (SFloat 1%nat)])); ("tag", PScalar (SStr "main"))]);
   ("f", PFunction); ("list", PList [IAtom (SInt 1); IAtom (SInt 2)])].
Proof.
  split; [repeat constructor; simpl; intuition discriminate|]. split; [simpl; intuition discriminate|].
  intros n v [E | [E | [E | []]]]; injection E as <- <-.
  - constructor.
    + repeat constructor; simpl; intuition discriminate.
    + intros n [<- | [<- | [<- | []]]]; (split; [reflexivity | discriminate]).
    + intros n v [E | [E | [E | []]]]; injection E as <- <-; constructor.
  - constructor.
  - constructor. intros x [<- | [<- | []]]; constructor.
Qed.
Print Assumptions C46_round_trip.
Print Assumptions C46_again.
Print Assumptions C46_failure.
Print Assumptions C46_keys_refuted.
Print Assumptions C46_method_refuted.
Print Assumptions C46_list_refuted.
