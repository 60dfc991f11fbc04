(** * Saving and reading back: model

    Sources: /repo/trunk/SUAVE/Input_Output/SUAVE/archive.py and load.py.

    The json library is taken to do what it says: text written by json.dumps is one line, and json.loads makes
    of it the value it was written from ([json] below).  Numbers are integers or floats of any type [F].
    Simplifications: keys are strings; an array is its nested rows, so arrays without numbers do not remember
    further dimensions; numpy array of a list that mixes kinds of numbers or has rows of different lengths
    is not distinguished from the nested rows. *)
From Coq Require Import String List Bool ZArith.
From Verif Require Import PyBase.
Import ListNotations.
Local Open Scope string_scope.
Local Open Scope list_scope.

Section Archive.
Context {F : Type}.
(** names that every DataOrdered object already answers to: its methods (DataOrdered.py:684) *)
Variable class_attr : string -> bool.

(** None, bool, int, float, str *)
Inductive scalar := SNone | SBool (b : bool) | SInt (z : Z) | SFloat (f : F) | SStr (s : string).
(** what json can write *)
Inductive json := JAtom (s : scalar) | JList (l : list json) | JObj (d : list (string * json)).
(** what a python list may hold: json can write it, or not *)
Inductive item := IAtom (s : scalar) | IList (l : list item) | IDict (d : list (string * item)) | IBad.
(** the rows of an array *)
Inductive nest := Num (s : scalar) | Rows (l : list nest).
Inductive kind := KData | KOrdered | KDict.
(** python values; [PFloat64] is np.float64, [PFunction] a function, [POther] any other object whose keys()
    does not work: tuples, methods, np.int64, ... *)
Inductive pyval :=
| PScalar (s : scalar) | PFloat64 (f : F) | PArray (a : nest) | PList (l : list item) | PFunction | POther
| PNode (k : kind) (d : list (string * pyval)).

(** ndarray.tolist *)
Fixpoint tolist (a : nest) : item := match a with Num s => IAtom s | Rows l => IList (map tolist l) end.

(** the attribute "keys" of a Data is its entry of that name, if it has one (Data.py:66-67): calling it raises *)
Definition keys_work (k : kind) (d : list (string * pyval)) : bool :=
  match k with KData => negb (dhas "keys" d) | _ => true end.

(** archive.py:86-135 *)
Fixpoint build_dict_r (v : pyval) : item :=
  match v with
  | PArray a => tolist a
  | PFloat64 f => IAtom (SFloat f)
  | PScalar s => IAtom s
  | PFunction => IAtom SNone
  | PList l => IList l
  | POther => IAtom SNone
  | PNode k d => if keys_work k d then IDict (map (fun p => (fst p, build_dict_r (snd p))) d) else IAtom SNone
  end.
(** json.dumps: TypeError when there is something it cannot write *)
Fixpoint dumps (i : item) : option json :=
  match i with
  | IAtom s => Some (JAtom s)
  | IList l =>
    option_map JList ((fix go l := match l with
      | [] => Some []
      | x :: r => match dumps x, go r with Some a, Some b => Some (a :: b) | _, _ => None end
      end) l)
  | IDict d =>
    option_map JObj ((fix go d := match d with
      | [] => Some []
      | (k, x) :: r => match dumps x, go r with Some a, Some b => Some ((k, a) :: b) | _, _ => None end
      end) d)
  | IBad => None
  end.
(** archive.py:21-51, 54-83: the file is opened only once the text is there.  The disk is a map from names to contents *)
Definition archive (data : pyval) (name : string) (disk : string -> option json) : result unit * (string -> option json) :=
  match data with
  | PNode k d =>
    if keys_work k d then
      match dumps (IDict (map (fun p => (fst p, build_dict_r (snd p))) d)) with
      | Some j => (Ok tt, fun n => if String.eqb n name then Some j else disk n)
      | None => (Err TypeError, disk)
      end
    else (Err TypeError, disk)
  | _ => (Err AttributeError, disk)
  end.

(** numpy array of a list *)
Fixpoint np_rows (j : json) : nest :=
  match j with JAtom s => Num s | JList l => Rows (map np_rows l) | JObj _ => Num SNone end.
(** DataOrdered.py:684-690: an entry with the name of a method is stored, but is not among the keys *)
Definition listed (d : list (string * pyval)) : list (string * pyval) := filter (fun p => negb (class_attr (fst p))) d.
(** load.py:85-126 *)
Fixpoint build_data_r (j : json) : pyval :=
  match j with
  | JObj d => PNode KOrdered (listed (map (fun p => (fst p, build_data_r (snd p))) d))
  | JList l => PArray (Rows (map np_rows l))
  | JAtom s => PScalar s
  end.
(** load.py:23-82 *)
Definition load (name : string) (disk : string -> option json) : result pyval :=
  match disk name with
  | Some (JObj d) => Ok (PNode KData (map (fun p => (fst p, build_data_r (snd p))) d))
  | Some _ => Err AttributeError
  | None => Err GenericException
  end.
End Archive.
Arguments scalar : clear implicits.
Arguments json : clear implicits.
Arguments item : clear implicits.
Arguments nest : clear implicits.
Arguments pyval : clear implicits.
