(** * Drag build-up: specification vocabulary *)
From Coq Require Import Reals List String Permutation.
From Verif Require Import PyBase M_Drag.
Import ListNotations.
Local Open Scope R_scope.
Local Open Scope list_scope.

(** the sum of [f] over a list *)
Fixpoint total {A} (f : A -> R) (l : list A) : R := match l with [] => 0 | x :: r => f x + total f r end.
(** the tags of all components that have friction drag *)
Definition tags (v : vehicle) : list string :=
  map w_tag (v_wings v) ++ map fu_tag (v_fuselages v) ++ map na_tag (v_nacelles v).
(** no two components share a tag, and none is called "pylon" *)
Definition named_apart (v : vehicle) : Prop := NoDup ("pylon"%string :: tags v).
(** what parasite_drag_wing returns for a wing *)
Definition returns (t : settings) (fl : flow) (w : wing) (c : R) : Prop :=
  exists w' b', parasite_drag_wing t fl w [] = Ok (w', b', c).
Definition wing_cd (t : settings) (fl : flow) (w : wing) : R :=
  match parasite_drag_wing t fl w [] with Ok (_, _, c) => c | Err _ => 0 end.
Definition fuselage_cd (t : settings) (fl : flow) (f : fuselage) : R := snd (parasite_drag_fuselage t fl f []).
Definition nacelle_cd (fl : flow) (n : nacelle) : R := snd (parasite_drag_nacelle fl n []).
(** the fuselages of a vehicle whose drag is not part of a wing's *)
Definition separate (v : vehicle) : list fuselage :=
  filter (fun f => negb (String.eqb (fu_tag f) "fuselage_bwb")) (v_fuselages v).
(** a transition point on the chord *)
Definition on_chord (x : R) : Prop := 0 <= x <= 1.
(** the coefficient in the breakdown under a tag *)
Definition stored_cd (b : breakdown) (tag : string) : option R := option_map e_cd (dget tag b).

(** the wing functions look at the transition points unless the wing has exactly one segment *)
Definition transitions_fit (w : wing) : Prop :=
  List.length (w_segs w) <> 1%nat -> on_chord (w_xtu w) /\ on_chord (w_xtl w).
(** a wing of which no other in the list is larger *)
Definition a_largest (w : wing) (l : list wing) : Prop := In w l /\ forall x, In x l -> w_ref x <= w_ref w.
(** the inviscid induced drag of a wing on its own area *)
Definition inviscid (t : settings) (w : wing) : R :=
  match t_span t with None => w_cdi w | Some es => w_cl w ^ 2 / (PI * w_ar w * es) end.
(** the same vehicle with its parts listed in another order *)
Definition reordered (v v' : vehicle) : Prop :=
  Permutation (v_wings v) (v_wings v') /\ Permutation (v_fuselages v) (v_fuselages v') /\
  Permutation (v_nacelles v) (v_nacelles v') /\ v_networks v = v_networks v' /\ v_ref v = v_ref v'.
