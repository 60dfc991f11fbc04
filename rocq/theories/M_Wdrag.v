(** * Wave drag with OpenVSP and its file of results: model

    Sources in /repo/trunk/SUAVE/: WV = Methods/Aerodynamics/OpenVSP_Wave_Drag/wave_drag_volume.py,
    CT = Methods/Aerodynamics/OpenVSP_Wave_Drag/compressibility_drag_total.py, AN = Analyses/Aerodynamics/Supersonic_OpenVSP_Wave_Drag.py.
    Numbers of slices and rotations are one parameter; what OpenVSP answers is an arbitrary function, None where it fails.  The file 'volume_drag_data_TAG.npy' is a list of rows,
    None where there is no file.  FileNotFoundError and failures of OpenVSP are [GenericException].  The reference area is taken to be positive.
    Drag due to lift and drag divergence are not modelled here (C.f. M_Super.v): they do not touch the file. *)
From Coq Require Import Reals Bool List.
From Verif Require Import PyBase M_Opt P_Opt.
Import ListNotations.
Local Open Scope R_scope.

Definition setting := (nat * nat)%type.
Definition defaults : setting := (20%nat, 10%nat).   (* WV 19 *)
Definition rows := list (R * R).
Definition file := option rows.
Definition Reqb (x y : R) : bool := if Req_EM_T x y then true else false.

Section Vsp.
Variable vsp : setting -> R -> option R.
Variable area : R.

(** WV 60-65, 74-77 *)
Definition drag (st : setting) (M : R) : result R := match vsp st M with Some c => Ok (c * 100 / area) | None => Err GenericException end.
(** WV 71-72, CT 109-110: float() of the values in all rows with this Mach number; of two or more it is a TypeError *)
Definition lookup (M : R) (l : rows) : result (option R) :=
  match filter (fun r => Reqb (fst r) M) l with [] => Ok None | [r] => Ok (Some (snd r)) | _ => Err TypeError end.
(** WV 68-81 for one Mach number: the file afterwards and the drag *)
Definition one (st : setting) (f : file) (M : R) : file * result R :=
  if Rltb M (105 / 100) then (f, Ok 0) else
  match f with
  | None => (f, Err GenericException)
  | Some l => match lookup M l with
              | Err e => (f, Err e)
              | Ok (Some c) => (f, Ok c)
              | Ok None => match drag st M with Err e => (f, Err e) | Ok c => (Some (l ++ [(M, c)]), Ok c) end
              end
  end.
(** WV 68-83 *)
Fixpoint volume (st : setting) (f : file) (Ms : list R) : file * result (list R) :=
  match Ms with
  | [] => (f, Ok [])
  | M :: r => match one st f M with
              | (f', Err e) => (f', Err e)
              | (f', Ok c) => let (f'', t) := volume st f' r in (f'', bind t (fun cs => Ok (c :: cs)))
              end
  end.
(** CT 102-118: the drag at 1.05 *)
Definition at_105 (f : file) : file * result R :=
  let l := match f with Some l => l | None => [(-1, -1)] end in
  match lookup (105 / 100) l with
  | Err e => (f, Err e)
  | Ok (Some c) => (f, Ok c)
  | Ok None => match drag defaults (105 / 100) with
               | Err e => (f, Err e)
               | Ok c => (match f with Some _ => f | None => Some [(105 / 100, c)] end, Ok c)
               end
  end.
(** CT 78-158 for a vehicle with so many wings.  128: `drag_div` of Supersonic_Zero takes four arguments and is given five.  Without wings `cd_c` is not bound in 140. *)
Definition total (wings : nat) (st : setting) (f : file) (Ms : list R) : file * result (list R) :=
  let (f', r) := at_105 f in
  (f', match r with Err e => Err e | Ok _ => match wings with O => Err UnboundLocalError | _ => Err TypeError end end).

(** what happens to the file: AN 128-131, CT, WV *)
Inductive op := Begin | Total (wings : nat) (Ms : list R) | Volume (Ms : list R).
Definition step (st : setting) (f : file) (o : op) : file * result (list R) :=
  match o with Begin => (None, Ok []) | Total n Ms => total n st f Ms | Volume Ms => volume st f Ms end.
Fixpoint history (st : setting) (f : file) (os : list op) : file :=
  match os with [] => f | o :: r => history st (fst (step st f o)) r end.
End Vsp.
