(** Model of the inflow of a propeller in a wing's wake
    (Methods/Aerodynamics/Common/Fidelity_Zero/Lift/compute_propeller_nonuniform_freestream.py)
    and of the slices of a vehicle along Mach planes (Input_Output/OpenVSP/mach_slices.py). *)
From Coq Require Import Reals List Bool Arith.
From Verif Require Import PyBase M_Opt M_Noise.
Import ListNotations.
Local Open Scope R_scope.

(** ** compute_propeller_nonuniform_freestream.py *)
(** 61: the azimuths *)
Definition azimuths (Na : nat) : list R := firstn Na (linspace 0 (2 * PI) (Na + 1)).
(** 65-74: the place of a station of radius [r] at azimuth [psi]; the radii
    divided and multiplied by the tip radius are the radii *)
Definition station (yc zc R0 r psi : R) : R * R :=
  (yc + R0 * (r / R0) * cos psi, zc + R0 * (r / R0) * sin psi).
(** 84 *)
Definition v_tan (rotation V uv uw psi : R) : R := rotation * V * (- uw * cos psi + uv * sin psi).
(** 85 *)
Definition v_rad (V uv uw psi : R) : R := V * (- uw * sin psi - uv * cos psi).
(** 86 *)
Definition v_ax (V ua : R) : R := V * ua.
Definition field3 : Type := R * R -> option (R * R * R).
(** 76-86 for one station and one speed.  [wake] is the interpolated wake at a
    place: streamwise, spanwise and upward, [None] being nan outside the points
    it is known at. *)
Definition inflow_at (wake : field3) (rotation V yc zc R0 r psi : R) : option (R * R * R) :=
  match wake (station yc zc R0 r psi) with
  | Some (ua, uv, uw) => Some (v_ax V ua, v_tan rotation V uv uw psi, v_rad V uv uw psi)
  | None => None
  end.
(** 84-86: the speeds of all flight conditions, [V_thrust[:,0]], times arrays of
    radii by azimuths: numpy lines them up with the azimuths *)
Definition speeds_along (Vs : list R) (Na : nat) : result (list R) :=
  match Vs with
  | [V] => Ok (repeat V Na)
  | _ => if Nat.eqb (List.length Vs) Na then Ok Vs
         else if Nat.eqb Na 1 then Err GenericException  (* grows an axis: not modelled *)
         else Err ValueError
  end.
(** The rows (radii) of the three arrays *)
Definition prop_inflow (wake : field3) (rotation : R) (Vs : list R) (yc zc R0 : R) (radii : list R) (Na : nat)
  : result (list (list (option (R * R * R)))) :=
  bind (speeds_along Vs Na) (fun row =>
    Ok (map (fun r => map2 (fun V psi => inflow_at wake rotation V yc zc R0 r psi) row (azimuths Na)) radii)).

(** ** mach_slices.py *)
(** 71-76: the direction square to the slicing plane *)
Definition mach_angle (m : R) : R := asin (1 / m).
Definition roty (m aoa : R) : R := (PI / 2 - mach_angle m) + aoa.
Definition normal (m aoa : R) : R * R := (cos (roty m aoa), sin (roty m aoa)).
(** 83-100: [cuts] are OpenVSP's slices: area, and x and z of its centre.  A
    last slice without area is left out. *)
Definition slices (m aoa : R) (cuts : list (R * R * R)) : result (list (R * R)) :=
  let l := map (fun c => let '(area, x, z) := c in (x + z * tan (mach_angle m), area * cos (roty m aoa))) cuts in
  match rev l with
  | [] => Err IndexError
  | (_, a) :: r => if Req_EM_T a 0 then Ok (rev r) else Ok l
  end.
(** 60-67: which angle of attack goes with which Mach number *)
Definition aoa_of (aoas : list R) (i : nat) : result R :=
  match aoas with
  | [] => Err IndexError
  | [a] => Ok a
  | _ => match nth_error aoas i with Some a => Ok a | None => Err IndexError end
  end.
(** 57-110; [cut] is what OpenVSP answers for a plane *)
Fixpoint all_slices (cut : R * R -> list (R * R * R)) (aoas : list R) (i : nat) (machs : list R)
  : result (list (list (R * R))) :=
  match machs with
  | [] => Ok []
  | m :: t =>
      bind (aoa_of aoas i) (fun aoa =>
      bind (slices m aoa (cut (normal m aoa))) (fun s =>
      bind (all_slices cut aoas (S i) t) (fun rest => Ok (s :: rest))))
  end.
