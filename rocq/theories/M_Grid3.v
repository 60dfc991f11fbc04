(** Model of the grids of points behind a wing and at a propeller, and of the
    viscous deficit of a wing's wake
    (Methods/Aerodynamics/Common/Fidelity_Zero/Lift). *)
From Coq Require Import Reals List Bool Arith String.
From Verif Require Import PyBase M_Opt M_Noise.
Import ListNotations.
Local Open Scope R_scope.

(** ** generate_wing_wake_grid.py *)
(** 43-49; the arguments are the half span, [H], [hf], [Nzo], [Nzf] *)
Definition zline (half H hf : R) (Nzo Nzf : nat) : list R :=
  linspace (- H * half) (- hf) (Nzo / 2)
  ++ map (fun t => - hf * t) (rev (map (fun s => 1 - cos (s * PI / 2)) (linspace (1 / 1000000) 1 Nzf)))
  ++ map (fun s => hf * (1 - cos (s * PI / 2))) (linspace 0 1 Nzf)
  ++ linspace hf (H * half) (Nzo / 2).
(** 52-62; [ypts] are the spanwise places of the strips, right half first *)
Definition semispan (half L : R) (Nyo : nat) (ypts : list R) : list R :=
  let y := firstn (List.length ypts / 2) ypts in
  if Rltb L 1 then filter (fun v => Rltb v (L * half)) y
  else y ++ map (fun v => v * half) (linspace (101 / 100) L (Nyo / 2)).
(** 64 *)
Definition yline (half L : R) (Nyo : nat) (ypts : list R) : list R :=
  let y := semispan half L Nyo ypts in rev (map Ropp y) ++ y.
(** 67-69: [np.repeat], [np.tile], and a constant *)
Definition repeat_each (l : list R) (n : nat) : list R := flat_map (fun v => repeat v n) l.
Fixpoint tile (l : list R) (n : nat) : list R :=
  match n with O => [] | S k => l ++ tile l k end.
Record wgrid : Type := mk_wgrid {
  g_x : list R; g_y : list R; g_z : list R; g_yline : list R; g_zline : list R }.
(** 31-76 *)
Definition wake_grid (span H L hf x_plane : R) (Nzo Nzf Nyo : nat) (ypts : list R) : wgrid :=
  let half := span / 2 in
  let zl := zline half H hf Nzo Nzf in
  let yl := yline half L Nyo ypts in
  let yc := repeat_each yl (List.length zl) in
  mk_wgrid (map (fun _ => x_plane) yc) yc (tile zl (List.length yl)) yl zl.

(** ** generate_propeller_grid.py *)
(** the radial part of the grid's settings (44-58), the cartesian one (60-72),
    and any other text *)
Inductive gmode : Type :=
| Radial (Rh : R) (Nr : nat) | Cartesian (Ny Nz : nat) | Other.
(** 41-42, 49-55: the rows of the mesh one after the other *)
Definition radial_mesh (R0 Rh : R) (Na Nr : nat) : list (R * R) :=
  flat_map (fun psi => map (fun r => (r * cos psi, r * sin psi)) (linspace Rh (99 / 100 * R0) Nr))
    (firstn Na (linspace 0 (2 * PI) (Na + 1))).
(** 61-72: a mask flattens the mesh, rows first *)
Definition cart_mesh (R0 : R) (Ny Nz : nat) : list (R * R) :=
  filter (fun p => Rltb (sqrt (fst p ^ 2 + snd p ^ 2)) R0)
    (flat_map (fun y => map (fun z => (y, z)) (linspace (- R0) R0 Nz)) (linspace (- R0) R0 Ny)).
(** 32-77; [origins] are the propellers' origins, as (y, z) *)
Definition prop_grid (origins : list (R * R)) (R0 : R) (Na : nat) (m : gmode) : result (list (R * R)) :=
  match origins with
  | a :: b :: _ =>
      let dy := fst b - fst a in
      let dz := snd b - snd a in
      let shift := map (fun p : R * R => (fst p + dy, snd p + dz)) in
      match m with
      | Radial Rh Nr => Ok (shift (radial_mesh R0 Rh Na Nr))
      | Cartesian Ny Nz => Ok (shift (cart_mesh R0 Ny Nz))
      | Other => Err UnboundLocalError
      end
  | _ => Err IndexError
  end.

(** ** compute_wing_wake.py *)
(** 106 *)
Definition chord_at (span croot ctip y : R) : R :=
  croot - (croot - ctip) * (Rabs y / (1 / 2 * span)).
(** 109-115 *)
Definition theta_turb (V nu xdev : R) : R :=
  36 / 1000 * xdev / Rpower (V * xdev / nu) (1 / 5).
(** 116 *)
Definition x_theta (theta xdev chord : R) : R := (xdev - chord) / theta.
(** 119 *)
Definition peak (V xt : R) : R := V / sqrt (4 * PI * (32 / 1000) * xt).
(** 120 *)
Definition width (theta xt : R) : R := 2 * theta * sqrt (16 * (32 / 1000) * ln 2 * xt).
(** 121 *)
Definition bell (w0 b z : R) : R := w0 * exp (-4 * ln 2 * (Rabs z / b) ^ 2).
(** 100-121 for one point (x,y,z), the plane being at the same x.  [None] is
    nan: the boundary layer has no length (0/0), or the square roots are of
    zero or less (infinity times zero, or nan).  The speed, the viscosity and
    the span are positive. *)
Definition deficit (viscous : bool) (span croot ctip x0 V nu x y z : R) : option R :=
  if viscous && negb (Rltb x x0) then
    if Rltb (Rabs y) (1 / 2 * span) then
      let xdev := x - x0 in
      let c := chord_at span croot ctip y in
      let th := theta_turb V nu xdev in
      let xt := x_theta th xdev c in
      if Rltb 0 xdev && Rltb 0 xt then Some (bell (peak V xt) (width th xt) z) else None
    else Some 0
  else Some 0.
(** 124 *)
Definition u_wake (u V : R) (d : option R) : option R :=
  match d with Some v => Some (u - v / V) | None => None end.
