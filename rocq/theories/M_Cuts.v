(** * Vortex lattice: control surfaces cut out of wings

    Sources under /repo/trunk/SUAVE/Methods:
      PC = Geometry/Two_Dimensional/Planform/populate_control_sections.py 52-137
      MW = Aerodynamics/Common/Fidelity_Zero/Lift/make_VLM_wings.py 93-215, 373-484, 553-583, 603-692
      GV = Aerodynamics/Common/Fidelity_Zero/Lift/generate_vortex_distribution.py 405, 426-440
      CS = Flight_Dynamics/Static_Stability/Approximations/Supporting_Functions/convert_sweep.py 134-161
    Numbers are reals.  Names of span breaks (span fraction to three decimals, and the numbers of surfaces) are taken as different:
    breaks of one name would replace each other in the ordered containers. *)
From Coq Require Import Reals List Bool Arith ZArith.
From Verif Require Import PyBase M_Opt M_Rot M_Field M_Grid.
Import ListNotations.
Local Open Scope R_scope.

Definition Reqb (x y : R) : bool := if Req_EM_T x y then true else false.

(** ** PC 61-114: the part of a surface from [s] to [e] that lies between the segments at [a] and [b] *)
Definition part_in (s e a b : R) : option (R * R) :=
  if Rltb s a && Rltb e b && Rltb a e then Some (a, e)
  else if Rltb s a && Reqb e b then Some (a, b)
  else if Rltb s a && Rltb b e then Some (a, b)
  else if Reqb s a && Rltb e b then Some (a, e)
  else if Reqb s a && Reqb e b then Some (a, b)
  else if Rltb a s && Rltb e b then Some (s, e)
  else if Rltb a s && Reqb e b then Some (s, b)
  else if Rltb a s && Rltb b e && Rltb s b then Some (s, b)
  else None.
(** 66-134: for each segment but the first; [i] is the number of the segment the list begins with *)
Fixpoint parts (s e : R) (i : nat) (l : list R) : list (nat * (R * R)) :=
  match l with
  | a :: ((b :: _) as r) => match part_in s e a b with Some p => [(S i, p)] | None => [] end ++ parts s e (S i) r
  | _ => []
  end.
(** 120 *)
Definition part_span (span s e : R) (p : R * R) : R := span * (snd p - fst p) / (e - s).

(** ** span breaks *)
(** MW 742-753, one edge: numbers of the surfaces inboard and outboard of the break, -1: none, and the cuts there *)
Record mark := Mark { m_in : Z; m_out : Z; m_cin : R; m_cout : R }.
(** 755-761 *)
Record shape := { f_chord : R; f_twist : R; f_x : R; f_z : R; f_dihedral : R; f_sweep : R }.
Record break := Break { b_y : R; b_le : mark; b_te : mark; b_shape : shape }.
(** a part of a control surface on a segment *)
Record piece := { c_id : Z; c_start : R; c_end : R; c_cut : R; c_from : shape; c_to : shape }.
Definition clean (default : R) : mark := Mark (-1) (-1) default default.
(** MW 635-692: the two breaks; [slat]: on the leading edge.  631-632: those of a segment *)
Definition begins (slat : bool) (c : piece) : break :=
  let m d := Mark (-1) (c_id c) d (c_cut c) in
  Break (c_start c) (if slat then m 0 else clean 0) (if slat then clean 1 else m 1) (c_from c).
Definition finishes (slat : bool) (c : piece) : break :=
  let m d := Mark (c_id c) (-1) (c_cut c) d in
  Break (c_end c) (if slat then m 0 else clean 0) (if slat then clean 1 else m 1) (c_to c).
Definition breaks_of (slat : bool) (l : list piece) : list break := concat (map (fun c => [begins slat c; finishes slat c]) l).
Definition of_segment (s : R * shape) : break := Break (fst s) (clean 0) (clean 1) (snd s).
(** 163-165: sorted keeps the order of equal ones *)
Fixpoint place (x : break) (l : list break) : list break :=
  match l with [] => [x] | y :: r => if Rltb (b_y y) (b_y x) then y :: place x r else x :: l end.
Fixpoint in_order (l : list break) : list break := match l with [] => [] | x :: r => place x (in_order r) end.
(** 553-583; the list is kept with the last break first *)
Definition joined_mark (p q : mark) : mark :=
  Mark (if Z.eqb (m_in p) (-1) then m_in q else m_in p) (if Z.eqb (m_out p) (-1) then m_out q else m_out p)
       (if Z.eqb (m_in p) (-1) then m_cin q else m_cin p) (if Z.eqb (m_out p) (-1) then m_cout q else m_cout p).
Definition joined (p q : break) : break := Break (b_y p) (joined_mark (b_le p) (b_le q)) (joined_mark (b_te p) (b_te q)) (b_shape p).
Definition add_break (acc : list break) (b : break) : list break :=
  match acc with [] => [b] | p :: r => if Rltb (b_y p) (b_y b) then b :: acc else joined p b :: r end.
(** 172-192; None: infinity.  The number of rounds is that of the breaks and one *)
Definition first_y (l : list break) : option R := match l with [] => None | b :: _ => Some (b_y b) end.
Definition upto (x y : option R) : bool :=
  match x, y with Some a, Some b => negb (Rltb b a) | Some _, None => true | None, None => true | None, Some _ => false end.
Fixpoint merge (rounds : nat) (le te seg : list break) (acc : list break) : result (list break) :=
  match rounds with
  | O => Err GenericException
  | S n =>
      let l := first_y le in let t := first_y te in let s := first_y seg in
      match le, te, seg with
      | [], [], [] => Ok (rev acc)
      | _, _, _ =>
          if upto l t && upto l s then match le with b :: r => merge n r te seg (add_break acc b) | [] => Err IndexError end
          else if upto t l && upto t s then match te with b :: r => merge n le r seg (add_break acc b) | [] => Err IndexError end
          else if upto s l && upto s t then match seg with b :: r => merge n le te r (add_break acc b) | [] => Err IndexError end
          else Err ValueError
      end
  end.
(** 203-212: going outboard from a break with a surface [id]; [i += 1] there has no effect on the loop *)
Fixpoint reach (id : Z) (cut : R) (l : list mark) : result (list mark) :=
  match l with
  | [] => Ok []
  | m :: r =>
      if Z.eqb (m_in m) id then Ok l
      else if Z.eqb (m_in m) (-1) then bind (reach id cut r) (fun r' => Ok (Mark id id cut cut :: r'))
      else Err ValueError
  end.
(** 197-212 for one edge; a round for each break *)
Fixpoint fill (rounds : nat) (l : list mark) : result (list mark) :=
  match rounds, l with
  | S n, m :: r =>
      if Z.eqb (m_out m) (-1) then bind (fill n r) (fun r' => Ok (m :: r'))
      else bind (reach (m_out m) (m_cout m) r) (fun r' => bind (fill n r') (fun r'' => Ok (m :: r'')))
  | _, _ => Ok l
  end.
Fixpoint remark (l : list break) (le te : list mark) : list break :=
  match l, le, te with b :: l', m :: le', n :: te' => Break (b_y b) m n (b_shape b) :: remark l' le' te' | _, _, _ => [] end.
(** 121-215 *)
Definition cut_wing (slats others : list piece) (segments : list (R * shape)) : result (list break) :=
  let le := in_order (breaks_of true slats) in let te := in_order (breaks_of false others) in let seg := in_order (map of_segment segments) in
  bind (merge (S (length le + length te + length seg)) le te seg []) (fun l =>
  bind (fill (length l) (map b_le l)) (fun fl =>
  bind (fill (length l) (map b_te l)) (fun ft => Ok (remark l fl ft)))).

(** ** the wing made of a control surface *)
(** what is read of a segment: place along the span from 0 to 1, chord, twist, offsets, dihedral and leading edge sweep outboard, airfoil *)
Record segment := { g_y : R; g_chord : R; g_twist : R; g_x : R; g_z : R; g_dihedral : R; g_sweep : R; g_camber : list (R * R) }.
(** np.interp between two segments *)
Definition along (f : segment -> R) (a b : segment) (y : R) : R := interp y [(g_y a, f a); (g_y b, f b)].
(** CS 134-161 from the leading edge; [half]: half the span of a symmetric wing, else the span *)
Definition new_sweep (half : R) (a b : segment) (new_cf : R) : R :=
  if Req_EM_T 0 new_cf then g_sweep a else
  let taper := g_chord b / g_chord a in
  let ar := half * 2 * (g_y b - g_y a) / (5 / 10 * (g_chord a + g_chord b)) in
  atan (tan (g_sweep a) - 4 * new_cf * (1 - taper) / (ar * (1 + taper))).
(** MW 411, 445-449 *)
Definition cut_origin (w : surface) (half : R) (a b : segment) (start cf : R) (slat : bool) : v3 :=
  let o := w_origin w in
  let x := vx o + (along g_x a b start + (if slat then 0 else (1 - cf) * along g_chord a b start)) in
  if w_vertical w then V3 x (vy o + along g_z a b start) (vz o + start * half) else V3 x (vy o + start * half) (vz o + along g_z a b start).
Definition cut_surface (w : surface) (half : R) (a b : segment) (start cf : R) (slat : bool) : surface :=
  {| w_origin := cut_origin w half a b start cf slat; w_vertical := w_vertical w; w_symmetric := w_symmetric w; w_cut := Some (cf, slat) |}.
(** 403-420, 464-478, 224-227 and GV 363-395: its two sections *)
Definition cut_root (half : R) (a b : segment) (start cf : R) (slat : bool) : station :=
  {| s_y := 0; s_chord := along g_chord a b start * cf; s_twist := along g_twist a b start; s_x := 0; s_z := 0; s_dihedral := g_dihedral a;
     s_sweep := new_sweep half a b (if slat then 0 else 1 - cf); s_camber := g_camber a; s_le := 0; s_te := 1 |}.
Definition cut_tip (half : R) (a b : segment) (start end_ cf : R) (slat : bool) (camber : list (R * R)) : station :=
  {| s_y := half * (end_ - start); s_chord := along g_chord a b end_ * cf; s_twist := along g_twist a b end_;
     s_x := half * (end_ - start) * tan (new_sweep half a b (if slat then 0 else 1 - cf)); s_z := half * (end_ - start) * tan (g_dihedral a); s_dihedral := 0;
     s_sweep := 1 / 100000000; s_camber := camber; s_le := 0; s_te := 1 |}.

(** ** GV 426-440 and MW 453: the stations a surface asks for.
    [st]: the wing's strips, each with the surfaces of its section and the station it starts from; the tip of the surface first, the root of the surface being its 0 *)
Definition asked (half start end_ : R) (id : Z) (st : list (Z * R)) : list R :=
  (end_ * half - start * half) :: map (fun p => snd p - start * half) (filter (fun p => Z.eqb (fst p) id) st).
