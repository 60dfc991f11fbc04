(** * Airfoil files: coordinates, interpolated airfoils, polars
    Directory trunk/SUAVE/Methods/Geometry/Two_Dimensional/Cross_Section/Airfoil/:
    AD = import_airfoil_dat.py, AG = import_airfoil_geometry.py, AI = generate_interpolated_airfoils.py, AP = import_airfoil_polars.py, CP = compute_airfoil_properties.py
    A file is the list of its lines, a line the list of its fields; [t_val] is what float answers for a field ([None]: ValueError). Floats are reals. *)
From Coq Require Import Reals List Bool Arith String.
From Verif Require Import PyBase M_Opt P_Opt M_Noise M_Field.
Import ListNotations.
Local Open Scope R_scope.
Local Open Scope list_scope.

Record tok := Tok { t_text : string; t_val : option R }.
Definition line := list tok.
Definition number (t : tok) : result R := match t_val t with Some v => Ok v | None => Err ValueError end.

(** ** import_airfoil_dat *)
Record dat := Dat { d_upper : list (list R); d_lower : list (list R) }.
Inductive section := Upper | Lower.
(** AD 65 *)
Fixpoint numbers (l : line) : result (list R) :=
  match l with [] => Ok [] | t :: r => bind (number t) (fun v => bind (numbers r) (fun vs => Ok (v :: vs))) end.
(** AD 66 *)
Definition add_point (s : section) (p : list R) (d : dat) : dat :=
  match s with Upper => Dat (d_upper d ++ [p]) (d_lower d) | Lower => Dat (d_upper d) (d_lower d ++ [p]) end.
(** AD 48-66: [left] the sections not begun, [cur] the section being read *)
Fixpoint dat_loop (ls : list line) (left : list section) (cur : option section) (d : dat) : result dat :=
  match ls with
  | [] => Ok d
  | [] :: r => match cur with None => dat_loop r left None d | Some _ => dat_loop r left None d end
  | l :: r =>
    match cur with
    | Some s => bind (numbers l) (fun p => dat_loop r left (Some s) (add_point s p d))
    | None => match left with [] => Err IndexError | s :: left' => bind (numbers l) (fun p => dat_loop r left' (Some s) (add_point s p d)) end
    end
  end.
(** AD 37-71: two header lines and a third are skipped; reading past the end gives blank lines *)
Definition import_dat (f : list line) : result dat := dat_loop (skipn 3 f) [Upper; Lower] None (Dat [] []).

(** ** import_airfoil_geometry *)
(** a line: its first character if that is a digit, the number before its first comma, its fields (of the commas see AG 119: they are removed) *)
Record fline := FLine { l_digit : option R; l_comma : option R; l_toks : line }.
(** AG 68-71 *)
Definition flag (l : fline) : result R :=
  match l_toks l with
  | t :: _ => match t_val t with Some v => Ok v | None => match l_comma l with Some v => Ok v | None => Err ValueError end end
  | [] => match l_comma l with Some v => Ok v | None => Err ValueError end
  end.
(** AG 58-80: is it the Lednicer format, and the lines of coordinates; any error at 60 leads to 65 *)
Definition detect (f : list fline) : result (bool * list fline) :=
  match f with
  | FLine (Some v) _ _ :: _ => if Req_EM_T v 1 then Ok (false, f) else Err UnboundLocalError
  | _ => match nth_error f 1 with
         | None => Err IndexError
         | Some l => bind (flag l) (fun v => if Rltb (101 / 100) v then Ok (true, skipn 3 f) else Ok (false, skipn 1 f))
         end
  end.
Notation pt := (R * R)%type.
(** the first two fields as numbers *)
Definition xy (l : fline) : result pt :=
  match l_toks l with
  | [] => Err IndexError
  | t :: r => bind (number t) (fun x => match r with [] => Err IndexError | u :: _ => bind (number u) (fun y => Ok (x, y)) end)
  end.
(** AG 92-104 *)
Fixpoint lednicer (ls : list fline) (up : bool) : result (list pt * list pt) :=
  match ls with
  | [] => Ok ([], [])
  | l :: r =>
    match l_toks l with
    | [] => lednicer r false
    | _ => bind (xy l) (fun p => bind (lednicer r up) (fun s => Ok (if up then (p :: fst s, snd s) else (fst s, p :: snd s))))
    end
  end.
(** python compares strings by their characters *)
Definition text_gt (a b : string) : bool := String.ltb b a.
(** AG 139-145: does the lower surface begin with the next line? *)
Definition turns (l : fline) (r : list fline) : result bool :=
  match r with
  | [] => Err IndexError
  | n :: _ => match l_toks n, l_toks l with
    | tn :: _, t :: _ => if text_gt (t_text tn) (t_text t) then bind (number tn) (fun v => Ok (Rltb 0 v)) else Ok false
    | _, _ => Err IndexError
    end
  end.
(** AG 113-145; the upper surface as read, from the trailing edge *)
Fixpoint selig (ls : list fline) (up : bool) : result (list pt * list pt) :=
  match ls with
  | [] => Ok ([], [])
  | l :: r =>
    bind (xy l) (fun p =>
    if Req_EM_T (fst p) 0 then bind (selig r false) (fun s => Ok (p :: fst s, p :: snd s))
    else if up then bind (turns l r) (fun t => bind (selig r (negb t)) (fun s => Ok (p :: fst s, snd s)))
    else bind (selig r false) (fun s => Ok (fst s, p :: snd s)))
  end.
(** AG 85-157: upper and lower surface from the leading edge *)
Definition surfaces (f : list fline) : result (list pt * list pt) :=
  bind (detect f) (fun d => if fst d then lednicer (snd d) true else bind (selig (snd d) true) (fun s => Ok (rev (fst s), snd s))).
(** AG 160-164: np.unique *)
Fixpoint repeated (l : list R) : bool :=
  match l with [] => false | x :: r => existsb (fun y => if Req_EM_T x y then true else false) r || repeated r end.
Definition trim (s : list pt * list pt) : list pt * list pt := if repeated (map fst (fst s)) then (tl (fst s), tl (snd s)) else s.
(** AG 175-176: the outline handed to the spline *)
Definition outline (s : list pt * list pt) : list pt := rev (snd s) ++ tl (fst s).
(** AG 183-188: what the spline returns is moved so that its first leftmost point is the origin *)
Definition minimum (l : list R) : R := match l with [] => 0 | x :: r => fold_left Rmin r x end.
Fixpoint argmin_y (m : R) (ps : list pt) : R := match ps with [] => 0 | p :: r => if Req_EM_T (fst p) m then snd p else argmin_y m r end.
Definition to_origin (ps : list pt) : list pt :=
  let m := minimum (map fst ps) in let d := argmin_y m ps in map (fun p => (fst p - m, snd p - d)) ps.
(** AG 195-201: the ends are put at 1 and parted *)
Definition part (ps : list pt) : list pt :=
  match ps with
  | [] => []
  | (_, y0) :: r => match rev r with
    | [] => [(1, y0 - 1 / 10000 + 1 / 10000)]
    | (_, yn) :: m => let e := if Req_EM_T y0 yn then 1 / 10000 else 0 in (1, y0 - e) :: rev m ++ [(1, yn + e)]
    end
  end.

(** ** generate_interpolated_airfoils *)
(** AI 51-54 for one airfoil *)
Definition blend (z : R) (a b : list pt) : list pt := map2 (fun p q => (z * (fst q - fst p) + fst p, z * (snd q - snd p) + snd p)) a b.
(** AI 79, 85: [str] is python's str of a float, which float reads back; the digit is that of the text *)
Definition point_line (str : R -> string) (dig com : pt -> option R) (p : pt) : fline := FLine (dig p) (com p) [Tok (str (fst p)) (Some (fst p)); Tok (str (snd p)) (Some (snd p))].
(** AI 63-86: the title begins with "Airfoil", the counts are " 61. 61." *)
Definition written (str : R -> string) (dig com : pt -> option R) (title : line) (u l : list pt) : list fline :=
  FLine None None title :: FLine None None [Tok "61." (Some 61); Tok "61." (Some 61)] :: FLine None None [] ::
  map (point_line str dig com) u ++ FLine None None [] :: map (point_line str dig com) l.
(** AI 38, 61-88: the files between the two, by number *)
Definition transition (str : R -> string) (dig com : pt -> option R) (title : nat -> line) (n : nat) (a b : list pt * list pt) : list (list fline) :=
  map (fun k => let z := nth (S k) (linspace 0 1 n) 0 in written str dig com (title k) (blend z (fst a) (fst b)) (blend z (snd a) (snd b))) (seq 0 (n - 2)).

(** ** import_airfoil_polars *)
(** AP 56-83: a line may carry the Reynolds number or the Mach number or both, the rule "---", a row of the table; it may be empty *)
Inductive pline := PHead (re ma : option R) | PRule | PRow (aoa cl cd : R) | PEmpty | POther.
Record head := Head { p_re : R; p_mach : R; p_rows : list pline }.
Fixpoint scan (all ls : list pline) (re ma : R) : head :=
  match ls with
  | [] => Head re ma all
  | PRule :: r => Head re ma r
  | PHead re' ma' :: r => scan all r (match re' with Some v => v | None => re end) (match ma' with Some v => v | None => ma end)
  | _ :: r => scan all r re ma
  end.
(** AP 67-72 *)
Fixpoint drop_empty (l : list pline) : list pline := match l with PEmpty :: r => drop_empty r | _ => l end.
(** AP 80-83: a line that is no row gives ValueError *)
Fixpoint rows (l : list pline) : result (list (R * R * R)) :=
  match l with [] => Ok [] | PRow a c d :: r => bind (rows r) (fun s => Ok ((a, c, d) :: s)) | _ :: _ => Err ValueError end.
Definition polar_table (f : list pline) : result (R * R * list (R * R * R)) :=
  let h := scan f f 0 0 in
  match drop_empty (rev (p_rows h)) with
  | [] => Err IndexError
  | l => bind (rows (rev l)) (fun t => Ok (p_re h, p_mach h, t))
  end.
(** AP 85-87 at one angle *)
Definition polar_at (t : list (R * R * R)) (a : R) : R * R :=
  (interp a (map (fun r => (fst (fst r), snd (fst r))) t), interp a (map (fun r => (fst (fst r), snd r)) t)).
Fixpoint tables (fs : list (list pline)) : result (list (R * R * list (R * R * R))) :=
  match fs with [] => Ok [] | f :: r => bind (polar_table f) (fun t => bind (tables r) (fun ts => Ok (t :: ts))) end.
(** AP 33-95: for each file the Reynolds number, the Mach number and the values at the angles from -6 to 16 degrees *)
Definition import_polars (n : nat) (fs : list (list pline)) : result (list (R * R * list (R * R))) :=
  if Nat.ltb (List.length fs) 3 then Err AttributeError
  else bind (tables fs) (fun ts => Ok (map (fun t => (fst (fst t), snd (fst t), map (polar_at (snd t)) (linspace (-6) 16 n))) ts)).

(** ** compute_airfoil_properties: apply_pre_stall_data *)
(** CP 255: the value of the first nearest entry *)
Fixpoint nearest (a best val : R) (t : list (R * R)) : R :=
  match t with [] => val | (x, v) :: r => if Rltb (Rabs (a - x)) best then nearest a (Rabs (a - x)) v r else nearest a best val r end.
Definition pick (a : R) (t : list (R * R)) : R := match t with [] => 0 | (x, v) :: r => nearest a (Rabs (a - x)) v r end.
Definition first_x (t : list (R * R)) : R := fst (hd (0, 0) t).
Definition last_x (t : list (R * R)) : R := fst (last t (0, 0)).
(** CP 251-252 *)
Definition inside (t : list (R * R)) (a : R) : bool := negb (Rltb a (first_x t)) && negb (Rltb (last_x t) a).
(** CP 251-256: measured values over the extended ones; [av] the angles with the extended values *)
Definition overlay (t : list (R * R)) (av : list (R * R)) : list R := map (fun p => if inside t (fst p) then pick (fst p) t else snd p) av.
(** CP 259-260: first and last index of a value *)
Fixpoint first_of (v : R) (l : list R) : option nat := match l with [] => None | x :: r => if Req_EM_T x v then Some O else option_map S (first_of v r) end.
Fixpoint last_of (v : R) (l : list R) : option nat :=
  match l with [] => None | x :: r => match last_of v r with Some i => Some (S i) | None => if Req_EM_T x v then Some O else None end end.
(** CP 261-262 *)
Definition raise_ends (lb ub : nat) (cd : list R) : list R :=
  let c1 := map (fun p => if Nat.ltb (fst p) lb then Rmax (snd p) (nth lb cd 0) else snd p) (combine (seq 0 (List.length cd)) cd) in
  map (fun p => if Nat.ltb (fst p) ub then snd p else Rmax (snd p) (nth ub c1 0)) (combine (seq 0 (List.length c1)) c1).
Definition pre_stall_data (cl cd : list (R * R)) (avl avd : list (R * R)) : result (list R * list R) :=
  let CL := overlay cl avl in let CD := overlay cd avd in
  match first_of (snd (hd (0, 0) cd)) CD, last_of (snd (last cd (0, 0))) CD with
  | Some lb, Some ub => Ok (CL, raise_ends lb ub CD)
  | _, _ => Err IndexError
  end.
