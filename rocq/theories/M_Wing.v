(** * Model of the wing planform calculations

    Source: /repo/trunk/SUAVE/Methods/Geometry/Two_Dimensional/Planform/wing_planform.py 18-135
            .../Planform/wing_segmented_planform.py 19-320
            .../Planform/populate_control_sections.py 20-137
            .../Planform/wing_fuel_volume.py 11-42
            .../Three_Dimensional/compute_chord_length_from_span_location.py 13-45
            .../Three_Dimensional/compute_span_location_from_chord_length.py 13-49

    Simplifications: numbers are reals, so there is no rounding and no inf or nan; the places where
    the code relies on nan are cited below.  Arguments are records instead of Data objects, the
    results are returned instead of stored on the wing. *)
From Coq Require Import Reals List Bool.
From Verif Require Import M_Opt.
Import ListNotations.
Local Open Scope R_scope.
Local Open Scope list_scope.

(** ** wing_planform *)

(** the attributes of wing.control_surfaces.flap read at 110-120 *)
Record flap := Flap { f_start : R; f_end : R; f_chord_fraction : R }.

(** the attributes of the wing read at 63-71; [w_flap] is [Some] when wing.high_lift is set (105-106) *)
Record wing := Wing {
  w_sref : R; w_taper : R; w_sweep : R; w_ar : R; w_tc : R; w_dihedral : R;
  w_vertical : bool; w_symmetric : bool; w_flap : option flap }.

(** the attributes of the flap written at 116 and 119 *)
Record flap_out := FlapOut { o_chord : R; o_area : R }.

(** the attributes of the wing written at 123-133 *)
Record planform := Planform {
  p_root : R; p_tip : R; p_mac : R; p_mgc : R; p_le : R; p_wetted : R; p_affected : R;
  p_span : R; p_span_total : R; p_center : R * R * R; p_length : R; p_flap : option flap_out }.

(** wing_planform 18-135.  [**.5] is the real square root: for a negative product python would go
    complex, which is left out. *)
Definition wing_planform (w : wing) : planform :=
  let sref := w_sref w in let taper := w_taper w in let ar := w_ar w in
  (* 74-78 *)
  let span := sqrt (ar * sref) in
  let span_total := span / cos (w_dihedral w) in
  let chord_root := 2 * sref / span / (1 + taper) in
  let chord_tip := taper * chord_root in
  let mgc := (chord_root + chord_tip) / 2 in
  (* 80 *)
  let swet := 2 * span / 2 * (chord_root + chord_tip) * (1 + (2/10) * w_tc w) in
  (* 82 *)
  let mac := 2 / 3 * (chord_root + chord_tip - chord_root * chord_tip / (chord_root + chord_tip)) in
  (* 85 *)
  let le_sweep := atan (tan (w_sweep w) - 4 / ar * (0 - (25/100)) * (1 - taper) / (1 + taper)) in
  (* 88-90 *)
  let y := span / 6 * ((1 + 2 * taper) / (1 + taper)) in
  let x := mac * (25/100) + y * tan le_sweep in
  let z := y * tan (w_dihedral w) in
  (* 92-95 *)
  let (y, z) := if w_vertical w then (z, y) else (y, z) in
  (* 97-98 *)
  let y := if w_symmetric w then 0 else y in
  (* 101 *)
  let total_length := tan le_sweep * span / 2 + chord_tip in
  (* 104-120 *)
  let (affected, fl) :=
    match w_flap w with
    | None => (0, None)
    | Some f =>
        let delta := chord_tip - chord_root in
        let c_start := chord_root + delta * f_start f in
        let c_end := chord_root + delta * f_end f in
        let mac_flap := 2 / 3 * (c_start + c_end - c_start * c_end / (c_start + c_end)) in
        let fc_start := c_start * f_chord_fraction f in
        let fc_end := c_end * f_chord_fraction f in
        ((c_start + c_end) * (f_end f - f_start f) * span / 2,
         Some (FlapOut (mac_flap * f_chord_fraction f)
                       ((fc_start + fc_end) * (f_end f - f_start f) * span / 2)))
    end in
  Planform chord_root chord_tip mac mgc le_sweep swet affected span span_total (x, y, z) total_length fl.

(** ** wing_segmented_planform *)

(** the attributes of a segment read at 70-77 (the twist is collected but never used) *)
Record seg := Seg { s_loc : R; s_chord : R; s_sweep : R; s_tc : R; s_dihedral : R }.

(** neighbouring segments: the arrays [:-1] and [1:] zipped *)
Definition panels (l : list seg) : list (seg * seg) := combine l (tl l).
(** numpy.sum *)
Definition total (l : list R) : R := fold_right Rplus 0 l.
Definition sumover (f : seg * seg -> R) (l : list seg) : R := total (map f (panels l)).

(** 1+sym *)
Definition sides (sym : bool) : R := if sym then 2 else 1.

(** 87, 88: length of a panel as a fraction of the semispan, and in metres *)
Definition len_ndim (p : seg * seg) : R := s_loc (snd p) - s_loc (fst p).
Definition len_dim (semispan : R) (p : seg * seg) : R := len_ndim p * semispan.
(** 89, for the inner and the outer end of a panel *)
Definition c_in (RC : R) (p : seg * seg) : R := RC * s_chord (fst p).
Definition c_out (RC : R) (p : seg * seg) : R := RC * s_chord (snd p).
(** 90 *)
Definition panel_taper (p : seg * seg) : R := s_chord (snd p) / s_chord (fst p).
(** 93 *)
Definition area (semispan RC : R) (p : seg * seg) : R :=
  len_dim semispan p * c_in RC p - (c_in RC p - c_out RC p) * (len_dim semispan p / 2).
(** 96 *)
Definition wet (semispan RC : R) (p : seg * seg) : R :=
  2 * (1 + (2/10) * s_tc (fst p)) * area semispan RC p.
(** 113-118.  B is zero or undefined exactly when the chord is constant or the panel has no length;
    numpy then gets nan (0/0, or 0*inf) and 118 replaces it. *)
Definition chord_squared (RC : R) (p : seg * seg) : R :=
  let A := c_in RC p in
  if Req_EM_T A (c_out RC p) then A ^ 2 * len_ndim p
  else if Req_EM_T (len_ndim p) 0 then A ^ 2 * len_ndim p
  else
    let B := (A - c_out RC p) / (- len_ndim p) in
    let C := s_loc (fst p) in
    ((A + B * (s_loc (snd p) - C)) ^ 3 - (A + B * (s_loc (fst p) - C)) ^ 3) / (3 * B).
(** 131-133 *)
Definition panel_le (semispan RC : R) (p : seg * seg) : R :=
  atan ((c_in RC p / 4 + tan (s_sweep (fst p)) * len_dim semispan p - c_out RC p / 4) / len_dim semispan p).

(** segment_centroid 286-320, without the shift by (dx,dy,dz) *)
Definition segment_centroid (le_sweep seg_span taper dihedral root_chord tip_chord : R) : R * R * R :=
  let a := tip_chord in
  let b := root_chord in
  let c := tan le_sweep * seg_span in
  let cx := (2 * a * c + a ^ 2 + c * b + a * b + b ^ 2) / (3 * (a + b)) in
  let cy := seg_span / 3 * ((1 + 2 * taper) / (1 + taper)) in
  let cz := cy * tan dihedral in
  (cx, cy, cz).

(** 140-149: the moment of the panels' areas about the root leading edge, that is
    np.dot(np.transpose(Cxys),As).  The running offsets dx, dy, dz are the cumulative sums of
    140-142, carried along instead of stored in arrays. *)
Fixpoint moments (semispan RC dx dy dz : R) (ps : list (seg * seg)) : R * R * R :=
  match ps with
  | [] => (0, 0, 0)
  | p :: rest =>
      let le := panel_le semispan RC p in
      let L := len_dim semispan p in
      let '(cx, cy, cz) := segment_centroid le L (panel_taper p) (s_dihedral (fst p)) (c_in RC p) (c_out RC p) in
      let A := area semispan RC p in
      let '(mx, my, mz) :=
        moments semispan RC (dx + tan le * L) (dy + L) (dz + tan (s_dihedral (fst p)) * L) rest in
      ((cx + dx) * A + mx, (cy + dy) * A + my, (cz + dz) * A + mz)
  end.

(** what the wing holds before and after: the attributes that 162-177 and 277-281 may write *)
Record areas := Areas { a_reference : R; a_wetted : R; a_ar : R }.
Record segmented := Segmented {
  g_total_span : R; g_mgc : R; g_mac : R; g_tip : R; g_taper : R; g_c4 : R; g_le : R; g_tc : R;
  g_center : R * R * R; g_side_center : R * R * R; g_length : R }.

(** wing_segmented_planform 59-177.  [None] is the IndexError of chords[-1] (122) on a wing without
    segments.  A wing with a single segment has no panel; python then divides by a zero area and
    carries on with inf and nan, the reals do not. *)
Definition segmented_planform (span RC : R) (sym : bool) (l : list seg) (overwrite : bool) (old : areas)
  : option (segmented * areas) :=
  match l with
  | [] => None
  | first :: _ =>
      let semispan := span / sides sym in
      let wet_area := sumover (wet semispan RC) l in
      let one_side := sumover (area semispan RC) l in
      let ref_area := one_side * sides sym in
      let AR := span ^ 2 / ref_area in
      let total_len := sumover (fun p => len_dim semispan p / cos (s_dihedral (fst p))) l * sides sym in
      let mgc := ref_area / span in
      let MAC := semispan * sides sym / ref_area * sumover (chord_squared RC) l in
      let tip := last l first in
      let lamda := s_chord tip / s_chord first in
      let ct := RC * s_chord tip in
      let t_c := sumover (fun p => area semispan RC p * s_tc (fst p)) l / (ref_area / 2) in
      let c4 := atan (sumover (fun p => len_ndim p * tan (s_sweep (fst p))) l) in
      let le := atan (sumover (fun p => len_ndim p * tan (panel_le semispan RC p)) l) in
      let '(mx, my, mz) := moments semispan RC 0 0 0 (panels l) in
      let a := ref_area / sides sym in
      let '(ax, ay, az) := (mx / a, my / a, mz / a) in
      let side := (ax - MAC * (25/100), ay, az) in
      let center := (ax - MAC * (25/100), if sym then 0 else ay, az) in
      let total_length := tan le * semispan + s_chord tip * RC in
      Some (Segmented total_len mgc MAC ct lamda c4 le t_c center side total_length,
            if overwrite then Areas ref_area wet_area AR else old)
  end.

(** segment_properties 184-283: what is written on each segment but the last *)
Record seg_out := SegOut { q_taper : R; q_mac : R; q_reference : R; q_exposed : R; q_wetted : R }.

(** 236-272: the loop body; [inner] is the test i_segs == 0 *)
Definition seg_properties (semispan RC offset t_c : R) (sym inner : bool) (p : seg * seg) : seg_out :=
  let span_seg := len_dim semispan p in
  let chord_root := c_in RC p in
  let chord_tip := c_out RC p in
  let wing_root := if inner then chord_root + offset * ((chord_tip - chord_root) / span_seg) else chord_root in
  let taper := chord_tip / wing_root in
  let mac := wing_root * 2 / 3 * ((1 + taper + taper ^ 2) / (1 + taper)) in
  let Sref := span_seg * (chord_root + chord_tip) * (5/10) in
  let Sexp := if inner then (span_seg - offset) * (wing_root + chord_tip) * (5/10) else Sref in
  let Sref := if sym then Sref * 2 else Sref in
  let Sexp := if sym then Sexp * 2 else Sexp in
  let Swet := if Rltb t_c (5/100) then (2003/1000) * Sexp else ((1977/1000) + (52/100) * t_c) * Sexp in
  SegOut taper mac Sref Sexp Swet.
Definition all_properties (semispan RC offset t_c : R) (sym : bool) (l : list seg) : list seg_out :=
  match panels l with
  | [] => []
  | p :: rest =>
      seg_properties semispan RC offset t_c sym true p
      :: map (seg_properties semispan RC offset t_c sym false) rest
  end.
(** 224-283, with the two update flags *)
Definition segment_properties (span RC offset t_c : R) (sym : bool) (l : list seg)
    (update_wet update_ref : bool) (old : areas) : list seg_out * areas :=
  let semispan := span * (5/10) * (2 - (if sym then 1 else 0)) in
  let qs := all_properties semispan RC offset t_c sym l in
  let ref := total (map q_reference qs) in
  let wet := total (map q_wetted qs) in
  (qs,
   Areas (if orb (if Req_EM_T (a_reference old) 0 then true else false) update_ref then ref else a_reference old)
         (if orb (if Req_EM_T (a_wetted old) 0 then true else false) update_wet then wet else a_wetted old)
         (a_ar old)).

(** wing_segmented_planform 19-182, ending with the call to segment_properties (180) with both
    flags off; the thickness it reads (225) is the one stored at 174 *)
Definition wing_segmented_planform (span RC offset : R) (sym : bool) (l : list seg) (overwrite : bool) (old : areas)
  : option (segmented * list seg_out * areas) :=
  match segmented_planform span RC sym l overwrite old with
  | None => None
  | Some (g, a) =>
      let '(qs, a') := segment_properties span RC offset (g_tc g) sym l false false a in
      Some (g, qs, a')
  end.

(** ** populate_control_sections *)

(** a control surface: the attributes copied at 119-132.  The remaining ones (hinge fraction, chord
    fraction, sign, deflection, configuration, gain, type and class) are copied unchanged and are
    lumped into [k_rest]. *)
Record control := Control { k_tag : nat; k_span : R; k_start : R; k_end : R; k_rest : nat }.

(** 74-114: where the part of a surface from [sf0] to [sf1] lies on the panel from [l] to [r] *)
Definition overlap (sf0 sf1 l r : R) : option (R * R) :=
  if andb (Rltb sf0 l) (andb (Rltb sf1 r) (Rltb l sf1)) then Some (l, sf1)          (* 74 *)
  else if andb (Rltb sf0 l) (if Req_EM_T sf1 r then true else false) then Some (l, r) (* 79 *)
  else if andb (Rltb sf0 l) (Rltb r sf1) then Some (l, r)                             (* 84 *)
  else if andb (if Req_EM_T sf0 l then true else false) (Rltb sf1 r) then Some (l, sf1) (* 89 *)
  else if andb (if Req_EM_T sf0 l then true else false) (if Req_EM_T sf1 r then true else false)
       then Some (l, r)                                                               (* 94 *)
  else if andb (Rltb l sf0) (Rltb sf1 r) then Some (sf0, sf1)                         (* 99 *)
  else if andb (Rltb l sf0) (if Req_EM_T sf1 r then true else false) then Some (sf0, r) (* 104 *)
  else if andb (Rltb l sf0) (andb (Rltb r sf1) (Rltb sf0 r)) then Some (sf0, r)       (* 109 *)
  else None.                                                                          (* 113 *)

(** 118-132 *)
Definition part (cs : control) (s : R * R) : control :=
  Control (k_tag cs) (k_span cs * (snd s - fst s) / (k_end cs - k_start cs)) (fst s) (snd s) (k_rest cs).

(** 66-134, for one control surface: the inner loop over the segments.  [locs] are the segments'
    percent_span_location, [held] the surfaces already on each segment; a segment receives the part
    between its predecessor's break and its own, the root segment none (70). *)
Fixpoint attach (cs : control) (prev : option R) (segs : list (R * list control)) : list (R * list control) :=
  match segs with
  | [] => []
  | (r, held) :: rest =>
      let held' := match prev with
                   | None => held
                   | Some l => match overlap (k_start cs) (k_end cs) l r with
                               | Some s => held ++ [part cs s]
                               | None => held
                               end
                   end in
      (r, held') :: attach cs (Some r) rest
  end.
(** 52-137.  Appending to a segment's container never renames or replaces: the tags of the
    surfaces of one wing are distinct, being keys of wing.control_surfaces. *)
Definition populate (w_cs : list control) (locs : list R) : list (R * list control) :=
  fold_left (fun segs cs => attach cs None segs) w_cs (map (fun x => (x, [])) locs).

(** ** Chord and span *)

(** compute_chord_length_from_span_location 36-45 *)
Definition chord_at (root tip b y : R) : R :=
  let b_2 := b / 2 in tip + (root - tip) / b_2 * (b_2 - y).
(** compute_span_location_from_chord_length 37-49 *)
Definition span_at (root tip b c : R) : R :=
  let b_2 := b / 2 in
  if Req_EM_T (root - tip) 0 then 0 else b_2 * (1 - (c - tip) / (root - tip)).

(** wing_fuel_volume 34-42: sref**1.5 * ar**-0.5 *)
Definition fuel_volume (sref ar tc : R) : R :=
  (90/100) * tc * Rpower sref (15/10) * Rpower ar (- (5/10)) * (55/100).
