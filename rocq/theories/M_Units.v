(** * Units of measurement

    Sources under /repo/trunk/SUAVE:
      CU = Core/Units.py, UN = Plugins/pint/unit.py, QU = Plugins/pint/quantity.py
    Magnitudes, scales and exponents are reals ([Rpower] for powers; scales are positive).  Exponents printed with '{:n}' and read again become [shown e]
    (six significant digits; [shown] is a parameter).  Symbols, aliases' spelling, logging, contexts and dimensions such as [area] are not modelled here;
    python's recursion limit is the argument [fuel] and RecursionError is GenericException; UndefinedUnitError and DimensionalityError are ValueErrors.
    Definitions stored by [get_name] while a conversion runs are not threaded through that conversion. *)
From Coq Require Import Reals List Bool Arith String Ascii.
From Verif Require Import PyBase.
Import ListNotations.
Local Open Scope R_scope.
Local Open Scope list_scope.

(** UN 242-382: unit names with exponents *)
Definition container := dict R.
(** UN 258-259: __missing__ *)
Definition expo (k : string) (c : container) : R := match dget k c with Some v => v | None => 0 end.
Definition is_zero (v : R) : bool := if Req_EM_T v 0 then true else false.
(** UN 268-273: add; [del] raises KeyError when the key is not there *)
Definition c_add (k : string) (v : R) (c : container) : result container :=
  let n := expo k c + v in if is_zero n then (if dhas k c then Ok (ddel k c) else Err KeyError) else Ok (dset k n c).
(** UN 326-328, 362-364 *)
Definition c_clean (c : container) : container := filter (fun kv => negb (is_zero (snd kv))) c.
(** UN 321-337 *)
Definition c_mul (a b : container) : container := c_clean (fold_left (fun acc kv => dset (fst kv) (expo (fst kv) acc + snd kv) acc) b a).
(** UN 355-374 *)
Definition c_div (a b : container) : container := c_clean (fold_left (fun acc kv => dset (fst kv) (expo (fst kv) acc - snd kv) acc) b a).
(** UN 341-353: entries that become 0 stay *)
Definition c_pow (a : container) (n : R) : container := map (fun kv => (fst kv, snd kv * n)) a.
(** UN 275-279: dict.__eq__ *)
Definition c_eq (a b : container) : bool :=
  Nat.eqb (List.length a) (List.length b) && forallb (fun kv => match dget (fst kv) b with Some v => is_zero (snd kv - v) | None => false end) a.

(** UN 184-217: definition of a unit; [u_offset] is None for a ScaleConverter *)
Record udef := { u_name : string; u_scale : R; u_offset : option R; u_ref : container; u_base : bool }.
(** UN 400-410: units by name, symbol and alias; prefixes by name and symbol, each with name and factor *)
Record registry := { r_units : dict udef; r_prefixes : dict (string * R) }.

Definition endswith (p s : string) : bool :=
  let n := (String.length s - String.length p)%nat in Nat.leb (String.length p) (String.length s) && String.eqb (substring n (String.length p) s) p.
(** UN 410 *)
Definition suffixes : list string := [""%string; "s"%string].
(** UN 907-921: parse_unit_name: prefix and unit, in the order of suffixes, then prefixes *)
Definition candidates (r : registry) (s : string) : list (string * string) :=
  flat_map (fun suf => flat_map (fun p =>
    if startswith (fst p) s && endswith suf s then
      let name := str_drop (String.length (fst p)) s in
      let name' := if String.eqb suf "" then name else substring 0 (String.length name - String.length suf) name in
      if negb (String.eqb suf "") && Nat.eqb (String.length name') 1 then []
      else match dget name' (r_units r) with Some d => [(fst (snd p), u_name d)] | None => [] end
    else []) (r_prefixes r)) suffixes.
(** UN 686-716: get_name; the first candidate is taken (removing duplicates does not change it), and a prefixed unit is stored *)
Definition get_name (r : registry) (s : string) : result (string * registry) :=
  if String.eqb s "dimensionless" then Ok (""%string, r) else
  match dget s (r_units r) with
  | Some d => Ok (u_name d, r)
  | None =>
    match candidates r s with
    | [] => Err ValueError
    | (p, u) :: _ =>
      if String.eqb p "" then Ok (u, r)
      else match dget p (r_prefixes r) with
           | None => Err KeyError
           | Some (_, f) => let name := (p ++ u)%string in
             Ok (name, {| r_units := dset name {| u_name := name; u_scale := f; u_offset := None; u_ref := [(u, 1)]; u_base := false |} (r_units r); r_prefixes := r_prefixes r |})
           end
    end
  end.
(** UN 755, 774, 805-806: name, then self._units[name] *)
Definition resolve (r : registry) (s : string) : result (string * udef) :=
  bind (get_name r s) (fun nr => match dget (fst nr) (r_units (snd nr)) with Some d => Ok (fst nr, d) | None => Err KeyError end).

Definition is_offset (d : udef) : bool := match u_offset d with Some _ => true | None => false end.
(** UN 804-817: one turn of the loop; [sub] is the recursive call *)
Definition base_step (r : registry) (sub : container -> result (option R * container)) (acc : result (option R * container)) (kv : string * R) : result (option R * container) :=
  bind acc (fun fu => bind (resolve r (fst kv)) (fun nd =>
  let factor := if is_offset (snd nd) then None else fst fu in
  if u_base (snd nd) then bind (c_add (fst nd) (snd kv) (snd fu)) (fun u => Ok (factor, u))
  else bind (sub (u_ref (snd nd))) (fun fu' =>
    bind (match factor with None => Ok None | Some f => match fst fu' with Some g => Ok (Some (f * Rpower (u_scale (snd nd) * g) (snd kv))) | None => Err TypeError end end) (fun factor' =>
    Ok (factor', c_mul (snd fu) (c_pow (snd fu') (snd kv))))))).
(** UN 787-817: get_base_units *)
Fixpoint get_base_units (fuel : nat) (r : registry) (c : container) : result (option R * container) :=
  match fuel with
  | O => Err GenericException
  | S f => fold_left (base_step r (get_base_units f r)) c (Ok (Some 1, []))
  end.
(** UN 764-780 (and 746-759, where [many] is false) *)
Definition dims_step (r : registry) (sub : container -> result container) (many : bool) (acc : result container) (kv : string * R) : result container :=
  bind acc (fun dims => bind (resolve r (fst kv)) (fun nd =>
  if u_base (snd nd) then Ok (c_mul dims (c_pow (u_ref (snd nd)) (snd kv)))
  else if many && is_offset (snd nd) then Err ValueError
  else bind (sub (u_ref (snd nd))) (fun d' => Ok (c_mul dims (c_pow d' (snd kv)))))).
(** UN 733-785: get_dimensionality of units *)
Fixpoint get_dimensionality (fuel : nat) (r : registry) (c : container) : result container :=
  match fuel with
  | O => Err GenericException
  | S f => bind (fold_left (dims_step r (get_dimensionality f r) (negb (Nat.eqb (List.length c) 1))) c (Ok [])) (fun d => Ok (ddel "[]" d))
  end.
(** UN 819-879: convert, no context active *)
Definition convert (fuel : nat) (r : registry) (value : R) (src dst : container) : result R :=
  if c_eq src dst then Ok value else
  bind (get_dimensionality fuel r src) (fun _ => bind (get_dimensionality fuel r dst) (fun _ =>
  let scaled := bind (get_base_units fuel r (c_div src dst)) (fun fu =>
    match snd fu with
    | _ :: _ => Err ValueError
    | [] => match fst fu with Some f => Ok (f * value) | None => Err TypeError end
    end) in
  match src with
  | [(k, _)] => bind (resolve r k) (fun nd =>
    match u_offset (snd nd) with
    | None => scaled
    | Some o => match dst with
      | [(k', _)] => bind (resolve r k') (fun nd' => match u_offset (snd nd') with Some o' => Ok ((value / u_scale (snd nd) + o - o') * u_scale (snd nd')) | None => Err ValueError end)
      | _ => Err ValueError
      end
    end)
  | _ => scaled
  end)).
(** UN 923-958: parse_units, from the names and exponents of the expression *)
Definition parse_units (r : registry) (c : container) : result container :=
  let many := Nat.ltb 1 (List.length c) in
  fold_left (fun acc kv => bind acc (fun ret =>
    if String.eqb (fst kv) "dimensionless" then Ok ret
    else bind (resolve r (fst kv)) (fun nd =>
      let cname := if (many || negb (is_zero (Rabs (snd kv) - 1))) && is_offset (snd nd) then ("delta_" ++ fst nd)%string else fst nd in
      Ok (dset cname (snd kv) ret)))) c (Ok []).

(** QU 89-135 *)
Record quantity := { q_mag : R; q_units : container }.
(** UN 430-431: Units.name *)
Definition attribute (r : registry) (s : string) : result quantity := bind (parse_units r [(s, 1)]) (fun c => Ok {| q_mag := 1; q_units := c |}).
(** QU 319-323, 327-339, 370-378 through CU 46-47, 73-74: products, quotients and powers of units *)
Definition q_mul (a b : quantity) : quantity := {| q_mag := q_mag a * q_mag b; q_units := c_mul (q_units a) (q_units b) |}.
Definition q_div (a b : quantity) : quantity := {| q_mag := q_mag a / q_mag b; q_units := c_div (q_units a) (q_units b) |}.
Definition q_pow (a : quantity) (n : R) : quantity := {| q_mag := Rpower (q_mag a) n; q_units := c_pow (q_units a) n |}.
(** CU 28-51 (also __mul__, 83-84): number * unit; the unit itself is changed.  QU 241-249: ito_base_units *)
Definition times_unit (fuel : nat) (r : registry) (q : quantity) (x : R) : result (R * quantity) :=
  bind (get_base_units fuel r (q_units q)) (fun fu => bind (convert fuel r x (q_units q) (snd fu)) (fun m => Ok (m, {| q_mag := m; q_units := snd fu |}))).
Section Shown.
  Variable shown : R -> R.
  (** CU 55-80 (also __truediv__, 85-88): number / unit, and unit / number; the units are printed and parsed again *)
  Definition over_unit (fuel : nat) (r : registry) (q : quantity) (x : R) : result (R * quantity) :=
    bind (get_base_units fuel r (q_units q)) (fun fu => bind (convert fuel r (q_mag q) (q_units q) (snd fu)) (fun _ =>
    bind (parse_units r (map (fun kv => (fst kv, shown (snd kv))) (q_units q))) (fun u => bind (convert fuel r x (snd fu) u) (fun m => Ok (m, {| q_mag := m; q_units := u |}))))).
  (** a sequence of multiplications and divisions with the same unit object: [true] multiplies *)
  Fixpoint in_turn (fuel : nat) (r : registry) (q : quantity) (ops : list (bool * R)) : result (list R) :=
    match ops with
    | [] => Ok []
    | (mul, x) :: rest => bind (if mul then times_unit fuel r q x else over_unit fuel r q x) (fun yq => bind (in_turn fuel r (snd yq) rest) (fun ys => Ok (fst yq :: ys)))
    end.
End Shown.
