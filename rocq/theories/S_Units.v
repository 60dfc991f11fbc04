(** * Vocabulary for units: what a unit is worth in base units *)
From Coq Require Import Reals List Bool Arith String.
From Verif Require Import PyBase M_Units.
Import ListNotations.
Local Open Scope R_scope.
Local Open Scope list_scope.

(** [worth r k w e]: by the definitions of [r], one [k] is [w] times the product of the base units [b] to the powers [e b] *)
Inductive worth (r : registry) : string -> R -> (string -> R) -> Prop :=
| worth_base k n d : resolve r k = Ok (n, d) -> u_base d = true -> u_offset d = None -> worth r k 1 (fun b => if String.eqb b n then 1 else 0)
| worth_derived k n d w e : resolve r k = Ok (n, d) -> u_base d = false -> u_offset d = None -> 0 < u_scale d -> Forall (fun kv => snd kv <> 0) (u_ref d) -> worths r (u_ref d) w e -> worth r k (u_scale d * w) e
(** a product of powers of units *)
with worths (r : registry) : container -> R -> (string -> R) -> Prop :=
| worths_nil : worths r [] 1 (fun _ => 0)
| worths_cons k v c w e w' e' : worth r k w e -> worths r c w' e' -> worths r ((k, v) :: c) (Rpower w v * w') (fun b => v * e b + e' b).

(** names stand for the definition of that name *)
Definition named (r : registry) : Prop := dget "dimensionless" (r_units r) = None /\ dget "" (r_units r) = None /\ forall k d, dget k (r_units r) = Some d -> dget (u_name d) (r_units r) = Some d.
(** a product of units as [Units.x], products, quotients and powers give it: each unit once, by its own name, to a power that is not 0 *)
Record tidy_units (r : registry) (c : container) : Prop := {
  t_nodup : NoDup (map fst c); t_nonzero : Forall (fun kv => snd kv <> 0) c; t_own : Forall (fun kv => exists d, resolve r (fst kv) = Ok (fst kv, d)) c }.

(** the exponents survive being printed and read again *)
Definition readable (shown : R -> R) (c : container) : Prop := Forall (fun kv => shown (snd kv) = snd kv) c.
(** what a stored unit gives in a sequence of operations: after the first multiplication it has become the base unit *)
Fixpoint kept (w : R) (ops : list (bool * R)) : list R :=
  match ops with
  | [] => []
  | (true, x) :: rest => x * w :: map snd rest
  | (false, x) :: rest => x / w :: kept w rest
  end.
(** [k] is a temperature scale over the base unit [b]: [s] degrees for one [b], zero at [o] *)
Record degrees (r : registry) (b k : string) (s o : R) : Prop := {
  g_scale : exists d, resolve r k = Ok (k, d) /\ u_base d = false /\ u_offset d = Some o /\ u_scale d = s /\ u_ref d = [(b, 1)];
  g_positive : 0 < s;
  g_base : exists d, resolve r b = Ok (b, d) /\ u_base d = true /\ u_offset d = Some 0 /\ u_scale d = 1 }.
