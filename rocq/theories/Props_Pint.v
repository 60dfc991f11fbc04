(** * Properties C146-C148: shortest paths, dimensionless groups, dependencies *)
From Coq Require Import List Bool Arith Lia ZArith String QArith Qcanon.
From Verif Require Import PyBase M_Pint S_Pint P_Pint P_Pint2 P_Pint3.
Import ListNotations.
Local Open Scope list_scope.

(** ** C146: the path found is a walk without repetitions, as short as any walk; none is found only when there is none *)
Theorem C146_shortest : forall g s e f, (List.length g < f)%nat -> exists o, find_shortest_path f g s e [] = Ok o /\
  match o with Some p => walk g s e p /\ NoDup p /\ forall q, walk g s e q -> (List.length p <= List.length q)%nat | None => forall q, ~ walk g s e q end.
Proof.
  intros g s e f L. destruct (path_best g e f s []) as (o & E & B); [unfold room; assert (H := filter_length_le (fun k => negb (is_in k [])) (map fst g)); rewrite map_length in H; lia|intros []|]. exists o. split; [exact E|]. destruct o as [p|]; cbn in B.
  - destruct B as [(s' & q & [<-|[]] & (W & N & _) & ->) M]. split; [exact W|]. split; [exact N|]. intros q' W'. destruct (walk_simple g s e q' W') as (q2 & W2 & N2 & L2). specialize (M s q2 (or_introl eq_refl) (conj W2 (conj N2 (fun x _ F => F)))). lia.
  - intros q W. destruct (walk_simple g s e q W) as (q2 & W2 & N2 & _). apply (B s q2 (or_introl eq_refl)). split; [exact W2|]. split; [exact N2|intros x _ []].
Qed.
Definition ring4 : graph := [(1, [2; 5]); (2, [3]); (3, [4; 1]); (5, [4])]%nat.
Example ring4_path : find_shortest_path 5 ring4 1 4 [] = Ok (Some [1; 5; 4]%nat) /\ find_shortest_path 5 ring4 4 1 [] = Ok None.
Proof. split; reflexivity. Qed.

(** ** C147: dimensionless groups *)
Local Open Scope Qc_scope.
Theorem C147_groups : forall qs ds, qs <> [] -> ds <> [] -> NoDup (map fst qs) -> (forall q d, In q qs -> ~ In d ds -> dget d (snd q) = None) -> exists gs, pi_theorem qs ds = Ok gs /\
  (* every group is dimensionless *) (forall g, In g gs -> dimensionless qs (exponent g)) /\
  (* every dimensionless product is a combination of groups *) (forall x, dimensionless qs x -> exists c, List.length c = List.length gs /\ forall name, In name (map fst qs) -> x name = combined gs c name) /\
  (* and no group is a combination of the others *) (forall c, List.length c = List.length gs -> (forall name, In name (map fst qs) -> combined gs c name = 0) -> Forall (fun v => v = 0) c).
Proof. intros qs ds NQ ND NN CV. destruct (pi_spec qs ds NQ ND NN CV) as (gs & E & A & B & C & _). exists gs. split; [exact E|]. split; [exact A|]. split; [exact B|exact C]. Qed.
(** never more negative exponents than positive ones *)
Theorem C147_signs : forall qs ds gs g, qs <> [] -> ds <> [] -> NoDup (map fst qs) -> (forall q d, In q qs -> ~ In d ds -> dget d (snd q) = None) -> pi_theorem qs ds = Ok gs -> In g gs ->
  (List.length (filter negative (map snd g)) <= List.length (filter positive (map snd g)))%nat.
Proof. intros qs ds gs g NQ ND NN CV E I. destruct (pi_spec qs ds NQ ND NN CV) as (gs' & E' & _ & _ & _ & H). rewrite E in E'. injection E' as <-. destruct (H g I) as (l & L & ->). apply group_signs. rewrite map_length. symmetry. exact L. Qed.
(** quantities that all have no dimension are refused *)
Theorem C147_plain_refuted : forall qs, pi_theorem qs [] = Err IndexError.
Proof. reflexivity. Qed.
Definition q (n : Z) : Qc := ofZ n.
Definition halves : list (string * dict Qc) := [("a", [("[L]", q 2)]); ("b", [("[T]", q 3)]); ("c", [("[L]", q 1); ("[T]", q 1)])]%string.
Definition dims : list string := ["[L]"; "[T]"]%string.
Lemma halves_meet : halves <> [] /\ dims <> [] /\ NoDup (map fst halves) /\ forall q d, In q halves -> ~ In d dims -> dget d (snd q) = None.
Proof.
  split; [discriminate|]. split; [discriminate|]. split; [cbn; repeat (apply NoDup_cons; [cbn; intuition discriminate|]); apply NoDup_nil|]. intros p d I N.
  assert (d <> "[L]"%string /\ d <> "[T]"%string) as [N1 N2] by (split; intros ->; apply N; cbn; auto). destruct I as [<-|[<-|[<-|[]]]]; cbn; rewrite ?(proj2 (String.eqb_neq _ _) N1), ?(proj2 (String.eqb_neq _ _) N2); reflexivity.
Qed.
(** the exponents need not be integers: only the largest denominator is cleared *)
Theorem C147_integer_refuted : exists qs ds gs g name, (qs <> [] /\ ds <> [] /\ NoDup (map fst qs) /\ forall q d, In q qs -> ~ In d ds -> dget d (snd q) = None) /\ pi_theorem qs ds = Ok gs /\ In g gs /\ ~ exists z, exponent g name = ofZ z.
Proof.
  assert (C : match pi_theorem halves dims with Ok [g] => Qeq_bool (this (exponent g "a"%string)) (3 # 2) | _ => false end = true) by (vm_compute; reflexivity).
  destruct (pi_theorem halves dims) as [[|g [|]]|] eqn:E; try discriminate C. exists halves, dims, [g], g, "a"%string. split; [exact halves_meet|]. split; [exact E|]. split; [left; reflexivity|]. intros [z Z]. rewrite Z in C. apply Qeq_bool_iff in C. rewrite this_ofZ in C. unfold Qeq, inject_Z in C. cbn in C. lia.
Qed.
(** speed, time, length: one group *)
Example speed : match pi_theorem [("V", [("[L]", q 1); ("[T]", q (-1))]); ("T", [("[T]", q 1)]); ("L", [("[L]", q 1)])]%string dims with Ok [g] => Qeq_bool (this (exponent g "V"%string)) 1 && Qeq_bool (this (exponent g "T"%string)) 1 && Qeq_bool (this (exponent g "L"%string)) (-1) | _ => false end = true.
Proof. vm_compute. reflexivity. Qed.

(** ** C148: dependencies *)
Local Open Scope nat_scope.
(** the result exists exactly when no nodes depend on each other in a circle; otherwise the loop never ends *)
Theorem C148_ends : forall d, NoDup (map fst d) -> ((forall c, ~ knot d c) -> exists r, forall f, fold_right (fun kv n => 1 + List.length (snd kv) + n) 0 d <= f -> solve_dependencies f d = Ok r) /\ ((exists c, knot d c) -> forall f, solve_dependencies f d = Err GenericException).
Proof.
  intros d N. split; [|intros [c K] f; exact (knot_forever f d c N K)]. intro K. destruct (solve_ends (weight d) d N K (le_n _)) as [r E]. exists r. intros f L. change (fold_right (fun kv n => 1 + List.length (snd kv) + n) 0 d) with (weight d) in L. clear K.
  assert (M : forall f g d r, f <= g -> solve_dependencies f d = Ok r -> solve_dependencies g d = Ok r). { clear. induction f as [|f IH]; intros g d r L E; (destruct d as [|kv d]; [destruct g; exact E|]); [discriminate E|]. destruct g as [|g]; [lia|]. cbn [solve_dependencies] in *. destruct (solve_dependencies f (without (layer (kv :: d)) (kv :: d))) as [r'|] eqn:E'; [|discriminate E]. rewrite (IH g _ r' ltac:(lia) E'). exact E. }
  exact (M _ f d r L E).
Qed.
(** every node is in exactly one layer, no layer is empty, and whatever a node needs is in an earlier layer *)
Theorem C148_layers : forall f d r, NoDup (map fst d) -> solve_dependencies f d = Ok r ->
  (forall x, node d x <-> exists n, in_layer r n x) /\ (forall x n m, in_layer r n x -> in_layer r m x -> n = m) /\ ~ In [] r /\ (forall k v i n m, In (k, v) d -> In i v -> in_layer r n i -> in_layer r m k -> n < m).
Proof. intros f d r N E. split; [exact (layers_nodes f d r N E)|]. split; [exact (layers_once f d r N E)|]. split; [exact (layers_full f d r N E)|exact (layers_order f d r N E)]. Qed.
(** a node waits no longer than it must: something it needs is in the layer just before *)
Theorem C148_early : forall f d r, NoDup (map fst d) -> solve_dependencies f d = Ok r -> forall k v n, In (k, v) d -> in_layer r (S n) k -> exists i, In i v /\ in_layer r n i.
Proof.
  induction f as [|f IH]; intros d r N E k v n I L; (destruct d as [|kv d]; [destruct I|]); [discriminate E|]. set (D := kv :: d) in *. pose proof E as E0. rewrite (solve_S f D) in E by discriminate. destruct (solve_dependencies f (without (layer D) D)) as [r'|] eqn:E'; [|discriminate E]. injection E as <-.
  assert (NV : v <> []). { intros ->. pose proof (layers_once (S f) D _ N E0 k (S n) 0 L ltac:(apply layer_O, layer_in; right; exact I)). discriminate. }
  set (v' := filter (fun i => negb (is_in i (layer D))) v). assert (I' : In (k, v') (without (layer D) D)) by (apply without_in; exists v; split; [exact I|split; [exact NV|reflexivity]]). destruct n as [|n].
  - assert (V0 : v' = []). { change (in_layer r' 0 k) in L. destruct v' as [|i w] eqn:EV; [reflexivity|]. exfalso. assert (ND : node (without (layer D) D) i) by (right; apply dep_in; exists k, (i :: w); split; [exact I'|left; reflexivity]). apply (layers_nodes f _ r' (without_nodup _ D N) E') in ND. destruct ND as [m M]. pose proof (layers_order f _ r' (without_nodup _ D N) E' k (i :: w) i m 0 I' (or_introl eq_refl) M L). lia. }
    destruct v as [|i v]; [contradiction|]. exists i. split; [left; reflexivity|]. apply layer_O. apply is_in_true. destruct (is_in i (layer D)) eqn:B; [reflexivity|]. exfalso. unfold v' in V0. cbn [filter] in V0. rewrite B in V0. discriminate V0.
  - destruct (IH _ r' (without_nodup _ D N) E' k v' n I' L) as (i & J & M). exists i. split; [apply filter_In in J; apply J|exact M].
Qed.
Definition jobs : deps := [(1, [2; 3]); (2, [3; 9]); (3, []); (4, [1])].
Example jobs_order : solve_dependencies 20 jobs = Ok [[9; 3]; [2]; [1]; [4]].
Proof. reflexivity. Qed.
Example circle : knot [(1, [2]); (2, [1; 3])] [1; 2].
Proof. split; [discriminate|]. intros k [<-|[<-|[]]]; [exists [2], 2|exists [1; 3], 1]; cbn; auto 10. Qed.
Print Assumptions C146_shortest.
Print Assumptions C147_groups.
Print Assumptions C147_signs.
Print Assumptions C147_plain_refuted.
Print Assumptions C147_integer_refuted.
Print Assumptions C148_ends.
Print Assumptions C148_layers.
Print Assumptions C148_early.
