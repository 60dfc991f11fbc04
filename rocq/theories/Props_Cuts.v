(** * Properties C131-C133: control surfaces cut out of a wing *)
From Coq Require Import Reals List Bool Arith ZArith Lra Lia Sorted Permutation.
From Verif Require Import PyBase M_Opt M_Rot M_Noise M_Evtol M_Vlm M_Field M_Grid M_Cuts S_Grid S_Cuts P_Opt P_Field P_Grid P_Cuts P_Cuts2 P_Cuts3 P_Cuts4 Props_Grid.
Import ListNotations.
Local Open Scope R_scope.

(** ** C131 *)
(** the exception: a surface that starts where a segment does and goes past the next *)
Definition starts_long (s e : R) (l : list R) : Prop := exists j, (S j < length l)%nat /\ s = nth j l 0 /\ nth (S j) l 0 < e.
Lemma not_long s e l : ~ starts_long s e l -> forall j, (S j < length l)%nat -> ~ (s = nth j l 0 /\ nth (S j) l 0 < e).
Proof. intros N j J [A B]. apply N. exists j. auto. Qed.
(** each part is what the surface and a segment have in common *)
Theorem C131_parts : forall s e l k p, s < e -> ascending l -> ~ starts_long s e l -> In (k, p) (parts s e 0 l) ->
  (0 < k < length l)%nat /\ fst p < snd p /\ fst p = Rmax s (nth (k - 1) l 0) /\ snd p = Rmin e (nth k l 0).
Proof.
  intros s e l k p SE A N I. apply ascending_iff in A. destruct (parts_in s e SE l 0 k p A I (not_long _ _ _ N)) as (K & F & _ & _ & _ & _ & P & Q). replace (k - 0 - 1)%nat with (k - 1)%nat in P by lia. replace (k - 0)%nat with k in Q by lia.
  split; [lia|]. auto.
Qed.
(** one part at most on a segment *)
Theorem C131_once : forall s e l, NoDup (map fst (parts s e 0 l)).
Proof.
  intros s e l. assert (K : forall l i, NoDup (map fst (parts s e i l)) /\ forall k, In k (map fst (parts s e i l)) -> (i < k)%nat).
  { clear l. induction l as [|a r IH]; intro i; [split; [constructor|intros ? []]|]. destruct r as [|b r]; [split; [constructor|intros ? []]|]. rewrite parts_cons. destruct (IH (S i)) as [N B]. destruct (part_in s e a b) as [p|]; cbn [app map fst].
    - split; [constructor; [intro I; apply B in I; lia|exact N]|]. intros k [<-|I]; [lia|]. apply B in I. lia.
    - split; [exact N|]. intros k I. apply B in I. lia. }
  apply K.
Qed.
(** nothing of the surface is lost, and the parts have its span between them *)
Theorem C131_whole : forall s e l span, s < e -> ascending l -> l <> [] -> ~ starts_long s e l -> hd 0 l <= s -> e <= last l 0 ->
  (forall y, s <= y < e -> exists k p, In (k, p) (parts s e 0 l) /\ fst p <= y < snd p) /\
  total (map (fun p => snd (snd p) - fst (snd p)) (parts s e 0 l)) = e - s /\
  total (map (fun p => part_span span s e (snd p)) (parts s e 0 l)) = span.
Proof.
  intros s e l span SE A NE N HD LA. apply ascending_iff in A. pose proof (not_long _ _ _ N) as N'. split; [|split].
  - intros y Y. apply (parts_cover s e y SE ltac:(lra) l 0 A NE N'); [rewrite Rmax_left by exact HD|lra|]; lra.
  - pose proof (parts_long s e SE l 0%nat A NE N' LA) as L. unfold longs in L. rewrite L, (Rmax_left s) by exact HD. apply Rmax_right. lra.
  - pose proof (parts_long s e SE l 0%nat A NE N' LA) as L. rewrite (Rmax_left s) in L by exact HD. rewrite Rmax_right in L by lra. unfold longs in L.
    assert (T : forall q, total (map (fun p => part_span span s e (snd p)) q) = span * total (map (fun p : nat * (R * R) => snd (snd p) - fst (snd p)) q) / (e - s)).
    { unfold total. induction q as [|p q IH]; cbn [map fold_right]; [field; lra|]. rewrite IH. unfold part_span. field. lra. }
    rewrite T, L. field. lra.
Qed.
Example C131_case : let l := [0; 1 / 2; 1] in ascending l /\ ~ starts_long (1 / 4) (3 / 4) l /\ parts (1 / 4) (3 / 4) 0 l = [(1%nat, (1 / 4, 1 / 2)); (2%nat, (1 / 2, 3 / 4))].
Proof.
  cbv zeta. split; [apply ascending_iff; repeat constructor; lra|]. split.
  - intros (j & J & E & _). cbn in J. destruct j as [|[|j]]; cbn in E; try lra; lia.
  - rewrite !parts_cons. rewrite !part_in_spec by lra. cbn [parts app]. unfold Rmax, Rmin. repeat match goal with |- context [Rle_dec ?x ?y] => destruct (Rle_dec x y); try (exfalso; lra) end. repeat match goal with |- context [Rlt_dec ?x ?y] => destruct (Rlt_dec x y); try (exfalso; lra) end. reflexivity.
Qed.
(** a surface along the whole span of a wing of two parts is left out of the first *)
Theorem C131_start_refuted : exists s e l, s < e /\ ascending l /\ hd 0 l <= s /\ e <= last l 0 /\ parts s e 0 l = [(2%nat, (1 / 2, 1))] /\ ~ (exists k p, In (k, p) (parts s e 0 l) /\ fst p <= 0 < snd p) /\ s <= 0 < e.
Proof.
  exists 0, 1, [0; 1 / 2; 1]. assert (P : parts 0 1 0 [0; 1 / 2; 1] = [(2%nat, (1 / 2, 1))]).
  { rewrite !parts_cons. rewrite (part_lost 0 1 0 (1 / 2)) by lra. rewrite part_in_spec by lra. cbn [parts app]. unfold Rmax, Rmin. repeat match goal with |- context [Rle_dec ?x ?y] => destruct (Rle_dec x y); try (exfalso; lra) end. repeat match goal with |- context [Rlt_dec ?x ?y] => destruct (Rlt_dec x y); try (exfalso; lra) end. reflexivity. }
  rewrite P. split; [lra|]. split; [apply ascending_iff; repeat constructor; lra|]. cbn. repeat split; try lra. intros (k & p & [E|[]] & Q). injection E as <- <-. cbn in Q. lra.
Qed.

(** ** C132 *)
Theorem C132_cut : forall slats others segments, apart slats -> apart others -> exists l, cut_wing slats others segments = Ok l /\ ascending (map b_y l) /\
  (forall y, In y (map b_y l) <-> In y (map fst segments) \/ exists c, In c (slats ++ others) /\ (y = c_start c \/ y = c_end c)) /\
  Forall (fun b => edge_at slats 0 (b_y b) (b_le b) /\ edge_at others 1 (b_y b) (b_te b) /\
    (In (b_y b, b_shape b) segments \/ exists c, In c (slats ++ others) /\ ((b_y b = c_start c /\ b_shape b = c_from c) \/ (b_y b = c_end c /\ b_shape b = c_to c)))) l.
Proof.
  intros slats others segs A A'. destruct (cut_wing_ok slats others segs A A') as (l & E & SD & Y & F). exists l. split; [exact E|]. split; [apply ascending_iff; exact SD|]. split; [exact Y|exact F].
Qed.
Definition plain_shape : shape := {| f_chord := 1; f_twist := 0; f_x := 0; f_z := 0; f_dihedral := 0; f_sweep := 0 |}.
Definition piece_of (id : Z) (s e c : R) : piece := {| c_id := id; c_start := s; c_end := e; c_cut := c; c_from := plain_shape; c_to := plain_shape |}.
Example C132_case : apart [piece_of 0 (1 / 10) (1 / 2) (2 / 10); piece_of 1 (1 / 2) (9 / 10) (1 / 10)] /\ apart [piece_of 2 (2 / 10) (6 / 10) (8 / 10)].
Proof.
  split; split.
  - repeat constructor; cbn; try lra; lia.
  - cbn. repeat constructor; cbn; intuition discriminate.
  - intros c c' [<-|[<-|[]]] [<-|[<-|[]]] N; cbn; try congruence; try (left; lra); try (right; lra).
  - repeat constructor; cbn; try lra; lia.
  - cbn. repeat constructor; cbn; intuition.
  - intros c c' [<-|[]] [<-|[]] N; congruence.
Qed.
Ltac deciding := repeat match goal with
  | |- context [Rltb ?x ?y] => first [rewrite (proj2 (Rltb_true x y)) by lra | rewrite (proj2 (Rltb_false x y)) by lra]; cbn [negb andb orb]
  end.
Local Opaque Rltb.
Definition two_segments : list (R * shape) := [(0, plain_shape); (1, plain_shape)].
(** one round, nothing on the leading edge *)
Lemma merge_end n acc : merge (S n) [] [] [] acc = Ok (rev acc).
Proof. reflexivity. Qed.
Lemma merge_te n t te g seg acc : b_y t <= b_y g -> merge (S n) [] (t :: te) (g :: seg) acc = merge n [] te (g :: seg) (add_break acc t).
Proof. intro H. cbn [merge first_y upto]. cbn [andb]. rewrite (proj2 (Rltb_false (b_y g) (b_y t)) H). reflexivity. Qed.
Lemma merge_seg n t te g seg acc : b_y g < b_y t -> merge (S n) [] (t :: te) (g :: seg) acc = merge n [] (t :: te) seg (add_break acc g).
Proof. intro H. cbn [merge first_y upto]. cbn [andb]. rewrite (proj2 (Rltb_true (b_y g) (b_y t)) H), (proj2 (Rltb_false (b_y t) (b_y g))) by lra. reflexivity. Qed.
Lemma merge_last n g seg acc : merge (S n) [] [] (g :: seg) acc = merge n [] [] seg (add_break acc g).
Proof. reflexivity. Qed.
Lemma add_new p acc b : b_y p < b_y b -> add_break (p :: acc) b = b :: p :: acc.
Proof. intro H. unfold add_break. rewrite (proj2 (Rltb_true _ _) H). reflexivity. Qed.
Lemma place_none x : place x [] = [x].
Proof. reflexivity. Qed.
Lemma place_here x y l : b_y x <= b_y y -> place x (y :: l) = x :: y :: l.
Proof. intro H. cbn [place]. rewrite (proj2 (Rltb_false _ _)) by lra. reflexivity. Qed.
Lemma place_on x y l : b_y y < b_y x -> place x (y :: l) = y :: place x l.
Proof. intro H. cbn [place]. rewrite (proj2 (Rltb_true _ _)) by lra. reflexivity. Qed.
Ltac placing := cbn [in_order]; repeat first [rewrite place_here by (cbn; lra) | rewrite place_on by (cbn; lra) | rewrite place_none].
(** of two that overlap, the second goes without a word *)
Theorem C132_overlap_refuted : exists l, cut_wing [] [piece_of 0 (1 / 10) (1 / 2) (8 / 10); piece_of 1 (3 / 10) (7 / 10) (9 / 10)] two_segments = Ok l /\
  map (fun b => (b_y b, m_in (b_te b), m_out (b_te b))) l = [(0, (-1)%Z, (-1)%Z); (1 / 10, (-1)%Z, 0%Z); (3 / 10, 0%Z, 0%Z); (1 / 2, 0%Z, (-1)%Z); (7 / 10, 1%Z, (-1)%Z); (1, (-1)%Z, (-1)%Z)].
Proof.
  pose (a := piece_of 0 (1 / 10) (1 / 2) (8 / 10)). pose (b := piece_of 1 (3 / 10) (7 / 10) (9 / 10)). eexists. split.
  - unfold cut_wing. fold a b; replace (in_order (breaks_of false [a; b])) with [begins false a ; begins false b; finishes false a; finishes false b] by (unfold a, b, breaks_of; cbn [map concat app]; placing; reflexivity).
    replace (in_order (map of_segment two_segments)) with [of_segment (0, plain_shape); of_segment (1, plain_shape)] by (unfold two_segments; cbn [map]; placing; reflexivity).
    change (in_order (breaks_of true [])) with (@nil break). cbn [length Nat.add]; unfold a, b.
    rewrite merge_seg by (cbn; lra). do 4 (rewrite merge_te by (cbn; lra)). rewrite merge_last, merge_end.
    change (add_break [] (of_segment (0, plain_shape))) with [of_segment (0, plain_shape)]. do 5 (rewrite add_new by (cbn; lra)). reflexivity.
  - reflexivity.
Qed.
(** and one inside another stops the program *)
Theorem C132_nested_refuted : cut_wing [] [piece_of 0 (1 / 10) (7 / 10) (8 / 10); piece_of 1 (3 / 10) (1 / 2) (9 / 10)] two_segments = Err ValueError.
Proof.
  pose (a := piece_of 0 (1 / 10) (7 / 10) (8 / 10)). pose (b := piece_of 1 (3 / 10) (1 / 2) (9 / 10)).
  unfold cut_wing. fold a b; replace (in_order (breaks_of false [a; b])) with [begins false a ; begins false b; finishes false b; finishes false a] by (unfold a, b, breaks_of; cbn [map concat app]; placing; reflexivity).
  replace (in_order (map of_segment two_segments)) with [of_segment (0, plain_shape); of_segment (1, plain_shape)] by (unfold two_segments; cbn [map]; placing; reflexivity).
  change (in_order (breaks_of true [])) with (@nil break). cbn [length Nat.add]; unfold a, b.
  rewrite merge_seg by (cbn; lra). do 4 (rewrite merge_te by (cbn; lra)). rewrite merge_last, merge_end.
  change (add_break [] (of_segment (0, plain_shape))) with [of_segment (0, plain_shape)]. do 5 (rewrite add_new by (cbn; lra)). reflexivity.
Qed.

(** ** C133 *)
(** the corners of the panels are on the surface, between the cuts *)
Theorem C133_corners : forall w n a b side ya yb k, let p := panel_points w n a b side ya yb k in let f j := s_le a + (s_te a - s_le a) * (INR j / INR n) in
  t_a1 p = skin w a b side ya (f k) /\ t_a2 p = skin w a b side ya (f (S k)) /\ t_b1 p = skin w a b side yb (f k) /\ t_b2 p = skin w a b side yb (f (S k)).
Proof. intros. cbn. unfold skin, f, edge. repeat split. Qed.
(** a control surface lies in the surface of the wing, whole or cut: at the part [g] of its own chord it is at the wing's fraction 1 - cf + g cf, or g cf for a slat *)
Theorem C133_fits : forall w half a b start end_ cf slat camber t t' y1 y2 side u g,
  w_cut w = None -> 0 < half -> g_y a < g_y b -> g_y a <= start -> start < end_ -> end_ <= g_y b -> 0 < cf -> offsets_from half a b -> 0 < g_chord a -> 0 < g_chord b ->
  on_segment half a b y1 t -> on_segment half a b y2 t' -> y1 <> y2 -> outboard_of a t -> (w_vertical w = true -> inverted t = 1) ->
  skin (cut_surface w half a b start cf slat) (cut_root half a b start cf slat) (cut_tip half a b start end_ cf slat camber) side (u * half - start * half) g
  = skin w t t' side (u * half) (fraction_at slat cf g).
Proof. intros. apply (fits w half a b start end_ cf slat camber) with (y1 := y1) (y2 := y2); assumption. Qed.
(** so its panels begin where the cut wing's end, or the other way about for a slat, and its free edge is the uncut wing's *)
Theorem C133_joined : forall w half a b start end_ cf slat camber t t' y1 y2 side ua ub n m,
  w_cut w = None -> 0 < half -> g_y a < g_y b -> g_y a <= start -> start < end_ -> end_ <= g_y b -> 0 < cf -> offsets_from half a b -> 0 < g_chord a -> 0 < g_chord b ->
  on_segment half a b y1 t -> on_segment half a b y2 t' -> y1 <> y2 -> outboard_of a t -> (w_vertical w = true -> inverted t = 1) ->
  let wing k := panel_points w (S n) t t' side (ua * half) (ub * half) k in
  let part k := panel_points (cut_surface w half a b start cf slat) (S m) (cut_root half a b start cf slat) (cut_tip half a b start end_ cf slat camber) side (ua * half - start * half) (ub * half - start * half) k in
  (slat = false -> s_te t = 1 - cf -> t_a2 (wing n) = t_a1 (part O) /\ t_b2 (wing n) = t_b1 (part O) /\ t_a2 (part m) = skin w t t' side (ua * half) 1 /\ t_b2 (part m) = skin w t t' side (ub * half) 1) /\
  (slat = true -> s_le t = cf -> t_a1 (wing O) = t_a2 (part m) /\ t_b1 (wing O) = t_b2 (part m) /\ t_a1 (part O) = skin w t t' side (ua * half) 0 /\ t_b1 (part O) = skin w t t' side (ub * half) 0).
Proof.
  intros w half a b start end_ cf slat camber t t' y1 y2 side ua ub n m W H AB SA SE EB CF OF CA CB T T' N OB V wing part.
  set (w' := cut_surface w half a b start cf slat) in *. set (root := cut_root half a b start cf slat) in *. set (tip := cut_tip half a b start end_ cf slat camber) in *.
  assert (F : forall u g, skin w' root tip side (u * half - start * half) g = skin w t t' side (u * half) (fraction_at slat cf g)) by (intros; apply C133_fits with (y1 := y1) (y2 := y2); assumption).
  assert (P : forall k, let p := part k in t_a1 p = skin w t t' side (ua * half) (fraction_at slat cf (INR k / INR (S m))) /\ t_a2 p = skin w t t' side (ua * half) (fraction_at slat cf (INR (S k) / INR (S m))) /\
     t_b1 p = skin w t t' side (ub * half) (fraction_at slat cf (INR k / INR (S m))) /\ t_b2 p = skin w t t' side (ub * half) (fraction_at slat cf (INR (S k) / INR (S m)))).
  { intros k p. destruct (C133_corners w' (S m) root tip side (ua * half - start * half) (ub * half - start * half) k) as (E1 & E2 & E3 & E4). change (s_le root) with 0 in *. change (s_te root) with 1 in *.
    unfold p, part. rewrite E1, E2, E3, E4, !F. repeat split; f_equal; f_equal; ring. }
  assert (Z0 : forall j, INR 0 / INR (S j) = 0) by (intro; unfold Rdiv; cbn; ring). assert (Z1 : forall j, INR (S j) / INR (S j) = 1) by (intro; field; apply not_0_INR; lia).
  destruct (P O) as (A1 & _ & A3 & _), (P m) as (_ & B2 & _ & B4). rewrite Z0 in A1, A3. rewrite Z1 in B2, B4.
  destruct (C133_corners w (S n) t t' side (ua * half) (ub * half) O) as (C1 & _ & C3 & _), (C133_corners w (S n) t t' side (ua * half) (ub * half) n) as (_ & D2 & _ & D4). rewrite Z0 in C1, C3. rewrite Z1 in D2, D4.
  split; intros SL CUT; unfold wing.
  - rewrite A1, A3, B2, B4, D2, D4. subst slat. unfold fraction_at. rewrite CUT. repeat split; f_equal; ring.
  - rewrite A1, A3, B2, B4, C1, C3. subst slat. unfold fraction_at. rewrite CUT. repeat split; f_equal; ring.
Qed.
(** the surface has the wing's stations between its ends, whatever order they were asked in, and so its strips are the wing's *)
Theorem C133_stations : forall cosine half start end_ id st n, 0 < half -> start < end_ -> ascending (map snd st) -> In (start * half) (map snd st) ->
  (forall p, In p st -> (fst p = id <-> start * half <= snd p < end_ * half)) -> let req := sorted (asked half start end_ id st) in
  spanwise (length req) (stations cosine ((end_ - start) * half) (strips_of (Some (asked half start end_ id st)) n)) req = Ok req /\
  ascending req /\ hd 0 req = 0 /\ last req 0 = (end_ - start) * half /\
  forall v, In v req <-> v + start * half = end_ * half \/ (In (v + start * half) (map snd st) /\ start * half <= v + start * half < end_ * half).
Proof.
  intros cosine half start end_ id st n H SE A S0 ID req. destruct (asked_stations half start end_ id st H SE A ID S0) as (AS & HD & LA & LE & IN). fold req in AS, HD, LA, LE, IN.
  destruct (C124_surface_lines_up cosine req n LE AS HD) as [Q1 Q2]. rewrite LA in Q2. split; [|auto].
  replace (strips_of (Some (asked half start end_ id st)) n) with (strips_of (Some req) n); [exact Q2|]. unfold strips_of, req. f_equal. f_equal. apply Permutation_length, sorted_perm.
Qed.

Definition seg_in : segment := {| g_y := 0; g_chord := 2; g_twist := 1 / 10; g_x := 0; g_z := 0; g_dihedral := 1 / 20; g_sweep := 1 / 5; g_camber := [(0, 0); (1 / 2, 1 / 20); (1, 0)] |}.
Definition seg_out : segment := {| g_y := 1; g_chord := 1; g_twist := 0; g_x := 10 * tan (1 / 5); g_z := 10 * tan (1 / 20); g_dihedral := 0; g_sweep := 0; g_camber := [(0, 0); (1, 0)] |}.
Definition wing_station (y te : R) : station :=
  {| s_y := y * 10; s_chord := value g_chord seg_in seg_out y; s_twist := value g_twist seg_in seg_out y; s_x := value g_x seg_in seg_out y; s_z := value g_z seg_in seg_out y;
     s_dihedral := 1 / 20; s_sweep := 1 / 5; s_camber := g_camber seg_in; s_le := 0; s_te := te |}.
Example C133_case : let t := wing_station (3 / 10) (8 / 10) in let t' := wing_station (7 / 10) 1 in
  offsets_from 10 seg_in seg_out /\ on_segment 10 seg_in seg_out (3 / 10) t /\ on_segment 10 seg_in seg_out (7 / 10) t' /\ outboard_of seg_in t /\ s_te t = 1 - 2 / 10.
Proof. cbv zeta. split; [split; cbn; ring|]. split; [split; reflexivity|]. split; [split; reflexivity|]. split; [split; reflexivity|]. cbn. lra. Qed.
Example C133_stations_case : let st := [((-1)%Z, 0); (4%Z, 2); (4%Z, 5 / 2); ((-1)%Z, 3); ((-1)%Z, 5)] in
  ascending (map snd st) /\ In (2 / 10 * 10) (map snd st) /\ (forall p, In p st -> (fst p = 4%Z <-> 2 / 10 * 10 <= snd p < 3 / 10 * 10)) /\ sorted (asked 10 (2 / 10) (3 / 10) 4 st) = [0; 1 / 2; 1].
Proof.
  cbv zeta. split; [apply ascending_iff; repeat constructor; cbn; lra|]. split; [cbn; right; left; lra|]. split.
  - intros p I. cbn in I. repeat (destruct I as [<-|I]); [..|contradiction]; cbn [fst snd]; split; intro H; try discriminate; try reflexivity; lra.
  - unfold asked. cbn [filter fst snd Z.eqb Pos.eqb map]. cbn [sorted insert]. deciding. cbn [insert]. deciding. repeat (apply (f_equal2 (@cons R)); [lra|]). reflexivity.
Qed.
(** a fin pointing down (dihedral past 90 degrees): the part is not where it was cut out *)
Definition down : segment := {| g_y := 0; g_chord := 1; g_twist := 0; g_x := 0; g_z := 0; g_dihedral := PI; g_sweep := 0; g_camber := [(0, 0); (1, 0)] |}.
Definition down_end : segment := {| g_y := 1; g_chord := 1; g_twist := 0; g_x := 0; g_z := 0; g_dihedral := PI; g_sweep := 0; g_camber := [(0, 0); (1, 0)] |}.
Theorem C133_down_refuted : exists w half a b start end_ cf camber t t' y1 y2 side u g,
  w_cut w = None /\ 0 < half /\ g_y a < g_y b /\ g_y a <= start /\ start < end_ /\ end_ <= g_y b /\ 0 < cf /\ offsets_from half a b /\ 0 < g_chord a /\ 0 < g_chord b /\
  on_segment half a b y1 t /\ on_segment half a b y2 t' /\ y1 <> y2 /\ outboard_of a t /\ start <= u <= end_ /\
  vz (skin (cut_surface w half a b start cf false) (cut_root half a b start cf false) (cut_tip half a b start end_ cf false camber) side (u * half - start * half) g)
  = vz (skin w t t' side (u * half) (fraction_at false cf g)) + 4.
Proof.
  pose (w := {| w_origin := V3 0 0 0; w_vertical := true; w_symmetric := false; w_cut := None |}).
  pose (t := {| s_y := 0; s_chord := 1; s_twist := 0; s_x := 0; s_z := 0; s_dihedral := PI; s_sweep := 0; s_camber := [(0, 0); (1, 0)]; s_le := 0; s_te := 1 / 2 |}).
  pose (t' := {| s_y := 4; s_chord := 1; s_twist := 0; s_x := 0; s_z := 0; s_dihedral := PI; s_sweep := 0; s_camber := [(0, 0); (1, 0)]; s_le := 0; s_te := 1 / 2 |}).
  exists w, 4, down, down_end, (1 / 2), 1, (1 / 2), [], t, t', 0, 1, 1, (1 / 2), 0.
  split; [reflexivity|]. do 6 (split; [cbn; lra|]). split; [split; cbn; [rewrite tan_0|replace (tan PI) with 0 by (unfold tan; rewrite sin_PI; unfold Rdiv; ring)]; ring|]. do 2 (split; [cbn; lra|]).
  split; [split; cbn; unfold value; cbn; try lra; field|]. split; [split; cbn; unfold value; cbn; try lra; field|]. split; [lra|]. split; [split; reflexivity|]. split; [lra|].
  assert (I : - sign (PI - PI / 2) = -1) by (unfold sign; pose proof PI_RGT_0; rewrite (proj2 (Rltb_false _ _)), (proj2 (Rltb_true _ _)) by lra; ring).
  unfold skin, placed. change (w_vertical w) with true. change (w_vertical (cut_surface w 4 down down_end (1 / 2) (1 / 2) false)) with true. cbv iota. unfold vmore. cbn [vz].
  change (inverted (cut_root 4 down down_end (1 / 2) (1 / 2) false)) with (- sign (PI - PI / 2)). change (inverted t) with (- sign (PI - PI / 2)). rewrite I.
  change (vz (w_origin w)) with 0. change (vz (w_origin (cut_surface w 4 down down_end (1 / 2) (1 / 2) false))) with (0 + 1 / 2 * 4). lra.
Qed.
Print Assumptions C131_parts.
Print Assumptions C131_once.
Print Assumptions C131_whole.
Print Assumptions C131_start_refuted.
Print Assumptions C132_cut.
Print Assumptions C132_overlap_refuted.
Print Assumptions C132_nested_refuted.
Print Assumptions C133_corners.
Print Assumptions C133_fits.
Print Assumptions C133_joined.
Print Assumptions C133_stations.
Print Assumptions C133_down_refuted.
