(* PropClean.v -- C60: when no point of the polygon has four nearest sites, every edge has a positive
   length, and create_diagram gives the same diagram whether or not it is asked to remove the edges of
   length zero (it does so by default).  Exact arithmetic. *)
From stdpp Require Import base list sets.
From Coq Require Import ZArith Reals Lra Lia Psatz.
From Verif Require Import Arith Geom Monad Tree Heapq State Sweep Finish SweepBase Dcel SweepInv Spec RArith GeomReal AreaReal PolyReal ConvexReal CircleReal FinishReal EdgeReal VoronoiGeom
  VoronoiStep Envelope SpecVoronoi VoronoiFacts ClipGeom ClipBeach ClipVoronoi ClipFinal SpecClip SpecFinish PropGeom PropVoronoi PropEnvelope PropReal PropClip CellBorder CellFirst CellArea
  SpecVisual CellDraw DrawAll PropCells CellClean.
Local Open Scope R_scope.

(* no point that is inside the polygon or on its outline has four nearest sites *)
Definition at_most_three (xys corners : list (pt RArith)) : Prop :=
  forall z a b c d, ~ exterior corners z -> NoDup [a; b; c; d] ->
    nearest xys a z -> nearest xys b z -> nearest xys c z -> nearest xys d z -> False.

(* the edges of length zero are exactly at the points of the polygon with four nearest sites *)
Theorem C60_zero_length (xys : list (pt RArith)) (poly : polygon RArith) fuel s z : regular xys poly ->
  create_diagram RArith poly false fuel xys (init_state RArith (pg_points RArith poly)) = Val (s, tt) ->
  (exists e, e ∈ s_edges s /\ runs_to s e z z) <->
  ~ exterior (pg_points RArith poly) z /\ exists a b c d, NoDup [a; b; c; d] /\ nearest xys a z /\ nearest xys b z /\ nearest xys c z /\ nearest xys d z.
Proof.
  intros HG HD. split.
  - intros (e & He & Hr). exact (da_four xys poly HG fuel s e z HD He Hr).
  - intros (NX & a & b & c & d & N & Ha & Hb & Hc & Hd). exact (da_zero xys poly HG fuel s z a b c d HD NX N Ha Hb Hc Hd).
Qed.
Print Assumptions C60_zero_length.

(* removing the edges of length zero makes no difference *)
Theorem C60_default_diagram (xys : list (pt RArith)) (poly : polygon RArith) fuel : regular xys poly -> at_most_three xys (pg_points RArith poly) ->
  create_diagram RArith poly true fuel xys (init_state RArith (pg_points RArith poly)) =
  create_diagram RArith poly false fuel xys (init_state RArith (pg_points RArith poly)).
Proof. intros HG N4. exact (idle xys poly HG N4 fuel). Qed.
Print Assumptions C60_default_diagram.

(* so the cells of the default call are the Voronoi cells, cut to the polygon, and their areas add up *)
Theorem C60_default_cells (xys : list (pt RArith)) (poly : polygon RArith) fuel s : regular xys poly -> at_most_three xys (pg_points RArith poly) ->
  create_diagram RArith poly true fuel xys (init_state RArith (pg_points RArith poly)) = Val (s, tt) ->
  (forall p, (p < length xys)%nat -> exists l f, borders RArith s f p = Val l /\
     forall z : rpt, (nearest xys p z /\ ~ exterior (pg_points RArith poly) z) <-> enclosed s l z) /\
  exists areas : list R, length areas = length xys /\ total areas = area_of (pg_points RArith poly) /\
    forall p a, areas !! p = Some a -> 0 < a /\ exists f, area RArith s f p = Val a.
Proof.
  intros HG N4 HD. rewrite (C60_default_diagram xys poly fuel HG N4) in HD. split.
  - intros p Hp. destruct (C57_cells xys poly fuel s p HG HD Hp) as [(l & f & Hl) HX]. exists l, f. split; [done|]. exact (HX l f Hl).
  - destruct (C58_areas xys poly fuel s HG HD) as (areas & E1 & E2 & HX). exists areas. split; [done|]. split; [done|]. intros p a Ha. destruct (HX p a Ha) as (X1 & X2 & _). split; [exact X1|exact X2].
Qed.
Print Assumptions C60_default_cells.

(* ---------- a case: four sites, two Voronoi vertices ---------- *)
Definition quad : list rpt := [(-4, 0); (4, 0); (0, -2); (0, 2)].
Lemma quad_nodup : NoDup (quad : list (pt RArith)).
Proof. unfold quad. repeat constructor; rewrite ?elem_of_cons, ?elem_of_nil; intros X; repeat (destruct X as [X|X]; [injection X; intros; lra|]); done. Qed.
Lemma quad_le k z : nearest quad k z -> exists P : rpt, quad !! k = Some P /\ dist2 P z <= dist2 (-4, 0) z /\ dist2 P z <= dist2 (4, 0) z /\ dist2 P z <= dist2 (0, -2) z /\ dist2 P z <= dist2 (0, 2) z.
Proof. intros (P & HP & HM). exists P. split; [done|]. repeat split; apply HM; unfold quad; rewrite !elem_of_cons; auto. Qed.
Lemma quad_lt k z : nearest quad k z -> (k < 4)%nat.
Proof. intros (P & HP & _). apply lookup_lt_Some in HP. exact HP. Qed.
Lemma quad_01 z : nearest quad 0 z -> nearest quad 1 z -> False.
Proof.
  intros (P & HP & A1 & A2 & A3 & A4)%quad_le (Q & HQ & B1 & B2 & B3 & B4)%quad_le. injection HP as <-. injection HQ as <-. destruct z as [x y]. unfold dist2 in *; cbn [fst snd] in *. lra.
Qed.
Lemma quad_four : forall z a b c d, NoDup [a; b; c; d] -> nearest quad a z -> nearest quad b z -> nearest quad c z -> nearest quad d z -> False.
Proof.
  intros z a b c d N Ha Hb Hc Hd. pose proof (quad_lt _ _ Ha). pose proof (quad_lt _ _ Hb). pose proof (quad_lt _ _ Hc). pose proof (quad_lt _ _ Hd).
  assert (X : forall k, (k < 4)%nat -> nearest quad k z).
  { intros k Hk. assert (k = a \/ k = b \/ k = c \/ k = d) as [-> |[-> |[-> | ->]]]; [|done..].
    repeat (apply NoDup_cons in N as [? N]). rewrite !elem_of_cons, elem_of_nil in *. lia. }
  apply (quad_01 z); apply X; lia.
Qed.
Lemma quad_vertex z : voronoi_vertex quad z -> (fst z = - (3 / 2) \/ fst z = 3 / 2) /\ snd z = 0.
Proof.
  intros (a & b & c & N & Ha & Hb & Hc). pose proof (quad_lt _ _ Ha). pose proof (quad_lt _ _ Hb). pose proof (quad_lt _ _ Hc).
  assert (X : (nearest quad 0 z \/ nearest quad 1 z) /\ nearest quad 2 z /\ nearest quad 3 z).
  { assert (K : forall k, (k < 4)%nat -> nearest quad k z \/ (k <> a /\ k <> b /\ k <> c)).
    { intros k _. destruct (decide (k = a)) as [-> |]; [by left|]. destruct (decide (k = b)) as [-> |]; [by left|]. destruct (decide (k = c)) as [-> |]; [by left|]. by right. }
    pose proof (K 0%nat ltac:(lia)). pose proof (K 1%nat ltac:(lia)). pose proof (K 2%nat ltac:(lia)). pose proof (K 3%nat ltac:(lia)). pose proof (quad_01 z).
    repeat (apply NoDup_cons in N as [? N]). rewrite !elem_of_cons, elem_of_nil in *.
    split; [|split].
    - destruct H2 as [|H2]; [by left|]. destruct H3 as [|H3]; [by right|]. exfalso. lia.
    - destruct H4 as [|H4]; [done|]. exfalso. destruct H2 as [H2|H2], H3 as [H3|H3]; [tauto|lia..].
    - destruct H5 as [|H5]; [done|]. exfalso. destruct H2 as [H2|H2], H3 as [H3|H3]; [tauto|lia..]. }
  destruct X as (X0 & (P & HP & A1 & A2 & A3 & A4)%quad_le & (Q & HQ & B1 & B2 & B3 & B4)%quad_le). injection HP as <-. injection HQ as <-.
  destruct X0 as [(U & HU & C1 & C2 & C3 & C4)%quad_le|(U & HU & C1 & C2 & C3 & C4)%quad_le]; injection HU as <-; destruct z as [x y]; unfold dist2 in *; cbn [fst snd] in *; lra.
Qed.
Lemma quad_fits : box_fits quad (-5) 5 (-3) 8.
Proof.
  split; [|split].
  - intros P HP. unfold quad in HP. repeat (apply elem_of_cons in HP as [-> |HP]; [unfold in_box; cbn [fst snd]; lra|]). by apply elem_of_nil in HP.
  - intros [x y] [[X1 X2] [Y1 Y2]]. cbn [fst snd] in *. destruct (Rle_lt_dec y 6) as [L|L].
    + destruct (Rle_lt_dec x 0) as [M|M]; [exists (-4, 0)|exists (4, 0)]; (split; [unfold quad; rewrite !elem_of_cons; auto|]); unfold dist2; cbn [fst snd]; nra.
    + exists (0, 2). split; [unfold quad; rewrite !elem_of_cons; auto|]. unfold dist2; cbn [fst snd]. nra.
  - intros z Hz. apply quad_vertex in Hz as [[E|E] E2]; unfold inside_box; rewrite E, E2; lra.
Qed.
Lemma quad_regular box : bounding_box RArith (-5) 5 (-3) 8 = Val box -> regular quad box.
Proof.
  apply box_regular; [exact quad_nodup|lra|lra|exact quad_fits| |].
  - intros P HP. unfold quad in HP. repeat (apply elem_of_cons in HP as [-> |HP]; [unfold inside_box; cbn [fst snd]; lra|]). by apply elem_of_nil in HP.
  - intros c p q Hc (P & HP & A1 & A2 & A3 & A4)%quad_le (Q & HQ & B1 & B2 & B3 & B4)%quad_le.
    repeat (apply elem_of_cons in Hc as [-> |Hc]); [..|by apply elem_of_nil in Hc];
      destruct p as [|[|[|[|p]]]]; try done; injection HP as <-; destruct q as [|[|[|[|q]]]]; try done; injection HQ as <-; unfold dist2 in *; cbn [fst snd] in *; lra.
Qed.
Example C60_case : exists box s, bounding_box RArith (-5) 5 (-3) 8 = Val box /\ regular quad box /\ at_most_three quad (pg_points RArith box) /\
  create_diagram RArith box true 30 quad (init_state RArith (pg_points RArith box)) = Val (s, tt) /\
  exists u v, u ∈ s_vset s /\ v ∈ s_vset s /\ located RArith s u (- (3 / 2), 0) /\ located RArith s v (3 / 2, 0).
Proof.
  destruct (bounding_box_R (-5) 5 (-3) 8) as (box & HB & HL & _ & _ & E1 & E2); [lra..|]. pose proof (quad_regular box HB) as HG.
  assert (N4 : at_most_three quad (pg_points RArith box)) by (intros z a b c d _; apply quad_four).
  destruct (C13_create_diagram_returns quad box 30 quad_nodup) as [s HD]; [simpl; lia|rewrite HL; simpl; lia|simpl; lia| |].
  { change (finish_sweep_line RArith box) with (pg_min_y RArith box - Rabs (pg_max_y RArith box)). rewrite E1, E2. rewrite (Rabs_pos_eq 8) by lra. unfold quad. repeat constructor; cbn [snd]; lra. }
  exists box, s. split; [done|]. split; [done|]. split; [done|]. split; [by rewrite (C60_default_diagram quad box 30 HG N4)|].
  destruct (da_vset quad box HG 30 s HD) as [_ HV].
  assert (NR : forall k (P z : rpt), quad !! k = Some P -> dist2 P z <= dist2 (-4, 0) z -> dist2 P z <= dist2 (4, 0) z -> dist2 P z <= dist2 (0, -2) z -> dist2 P z <= dist2 (0, 2) z -> nearest quad k z).
  { intros k P z HP X1 X2 X3 X4. exists P. split; [done|]. intros Q HQ. unfold quad in HQ. rewrite !elem_of_cons, elem_of_nil in HQ. destruct HQ as [-> |[-> |[-> |[-> |[]]]]]; done. }
  destruct (proj2 (HV (- (3 / 2), 0))) as (u & Hu & Lu).
  { right; right. split; [rewrite HL; apply box_interior; [lra..|]; unfold inside_box; cbn [fst snd]; lra|]. exists 0%nat, 2%nat, 3%nat. split; [repeat constructor; set_solver|].
    split; [apply (NR _ (-4, 0)); [done|..]|split; [apply (NR _ (0, -2)); [done|..]|apply (NR _ (0, 2)); [done|..]]]; unfold dist2; cbn [fst snd]; lra. }
  destruct (proj2 (HV (3 / 2, 0))) as (v & Hv & Lv).
  { right; right. split; [rewrite HL; apply box_interior; [lra..|]; unfold inside_box; cbn [fst snd]; lra|]. exists 1%nat, 2%nat, 3%nat. split; [repeat constructor; set_solver|].
    split; [apply (NR _ (4, 0)); [done|..]|split; [apply (NR _ (0, -2)); [done|..]|apply (NR _ (0, 2)); [done|..]]]; unfold dist2; cbn [fst snd]; lra. }
  by exists u, v.
Qed.

(* ---------- a case with an edge of length zero: four sites on a circle around (0, 0) ---------- *)
Definition dia : list rpt := [(-2, 0); (2, 0); (0, -2); (0, 2)].
Lemma dia_nodup : NoDup (dia : list (pt RArith)).
Proof. unfold dia. repeat constructor; rewrite ?elem_of_cons, ?elem_of_nil; intros X; repeat (destruct X as [X|X]; [injection X; intros; lra|]); done. Qed.
Lemma dia_le k z : nearest dia k z -> exists P : rpt, dia !! k = Some P /\ dist2 P z <= dist2 (-2, 0) z /\ dist2 P z <= dist2 (2, 0) z /\ dist2 P z <= dist2 (0, -2) z /\ dist2 P z <= dist2 (0, 2) z.
Proof. intros (P & HP & HM). exists P. split; [done|]. repeat split; apply HM; unfold dia; rewrite !elem_of_cons; auto. Qed.
Lemma dia_vertex z : voronoi_vertex dia z -> z = (0, 0).
Proof.
  intros (a & b & c & N & (P & HP & A1 & A2 & A3 & A4)%dia_le & (Q & HQ & B1 & B2 & B3 & B4)%dia_le & (U & HU & C1 & C2 & C3 & C4)%dia_le). destruct z as [x y].
  apply NoDup_cons in N as [N1 N]. apply NoDup_cons in N as [N2 _]. rewrite !elem_of_cons, elem_of_nil in *.
  destruct a as [|[|[|[|a]]]]; try done; injection HP as <-; destruct b as [|[|[|[|b]]]]; try done; try tauto; injection HQ as <-; destruct c as [|[|[|[|c]]]]; try done; try tauto; injection HU as <-;
    unfold dist2 in *; cbn [fst snd] in *; f_equal; lra.
Qed.
Lemma dia_fits : box_fits dia (-3) 3 (-4) 5.
Proof.
  split; [|split].
  - intros P HP. unfold dia in HP. repeat (apply elem_of_cons in HP as [-> |HP]; [unfold in_box; cbn [fst snd]; lra|]). by apply elem_of_nil in HP.
  - intros [x y] [[X1 X2] [Y1 Y2]]. cbn [fst snd] in *. destruct (Rle_lt_dec y 3) as [L|L].
    + destruct (Rle_lt_dec x 0) as [M|M]; [exists (-2, 0)|exists (2, 0)]; (split; [unfold dia; rewrite !elem_of_cons; auto|]); unfold dist2; cbn [fst snd]; nra.
    + exists (0, 2). split; [unfold dia; rewrite !elem_of_cons; auto|]. unfold dist2; cbn [fst snd]. nra.
  - intros z Hz. apply dia_vertex in Hz as ->. unfold inside_box; cbn [fst snd]; lra.
Qed.
Lemma dia_regular box : bounding_box RArith (-3) 3 (-4) 5 = Val box -> regular dia box.
Proof.
  apply box_regular; [exact dia_nodup|lra|lra|exact dia_fits| |].
  - intros P HP. unfold dia in HP. repeat (apply elem_of_cons in HP as [-> |HP]; [unfold inside_box; cbn [fst snd]; lra|]). by apply elem_of_nil in HP.
  - intros c p q Hc (P & HP & A1 & A2 & A3 & A4)%dia_le (Q & HQ & B1 & B2 & B3 & B4)%dia_le.
    repeat (apply elem_of_cons in Hc as [-> |Hc]); [..|by apply elem_of_nil in Hc];
      destruct p as [|[|[|[|p]]]]; try done; injection HP as <-; destruct q as [|[|[|[|q]]]]; try done; injection HQ as <-; unfold dist2 in *; cbn [fst snd] in *; lra.
Qed.
Example C60_zero_case : exists box s e, bounding_box RArith (-3) 3 (-4) 5 = Val box /\ regular dia box /\
  create_diagram RArith box false 30 dia (init_state RArith (pg_points RArith box)) = Val (s, tt) /\ e ∈ s_edges s /\ runs_to s e (0, 0) (0, 0).
Proof.
  destruct (bounding_box_R (-3) 3 (-4) 5) as (box & HB & HL & _ & _ & E1 & E2); [lra..|]. pose proof (dia_regular box HB) as HG.
  destruct (C13_create_diagram_returns dia box 30 dia_nodup) as [s HD]; [simpl; lia|rewrite HL; simpl; lia|simpl; lia| |].
  { change (finish_sweep_line RArith box) with (pg_min_y RArith box - Rabs (pg_max_y RArith box)). rewrite E1, E2. rewrite (Rabs_pos_eq 5) by lra. unfold dia. repeat constructor; cbn [snd]; lra. }
  destruct (proj2 (C60_zero_length dia box 30 s (0, 0) HG HD)) as (e & He & Hr); [|by exists box, s, e].
  split; [rewrite HL; apply box_exterior; [lra..|]; unfold in_box; cbn [fst snd]; lra|].
  exists 0%nat, 1%nat, 2%nat, 3%nat. split; [repeat constructor; set_solver|].
  assert (NR : forall k (P : rpt), dia !! k = Some P -> dist2 P (0, 0) = 4 -> nearest dia k (0, 0)).
  { intros k P HP E. exists P. split; [done|]. rewrite E. intros Q HQ. unfold dia in HQ. rewrite !elem_of_cons, elem_of_nil in HQ. destruct HQ as [-> |[-> |[-> |[-> |[]]]]]; unfold dist2; cbn [fst snd]; lra. }
  split; [apply (NR _ (-2, 0))|split; [apply (NR _ (2, 0))|split; [apply (NR _ (0, -2))|apply (NR _ (0, 2))]]]; try done; unfold dist2; cbn [fst snd]; lra.
Qed.
