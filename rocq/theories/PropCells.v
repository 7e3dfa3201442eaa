(* PropCells.v -- C56: the border edges of create_diagram cover the outline of the polygon, each
   labelled with its nearest site; C57: borders() of a site bounds its Voronoi cell, cut to the
   polygon; C58: the areas of the cells add up to the area of the polygon.  Exact arithmetic. *)
From stdpp Require Import base list sets.
From Coq Require Import ZArith Reals Lra Lia Psatz.
From Verif Require Import Arith Geom Monad Tree Heapq State Sweep Finish SweepBase Dcel SweepInv Spec RArith GeomReal AreaReal PolyReal ConvexReal CircleReal FinishReal EdgeReal VoronoiGeom
  VoronoiStep Envelope SpecVoronoi VoronoiFacts ClipGeom ClipBeach ClipVoronoi ClipFinal SpecClip SpecFinish PropGeom PropVoronoi PropEnvelope PropReal PropClip CellBorder CellFirst CellArea.
Local Open Scope R_scope.

Section Hyp.
Context (xys : list (pt RArith)) (poly : polygon RArith) (HG : regular xys poly).
Notation corners := (pg_points RArith poly).
Let ND := r_distinct _ _ HG. Let HC := r_convex _ _ HG. Let H3 := r_corners _ _ HG.
Let LL := r_low _ _ HG. Let GP := r_generic _ _ HG. Let TP := reg_top xys poly HG. Let SI := r_inside _ _ HG. Let CI := r_center _ _ HG.
Lemma reg_corner c p q : In c corners -> nearest xys p c -> nearest xys q c -> p = q.
Proof. intros Hc. apply (r_corner _ _ HG). by apply elem_of_list_In. Qed.
Lemma reg_border fuel s e : create_diagram RArith poly false fuel xys (init_state RArith corners) = Val (s, tt) -> border_edge s e ->
  exists p (a b c d : rpt), borders_site RArith s e = Some p /\ runs_to s e a b /\ a <> b /\ In (c, d) (sides corners) /\ on_segment c d a /\ on_segment a d b /\ forall z, on_segment a b z -> nearest xys p z.
Proof.
  exact (border_edges xys poly ND HC H3 (ll_sites xys poly LL) (ll_inside xys poly LL) (ll_vertex xys poly LL) (gp_vertex xys poly GP) TP SI reg_corner CI fuel s e).
Qed.
Lemma reg_covers fuel s z : create_diagram RArith poly false fuel xys (init_state RArith corners) = Val (s, tt) -> on_boundary corners z -> exists e a b, border_edge s e /\ runs_to s e a b /\ on_segment a b z.
Proof.
  exact (border_covers xys poly ND HC H3 (ll_sites xys poly LL) (ll_inside xys poly LL) (ll_vertex xys poly LL) (gp_vertex xys poly GP) TP SI reg_corner CI fuel s z).
Qed.
Lemma reg_single fuel s e e' a b a' b' z : create_diagram RArith poly false fuel xys (init_state RArith corners) = Val (s, tt) -> border_edge s e -> border_edge s e' ->
  runs_to s e a b -> runs_to s e' a' b' -> on_segment a b z -> z <> a -> z <> b -> on_segment a' b' z -> e = e'.
Proof.
  exact (border_single xys poly ND HC H3 (ll_sites xys poly LL) (ll_inside xys poly LL) (ll_vertex xys poly LL) (gp_vertex xys poly GP) TP SI reg_corner CI fuel s e e' a b a' b' z).
Qed.
Lemma reg_cells fuel s p : create_diagram RArith poly false fuel xys (init_state RArith corners) = Val (s, tt) -> (p < length xys)%nat ->
  (exists l f, borders RArith s f p = Val l) /\ forall l f, borders RArith s f p = Val l -> forall z, (nearest xys p z /\ ~ exterior corners z) <-> enclosed s l z.
Proof.
  intros HD Hp. split.
  - destruct (cell_list xys poly ND HC H3 (ll_sites xys poly LL) (ll_inside xys poly LL) (ll_vertex xys poly LL) (gp_vertex xys poly GP) TP SI reg_corner CI fuel s p HD Hp) as (e & l & [f Hf] & _). eauto.
  - intros l f Hl. apply (all_cells xys poly ND HC H3 (ll_sites xys poly LL) (ll_inside xys poly LL) (ll_vertex xys poly LL) (gp_vertex xys poly GP) TP SI reg_corner CI fuel s p l HD Hp). eauto.
Qed.
Lemma reg_face fuel s e p a b : create_diagram RArith poly false fuel xys (init_state RArith corners) = Val (s, tt) -> borders_site RArith s e = Some p -> runs_to s e a b -> a <> b ->
  exists l, SpecFinish.walk RArith s e l /\ closed RArith s e l /\ forall z, (nearest xys p z /\ ~ exterior corners z) <-> enclosed s l z.
Proof.
  exact (face xys poly ND HC H3 (ll_sites xys poly LL) (ll_inside xys poly LL) (ll_vertex xys poly LL) (gp_vertex xys poly GP) TP SI reg_corner CI fuel s e p a b).
Qed.
Lemma reg_areas fuel s : create_diagram RArith poly false fuel xys (init_state RArith corners) = Val (s, tt) ->
  exists areas : list R, length areas = length xys /\ total areas = area_of corners /\
    forall p a, areas !! p = Some a -> 0 < a /\ (exists f, area RArith s f p = Val a) /\ forall f b, area RArith s f p = Val b -> b = a.
Proof.
  intros HD. 
  destruct (areas xys poly ND HC H3 (ll_sites xys poly LL) (ll_inside xys poly LL) (ll_vertex xys poly LL) (gp_vertex xys poly GP) TP SI reg_corner CI fuel s HD) as (a & HA & HT).
  exists (map a (seq 0 (length xys))). split; [by rewrite map_length, seq_length|]. split.
  - transitivity (sumR a (seq 0 (length xys))); [|exact (eq_trans HT (eq_sym (shoelace_sum _)))]. clear. generalize (seq 0 (length xys)) as l. induction l as [|x l IH]; [done|]. cbn [map total fold_right sumR]. f_equal. exact IH.
  - intros p b Hb. rewrite list_lookup_fmap in Hb. destruct (seq 0 (length xys) !! p) as [q|] eqn:Eq; [|done]. apply lookup_seq in Eq as [-> Hq]. injection Hb as <-. destruct (HA (0 + p)%nat ltac:(lia)) as [H1 [f Hf]]. split; [exact H1|]. split; [eauto|].
    intros f' b Hb. exact (area_fun s p f' f b (a p) Hb Hf).
Qed.
End Hyp.

(* ---------- C56 ---------- *)
(* a border edge lies on one side of the polygon, in clockwise direction, and its site is nearest
   to every point of it *)
Theorem C56_border_edges (xys : list (pt RArith)) (poly : polygon RArith) fuel s e : regular xys poly ->
  create_diagram RArith poly false fuel xys (init_state RArith (pg_points RArith poly)) = Val (s, tt) -> border_edge s e ->
  exists p (a b c d : rpt), borders_site RArith s e = Some p /\ runs_to s e a b /\ a <> b /\
    In (c, d) (sides (pg_points RArith poly)) /\ on_segment c d a /\ on_segment a d b /\
    forall z, on_segment a b z -> nearest xys p z.
Proof. intros HG. exact (reg_border xys poly HG fuel s e). Qed.
Print Assumptions C56_border_edges.
(* the border edges cover the outline *)
Theorem C56_outline_covered (xys : list (pt RArith)) (poly : polygon RArith) fuel s z : regular xys poly ->
  create_diagram RArith poly false fuel xys (init_state RArith (pg_points RArith poly)) = Val (s, tt) ->
  on_boundary (pg_points RArith poly) z ->
  exists e a b, border_edge s e /\ runs_to s e a b /\ on_segment a b z.
Proof. intros HG. exact (reg_covers xys poly HG fuel s z). Qed.
Print Assumptions C56_outline_covered.
(* and do not overlap *)
Theorem C56_no_overlap (xys : list (pt RArith)) (poly : polygon RArith) fuel s e e' a b a' b' z : regular xys poly ->
  create_diagram RArith poly false fuel xys (init_state RArith (pg_points RArith poly)) = Val (s, tt) ->
  border_edge s e -> border_edge s e' -> runs_to s e a b -> runs_to s e' a' b' ->
  on_segment a b z -> z <> a -> z <> b -> on_segment a' b' z -> e = e'.
Proof. intros HG. exact (reg_single xys poly HG fuel s e e' a b a' b' z). Qed.
Print Assumptions C56_no_overlap.

(* ---------- C57 ---------- *)
(* borders(p) is a list of half-edges for every site p, and a point is in the polygon and has p among
   its nearest sites if and only if it is on the right of every half-edge in that list *)
Theorem C57_cells (xys : list (pt RArith)) (poly : polygon RArith) fuel s p : regular xys poly ->
  create_diagram RArith poly false fuel xys (init_state RArith (pg_points RArith poly)) = Val (s, tt) ->
  (p < length xys)%nat ->
  (exists l f, borders RArith s f p = Val l) /\
  forall l f, borders RArith s f p = Val l ->
    forall z : rpt, (nearest xys p z /\ ~ exterior (pg_points RArith poly) z) <-> enclosed s l z.
Proof. intros HG. exact (reg_cells xys poly HG fuel s p). Qed.
Print Assumptions C57_cells.

(* from any half-edge of positive length with site p, following next comes back to it, around the cell of p *)
Theorem C57_face (xys : list (pt RArith)) (poly : polygon RArith) fuel s e p a b : regular xys poly ->
  create_diagram RArith poly false fuel xys (init_state RArith (pg_points RArith poly)) = Val (s, tt) ->
  borders_site RArith s e = Some p -> runs_to s e a b -> a <> b ->
  exists l, SpecFinish.walk RArith s e l /\ closed RArith s e l /\
    forall z : rpt, (nearest xys p z /\ ~ exterior (pg_points RArith poly) z) <-> enclosed s l z.
Proof. intros HG. exact (reg_face xys poly HG fuel s e p a b). Qed.
Print Assumptions C57_face.

(* ---------- C58 ---------- *)
(* area(p) is a positive number for every site p, and these numbers add up to the area of the polygon *)
Theorem C58_areas (xys : list (pt RArith)) (poly : polygon RArith) fuel s : regular xys poly ->
  create_diagram RArith poly false fuel xys (init_state RArith (pg_points RArith poly)) = Val (s, tt) ->
  exists areas : list R, length areas = length xys /\ total areas = area_of (pg_points RArith poly) /\
    forall p a, areas !! p = Some a -> 0 < a /\ (exists f, area RArith s f p = Val a) /\
      forall f b, area RArith s f p = Val b -> b = a.
Proof. intros HG. exact (reg_areas xys poly HG fuel s). Qed.
Print Assumptions C58_areas.

(* ---------- boxes ---------- *)
Lemma box_center (l r b t : R) box : l < r -> b < t -> bounding_box RArith l r b t = Val box -> pg_center RArith box = ((r + l) / 2, (t + b) / 2).
Proof.
  intros Hlr Hbt HB. destruct (bounding_box_R _ _ _ _ Hlr Hbt) as (P & HP & _ & X1 & X2 & X3 & X4). assert (P = box) as -> by congruence.
  unfold bounding_box, polygon_init in HB. destruct (dmin _ _) as [my|] eqn:E1; [|done]. destruct (dmin _ (map fst _)) as [mx|] eqn:E2; [|done]. destruct (dmax _ _) as [My|] eqn:E3; [|done].
  destruct (dmax _ (map fst _)) as [Mx|] eqn:E4; [|done]. cbn [rbind] in HB.
  rewrite ddiv_R in HB by (cbn [dZ RArith]; lra). cbn [lift_div rbind] in HB. rewrite ddiv_R in HB by (cbn [dZ RArith]; lra). cbn [lift_div rbind] in HB.
  injection HB as <-. cbn [pg_points pg_max_x pg_min_x pg_max_y pg_min_y pg_center] in *. subst. reflexivity.
Qed.
Lemma box_regular (xys : list (pt RArith)) (l r b t : R) box : NoDup xys -> l < r -> b < t -> box_fits xys l r b t ->
  (forall P : rpt, P ∈ xys -> inside_box l r b t P) -> (forall c p q, c ∈ [(l, t); (r, t); (r, b); (l, b)] -> nearest xys p c -> nearest xys q c -> p = q) ->
  bounding_box RArith l r b t = Val box -> regular xys box.
Proof.
  intros ND Hlr Hbt HF SI GC HB. pose proof (made_extent _ _ HB) as EX. pose proof (box_center _ _ _ _ _ Hlr Hbt HB) as HO. destruct (bounding_box_R _ _ _ _ Hlr Hbt) as (P & HP & HL & _ & _ & E1 & E2). assert (P = box) as -> by congruence.
  destruct (fits_low xys _ _ _ _ Hlr Hbt HF) as [LL GP]. split; rewrite ?HL, ?E1, ?E2; try done.
  - by apply box_convex.
  - simpl. lia.
  - intros Q HQ. apply box_interior; auto.
  - apply box_interior; [done..|]. change (pg_center RArith box) with (pg_center RArith box : rpt). rewrite HO. unfold inside_box. cbn [fst snd]. lra.
Qed.

(* ---------- a case: three sites in a box ---------- *)
Lemma tri_one p q k (c : rpt) : (forall j (P : rpt), tri !! j = Some P -> j <> k -> exists Q : rpt, Q ∈ tri /\ dist2 Q c < dist2 P c) -> nearest tri p c -> nearest tri q c -> p = q.
Proof.
  intros H. assert (K : forall p, nearest tri p c -> p = k).
  { intros x (P & HP & HM). destruct (decide (x = k)) as [|N]; [done|]. destruct (H x P HP N) as (Q & HQ & HL). specialize (HM Q HQ). lra. }
  intros Hp Hq. rewrite (K _ Hp), (K _ Hq). done.
Qed.
Lemma tri_regular box : bounding_box RArith (-1) 3 (-1) 4 = Val box -> regular tri box.
Proof.
  apply box_regular; [exact tri_nodup|lra|lra|exact tri_fits| |].
  - intros P HP. unfold tri in HP. repeat (apply elem_of_cons in HP as [-> |HP]; [unfold inside_box; cbn [fst snd]; lra|]). by apply elem_of_nil in HP.
  - intros c p q Hc. repeat (apply elem_of_cons in Hc as [-> |Hc]); [..|by apply elem_of_nil in Hc].
    + apply (tri_one p q 2). intros j P HP N. exists (0, 2). split; [unfold tri; do 2 right; left|]. destruct j as [|[|[|j]]]; [| |done|done]; injection HP as <-; unfold dist2; cbn [fst snd]; lra.
    + apply (tri_one p q 2). intros j P HP N. exists (0, 2). split; [unfold tri; do 2 right; left|]. destruct j as [|[|[|j]]]; [| |done|done]; injection HP as <-; unfold dist2; cbn [fst snd]; lra.
    + apply (tri_one p q 1). intros j P HP N. exists (2, 0). split; [unfold tri; do 1 right; left|]. destruct j as [|[|[|j]]]; [|done| |done]; injection HP as <-; unfold dist2; cbn [fst snd]; lra.
    + apply (tri_one p q 0). intros j P HP N. exists (0, 0). split; [unfold tri; left|]. destruct j as [|[|[|j]]]; [done| | |done]; injection HP as <-; unfold dist2; cbn [fst snd]; lra.
Qed.
Lemma tri_runs box : bounding_box RArith (-1) 3 (-1) 4 = Val box -> exists s, create_diagram RArith box false 22 tri (init_state RArith (pg_points RArith box)) = Val (s, tt).
Proof.
  intros HB. destruct (bounding_box_R (-1) 3 (-1) 4) as (P & HP & HL & _ & _ & E1 & E2); [lra..|]. assert (P = box) as -> by congruence.
  apply (C13_create_diagram_returns tri box 22 tri_nodup); [simpl; lia|rewrite HL; simpl; lia|simpl; lia|].
  change (finish_sweep_line RArith box) with (pg_min_y RArith box - Rabs (pg_max_y RArith box)). rewrite E1, E2. rewrite (Rabs_pos_eq 4) by lra. unfold tri. repeat constructor; cbn [snd]; lra.
Qed.
(* some border edge passes through the point (3, 0) of the right side, and belongs to site 1 *)
Example C56_case : exists box s e a b, bounding_box RArith (-1) 3 (-1) 4 = Val box /\ regular tri box /\
  create_diagram RArith box false 22 tri (init_state RArith (pg_points RArith box)) = Val (s, tt) /\
  border_edge s e /\ runs_to s e a b /\ on_segment a b (3, 0) /\ borders_site RArith s e = Some 1%nat.
Proof.
  destruct (bounding_box_R (-1) 3 (-1) 4) as (box & HB & HL & _); [lra..|]. pose proof (tri_regular box HB) as HG. destruct (tri_runs box HB) as [s HD].
  destruct (C56_outline_covered tri box 22 s (3, 0) HG HD) as (e & a & b & He & Hr & Ho).
  { rewrite HL. exists ((3, 4), (3, -1)). split; [simpl; auto|]. exists (4 / 5). split; [lra|]. cbn [fst snd]. f_equal; lra. }
  exists box, s, e, a, b. split; [done|]. split; [done|]. split; [done|]. split; [done|]. split; [done|]. split; [done|].
  destruct (C56_border_edges tri box 22 s e HG HD He) as (p & a' & b' & c & d & HP & Hr' & N & _ & _ & _ & HN). destruct (runs_to_fun s e a b a' b' Hr Hr') as [-> ->].
  specialize (HN _ Ho). rewrite HP. f_equal. apply (tri_one p 1 1 (3, 0)); [|done|].
  - intros j P HPj Nj. exists (2, 0). split; [unfold tri; right; left|]. destruct j as [|[|[|j]]]; [|done| |done]; injection HPj as <-; unfold dist2; cbn [fst snd]; lra.
  - apply (tri_nearest 1 (2, 0)); [done|unfold dist2; cbn [fst snd]; lra..].
Qed.
(* so the walk from that border edge goes around the cell of site 1, with (2, 1/2) in it and (0, 0) not *)
Example C57_case : exists box s e a b l, bounding_box RArith (-1) 3 (-1) 4 = Val box /\ regular tri box /\
  create_diagram RArith box false 22 tri (init_state RArith (pg_points RArith box)) = Val (s, tt) /\
  borders_site RArith s e = Some 1%nat /\ runs_to s e a b /\ a <> b /\ SpecFinish.walk RArith s e l /\ enclosed s l (2, 1 / 2) /\ ~ enclosed s l (0, 0).
Proof.
  destruct C56_case as (box & s & e & a & b & HB & HG & HD & He & Hr & _ & HP). destruct (bounding_box_R (-1) 3 (-1) 4) as (P & HP' & HL & _); [lra..|]. assert (P = box) as -> by congruence.
  destruct (C56_border_edges tri box 22 s e HG HD He) as (p & a' & b' & c & d & _ & Hr' & N & _). destruct (runs_to_fun s e a b a' b' Hr Hr') as [<- <-].
  destruct (C57_face tri box 22 s e 1 a b HG HD HP Hr N) as (l & W & _ & HX). exists box, s, e, a, b, l. do 7 (split; [done|]). split.
  - apply HX. split; [apply (tri_nearest 1 (2, 0)); [done|unfold dist2; cbn [fst snd]; lra..]|]. rewrite HL. apply box_exterior; [lra..|]. unfold in_box. cbn [fst snd]. lra.
  - intros [HN _]%HX. destruct HN as (Q & HQ & HM). injection HQ as <-. specialize (HM (0, 0) ltac:(left)). unfold dist2 in HM. cbn [fst snd] in HM. lra.
Qed.
(* borders of site 0: (0, 0) is in its cell, (2, 1/2) is not *)
Example C57_cells_case : exists box s l f, bounding_box RArith (-1) 3 (-1) 4 = Val box /\ regular tri box /\
  create_diagram RArith box false 22 tri (init_state RArith (pg_points RArith box)) = Val (s, tt) /\
  borders RArith s f 0 = Val l /\ enclosed s l (0, 0) /\ ~ enclosed s l (2, 1 / 2).
Proof.
  destruct (bounding_box_R (-1) 3 (-1) 4) as (box & HB & HL & _); [lra..|]. pose proof (tri_regular box HB) as HG. destruct (tri_runs box HB) as [s HD].
  destruct (C57_cells tri box 22 s 0 HG HD ltac:(simpl; lia)) as [(l & f & Hl) HX]. exists box, s, l, f. do 4 (split; [done|]). specialize (HX l f Hl). split.
  - apply HX. split; [apply (tri_nearest 0 (0, 0)); [done|unfold dist2; cbn [fst snd]; lra..]|]. rewrite HL. apply box_exterior; [lra..|]. unfold in_box. cbn [fst snd]. lra.
  - intros [HN _]%HX. destruct HN as (Q & HQ & HM). injection HQ as <-. specialize (HM (2, 0) ltac:(right; left)). unfold dist2 in HM. cbn [fst snd] in HM. lra.
Qed.

(* the three areas in the box of four by five add up to twenty *)
Example C58_case : exists box s a b c f, bounding_box RArith (-1) 3 (-1) 4 = Val box /\ regular tri box /\
  create_diagram RArith box false 22 tri (init_state RArith (pg_points RArith box)) = Val (s, tt) /\
  area RArith s f 0 = Val a /\ 0 < a /\ 0 < b /\ 0 < c /\ a + (b + (c + 0)) = 20.
Proof.
  destruct (bounding_box_R (-1) 3 (-1) 4) as (box & HB & HL & _); [lra..|]. pose proof (tri_regular box HB) as HG. destruct (tri_runs box HB) as [s HD].
  destruct (C58_areas tri box 22 s HG HD) as (l & E1 & E2 & HX). destruct l as [|a [|b [|c [|d l]]]]; try done.
  destruct (HX 0%nat a eq_refl) as (A1 & [f A2] & _). destruct (HX 1%nat b eq_refl) as (B1 & _). destruct (HX 2%nat c eq_refl) as (C1 & _).
  exists box, s, a, b, c, f. do 7 (split; [done|]). change (a + (b + (c + 0))) with (total [a; b; c]). rewrite E2, HL. unfold area_of. rewrite (proj1 (shoelace_spec _ (0, 0))).
  cbn [sides app combine sumR fst snd]. unfold cross3; cbn [fst snd]. rewrite Rabs_left; lra.
Qed.

(* ---------- a case: two highest sites ---------- *)
Definition row : list (pt RArith) := [(0, 2); (2, 2); (1, 0)].
Lemma row_nodup : NoDup row.
Proof. unfold row. apply NoDup_ListNoDup. do 3 (apply List.NoDup_cons; [cbn [In]; intros HX; repeat (destruct HX as [HX|HX]; [injection HX; lra|]); exact HX|]). apply List.NoDup_nil. Qed.
Lemma row_nearest p P z : row !! p = Some P -> dist2 P z <= dist2 (0, 2) z -> dist2 P z <= dist2 (2, 2) z -> dist2 P z <= dist2 (1, 0) z -> nearest row p z.
Proof. intros HP H1 H2 H3. exists P. split; [done|]. intros Q HQ. unfold row in HQ. rewrite !elem_of_cons, elem_of_nil in HQ. by destruct HQ as [-> |[-> |[-> |[]]]]. Qed.
Lemma row_vertex z : voronoi_vertex row z -> z = (1, 5 / 4).
Proof.
  intros (a & b & c & N & Ha & Hb & Hc). assert (L : forall k, nearest row k z -> (k < 3)%nat). { intros k (P & HP & _). apply lookup_lt_Some in HP. exact HP. }
  pose proof (L a Ha). pose proof (L b Hb). pose proof (L c Hc). apply NoDup_cons in N as [N1 N]. apply NoDup_cons in N as [N2 _].
  rewrite !elem_of_cons in N1. rewrite elem_of_cons in N2.
  assert (ALL : nearest row 0 z /\ nearest row 1 z /\ nearest row 2 z).
  { destruct a as [|[|[|a]]]; [..|lia]; destruct b as [|[|[|b]]]; try lia; destruct c as [|[|[|c]]]; try lia; tauto. }
  destruct ALL as ((P0 & E0 & M0) & (P1 & E1 & M1) & (P2 & E2 & M2)). injection E0 as <-. injection E1 as <-. injection E2 as <-.
  assert (I0 : ((0, 2) : rpt) ∈ row) by left. assert (I1 : ((2, 2) : rpt) ∈ row) by (right; left). assert (I2 : ((1, 0) : rpt) ∈ row) by (right; right; left).
  pose proof (M0 _ I1) as A1. pose proof (M0 _ I2) as A2. pose proof (M1 _ I0) as A3. pose proof (M2 _ I0) as A4. destruct z as [x y]. unfold dist2 in *; cbn [fst snd] in *. f_equal; lra.
Qed.
Lemma row_fits : box_fits row (-1) 3 (-1) 4.
Proof.
  split; [|split].
  - intros P HP. unfold row in HP. rewrite !elem_of_cons, elem_of_nil in HP. unfold in_box. destruct HP as [-> |[-> |[-> |[]]]]; cbn [fst snd]; lra.
  - intros [x y] [Hx Hy]. cbn [fst snd] in *. destruct (Rle_lt_dec y 2).
    + exists (1, 0). split; [right; right; left|]. unfold dist2; cbn [fst snd]. nra.
    + destruct (Rle_lt_dec x 1); [exists (0, 2); split; [left|]|exists (2, 2); split; [right; left|]]; unfold dist2; cbn [fst snd]; nra.
  - intros z Hz. apply row_vertex in Hz as ->. unfold inside_box; cbn [fst snd]. lra.
Qed.
Lemma row_one p q k (c : rpt) : (forall j (P : rpt), row !! j = Some P -> j <> k -> exists Q : rpt, Q ∈ row /\ dist2 Q c < dist2 P c) -> nearest row p c -> nearest row q c -> p = q.
Proof.
  intros H. assert (K : forall p, nearest row p c -> p = k).
  { intros x (P & HP & HM). destruct (decide (x = k)) as [|N]; [done|]. destruct (H x P HP N) as (Q & HQ & HL). specialize (HM Q HQ). lra. }
  intros Hp Hq. rewrite (K _ Hp), (K _ Hq). done.
Qed.
Lemma row_regular box : bounding_box RArith (-1) 3 (-1) 4 = Val box -> regular row box.
Proof.
  apply box_regular; [exact row_nodup|lra|lra|exact row_fits| |].
  - intros P HP. unfold row in HP. repeat (apply elem_of_cons in HP as [-> |HP]; [unfold inside_box; cbn [fst snd]; lra|]). by apply elem_of_nil in HP.
  - intros c p q Hc. repeat (apply elem_of_cons in Hc as [-> |Hc]); [..|by apply elem_of_nil in Hc].
    + apply (row_one p q 0). intros j P HP N. exists (0, 2). split; [unfold row; left|]. destruct j as [|[|[|j]]]; [done| | |done]; injection HP as <-; unfold dist2; cbn [fst snd]; lra.
    + apply (row_one p q 1). intros j P HP N. exists (2, 2). split; [unfold row; right; left|]. destruct j as [|[|[|j]]]; [|done| |done]; injection HP as <-; unfold dist2; cbn [fst snd]; lra.
    + apply (row_one p q 2). intros j P HP N. exists (1, 0). split; [unfold row; do 2 right; left|]. destruct j as [|[|[|j]]]; [| |done|done]; injection HP as <-; unfold dist2; cbn [fst snd]; lra.
    + apply (row_one p q 2). intros j P HP N. exists (1, 0). split; [unfold row; do 2 right; left|]. destruct j as [|[|[|j]]]; [| |done|done]; injection HP as <-; unfold dist2; cbn [fst snd]; lra.
Qed.
Lemma row_runs box : bounding_box RArith (-1) 3 (-1) 4 = Val box -> exists s, create_diagram RArith box false 22 row (init_state RArith (pg_points RArith box)) = Val (s, tt).
Proof.
  intros HB. destruct (bounding_box_R (-1) 3 (-1) 4) as (P & HP & HL & _ & _ & E1 & E2); [lra..|]. assert (P = box) as -> by congruence.
  apply (C13_create_diagram_returns row box 22 row_nodup); [simpl; lia|rewrite HL; simpl; lia|simpl; lia|].
  change (finish_sweep_line RArith box) with (pg_min_y RArith box - Rabs (pg_max_y RArith box)). rewrite E1, E2. rewrite (Rabs_pos_eq 4) by lra. unfold row. repeat constructor; cbn [snd]; lra.
Qed.
(* the two highest sites are separated by an edge that goes up to the top side: all of it up to
   (1, 4) is drawn, and the border edge that starts there belongs to one of them *)
Example C50_C57_two_tops_case : exists box s, bounding_box RArith (-1) 3 (-1) 4 = Val box /\ regular row box /\
  create_diagram RArith box false 22 row (init_state RArith (pg_points RArith box)) = Val (s, tt) /\
  (forall y, 5 / 4 < y < 4 -> exists e f, (e ∈ s_edges s \/ f ∈ s_edges s) /\ edge_point row s e f 0 1 (1, y)) /\
  exists l f, borders RArith s f 0 = Val l /\ enclosed s l (1, 4) /\ ~ enclosed s l (5 / 4, 4).
Proof.
  destruct (bounding_box_R (-1) 3 (-1) 4) as (box & HB & HL & _); [lra..|]. pose proof (row_regular box HB) as HG. destruct (row_runs box HB) as [s HD].
  exists box, s. do 3 (split; [done|]). split.
  - intros y Hy. apply (C50_voronoi_has_edges row box false 22 s 0 1 (1, y) row_nodup (r_convex _ _ HG) (r_corners _ _ HG) (r_low _ _ HG) (r_generic _ _ HG) (r_extent _ _ HG)); [|done|done| | | |].
    + intros P Q HP HQ _ _ _. split; by apply (r_inside _ _ HG).
    + apply (row_nearest 0 (0, 2)); [done|unfold dist2; cbn [fst snd]; nra..].
    + apply (row_nearest 1 (2, 2)); [done|unfold dist2; cbn [fst snd]; nra..].
    + intros r (P & HP & HM). destruct r as [|[|[|r]]]; [by left|by right| |done]. exfalso. injection HP as <-.
      specialize (HM (0, 2) ltac:(left)). unfold dist2 in HM; cbn [fst snd] in HM. nra.
    + rewrite HL. apply box_interior; [lra..|]. unfold inside_box; cbn [fst snd]. lra.
  - destruct (C57_cells row box 22 s 0 HG HD ltac:(simpl; lia)) as [(l & f & Hl) HX]. exists l, f. split; [done|]. specialize (HX l f Hl). split.
    + apply HX. split; [apply (row_nearest 0 (0, 2)); [done|unfold dist2; cbn [fst snd]; lra..]|]. rewrite HL. apply box_exterior; [lra..|]. unfold in_box. cbn [fst snd]. lra.
    + intros X. apply HX in X as [(P & HP & HM) _]. injection HP as <-. specialize (HM (2, 2) ltac:(right; left)). unfold dist2 in HM; cbn [fst snd] in HM. lra.
Qed.
