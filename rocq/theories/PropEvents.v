(* PropEvents.v -- C64: the parts of a drawing that are asked for one by one: the circle of an event, the
   arcs, given edges, vertices and sites, and the part of the plane that is shown.  Exact arithmetic. *)
From stdpp Require Import base list sets.
From Coq Require Import ZArith Reals Lra Lia.
From Verif Require Import Arith Geom Monad Tree Heapq State Sweep Finish HeapqProofs Circle SweepBase SweepLoop Spec SweepFacts RArith GeomReal PolyReal CircleReal SpecVoronoi VoronoiFacts EnvelopeFacts SpecClip FinishFacts ArcSet
  PropSweep PropEnvelope PropReal PropGeom PropVoronoi PropClip PropCells Visual VisualReal SpecVisual VisualEdges CellDraw DrawAll DrawEvent PropDrawing.
Local Open Scope R_scope.

(* ---------- C64 ---------- *)
(* the circle of an event in the middle of z with radius r, and the sites P on it *)
Definition circle_drawn (triangle : bool) (z : rpt) (r : R) (P : list rpt) : list (cmd RArith) :=
  [CCircle RArith VALID_CIRCLE z r] ++ (if triangle then [CPolygon RArith TRIANGLE P] else []) ++ [CScatter RArith VALID_CIRCLE P].

(* plot_event without an event, when the last event handled was a circle event: it draws the circle
   through three sites that touches the sweep line from above, those sites, and the triangle of them
   if wanted.  The middle of the circle is a vertex of the diagram and no site is nearer to it. *)
Theorem C64_current_event (xys corners : list (pt RArith)) s index hist i k arg triangle : NoDup xys -> runs RArith xys corners s index hist ->
  last hist = Some i -> i_ev i = ECircle k -> arg = ENone \/ arg = EBool false ->
  exists a b c (pa pb pc : rpt) x y r v, NoDup [a; b; c] /\ xys !! a = Some pa /\ xys !! b = Some pb /\ xys !! c = Some pc /\
    plot_event RArith arg triangle s = Val (s, circle_drawn triangle (x, y) r [pa; pb; pc]) /\
    0 < r /\ dist2 pa (x, y) = r * r /\ dist2 pb (x, y) = r * r /\ dist2 pc (x, y) = r * r /\ s_sweep s = Some (y - r) /\
    v ∈ s_vset s /\ located RArith s v (x, y) /\ nearest xys a (x, y) /\ nearest xys b (x, y) /\ nearest xys c (x, y).
Proof.
  intros ND HR HL Hi Ha. assert (He : s_event s = Some (ECircle k)) by (rewrite (event_last RArith xys corners s index hist (lawful_real xys) HR), HL; cbn; by rewrite Hi).
  exact (event_drawn xys corners ND s index hist k arg triangle HR He Ha).
Qed.
Print Assumptions C64_current_event.
(* when the last event was a site event, or there was none, nothing is drawn; nor for a given site event *)
Theorem C64_site_event (xys corners : list (pt RArith)) s index hist arg triangle p : runs RArith xys corners s index hist ->
  match last hist with Some i => i_ev i = ESite p | None => True end -> arg = ENone \/ arg = EBool false \/ arg = EEvent (ESite p) ->
  plot_event RArith arg triangle s = Val (s, []).
Proof.
  intros HR HL Ha. unfold plot_event, bind, read.
  assert (He : s_event s = None \/ s_event s = Some (ESite p)).
  { rewrite (event_last RArith xys corners s index hist (lawful_real xys) HR). destruct (last hist) as [i|]; [right; cbn; by rewrite HL|by left]. }
  destruct Ha as [-> |[-> | ->]]; [destruct He as [-> | ->]; done| destruct He as [-> | ->]; done|done].
Qed.
Print Assumptions C64_site_event.
(* plot_event with an event of the queue that has not been cancelled: the circle through the three sites,
   whose lowest point is the place of the event *)
Theorem C64_pending_event (xys corners : list (pt RArith)) s index hist i k triangle : NoDup xys -> runs RArith xys corners s index hist ->
  i ∈ s_queue s -> i_ev i = ECircle k -> ignored RArith s i = false ->
  exists a b c (pa pb pc : rpt) x y r, NoDup [a; b; c] /\ xys !! a = Some pa /\ xys !! b = Some pb /\ xys !! c = Some pc /\
    plot_event RArith (EEvent (ECircle k)) triangle s = Val (s, circle_drawn triangle (x, y) r [pa; pb; pc]) /\
    0 < r /\ dist2 pa (x, y) = r * r /\ dist2 pb (x, y) = r * r /\ dist2 pc (x, y) = r * r /\ i_x i = x /\ i_y i = y - r.
Proof. intros ND HR Hi Hk Hn. exact (pending_drawn xys corners ND s index hist i k triangle HR Hi Hk (queue_valid RArith xys corners s index hist i k (lawful_real xys) HR Hi Hk Hn)). Qed.
Print Assumptions C64_pending_event.

(* plot_arcs(plot_arcs=True): the parabola of each site on the beach line, dashed, or a vertical line if the
   site is on the sweep line; and no parabola or vertical line of anything but a site already seen *)
Theorem C64_arcs (xys corners : list (pt RArith)) s index hist l given cv order labels :
  runs RArith xys corners s index hist -> uses_line s given l -> order ≡ₚ s_arcset s ->
  exists cmds, plot_arcs RArith cv order None given true labels s = Val (s, cmds) /\
    (forall L n p (P : rpt), beach RArith s L -> n ∈ L -> site RArith s n = Some p -> xys !! p = Some P ->
       (snd P <> l -> exists curve, CCurve RArith ARC true curve ∈ cmds /\ follows cv l P curve) /\
       (snd P = l -> CVertical RArith SWEEP_LINE (fst P) ∈ cmds)) /\
    (forall dashed curve, CCurve RArith ARC dashed curve ∈ cmds -> dashed = true /\ exists p (P : rpt), passed hist p /\ xys !! p = Some P /\ snd P <> l /\ follows cv l P curve) /\
    (forall c x, CVertical RArith c x ∈ cmds -> c = SWEEP_LINE /\ exists p (P : rpt), passed hist p /\ xys !! p = Some P /\ snd P = l /\ x = fst P).
Proof. exact (arcs_drawn xys corners s index hist l given cv order labels). Qed.
Print Assumptions C64_arcs.
Theorem C64_no_arcs (xys corners : list (pt RArith)) s index hist given cv order labels :
  runs RArith xys corners s index hist -> order ≡ₚ s_arcset s ->
  exists cmds, plot_arcs RArith cv order None given false labels s = Val (s, cmds) /\
    (forall dashed curve, CCurve RArith ARC dashed curve ∉ cmds) /\ (forall c x, CVertical RArith c x ∉ cmds).
Proof. exact (arcs_hidden xys corners s index hist given cv order labels). Qed.
Print Assumptions C64_no_arcs.

(* plot_edges, plot_vertices and plot_sites with a list that is not empty draw what is in it *)
Theorem C64_given_edges (xys : list (pt RArith)) (poly : polygon RArith) fuel s es cv given labels c : regular xys poly ->
  create_diagram RArith poly false fuel xys (init_state RArith (pg_points RArith poly)) = Val (s, tt) ->
  es <> [] -> (forall e, e ∈ es -> side_of s e) ->
  exists cmds, plot_edges RArith cv (Some es) given labels c s = Val (s, cmds) /\
    forall z, on_line cmds c z <-> exists e a b, e ∈ es /\ runs_to s e a b /\ on_segment a b z.
Proof.
  intros HG HD NE HE. apply edges_given; [done|]. intros e He. destruct (HE e He) as [H|(f & H & T)].
  - exact (da_joined xys poly HG fuel s HD e H).
  - destruct (da_joined xys poly HG fuel s HD f H) as (e' & a & b & J & N1 & N2). assert (e' = e) as -> by (destruct J as (J & _); congruence). exists f, b, a. split; [by apply joins_sym|done].
Qed.
Print Assumptions C64_given_edges.
Theorem C64_given_vertices s vs : vs <> [] -> (forall v, v ∈ vs -> exists z, located RArith s v z) ->
  exists l, plot_vertices RArith (Some vs) s = Val (s, [CScatter RArith VERTICES l]) /\ Forall2 (fun v z => located RArith s v z) vs l.
Proof. exact (vertices_given s vs). Qed.
Print Assumptions C64_given_vertices.
Theorem C64_given_sites (xys corners : list (pt RArith)) s index hist ps c : runs RArith xys corners s index hist ->
  ps <> [] -> (forall p, p ∈ ps -> (p < length xys)%nat) ->
  exists l, plot_sites RArith (Some ps) false c s = Val (s, [CScatter RArith c l]) /\ Forall2 (fun p z => xys !! p = Some z) ps l.
Proof.
  intros HR NE HP. destruct (runs_corners RArith xys corners RArith_order (RArith_mid _) RArith_circle _ _ _ HR) as (_ & _ & _ & Hpx & _).
  apply sites_given; [exact Hpx|done|]. intros p Hp. apply lookup_lt_is_Some. by apply HP.
Qed.
Print Assumptions C64_given_sites.
(* an empty list draws everything, as if no list were given: there is no way to draw none of them *)
Theorem C64_empty_list (A : Arith) cv order given labels scale show c s :
  plot_edges A cv (Some []) given labels c s = plot_edges A cv None given labels c s /\
  plot_border_to_site A cv (Some []) given s = plot_border_to_site A cv None given s /\
  plot_outgoing_edges A cv (Some []) scale s = plot_outgoing_edges A cv None scale s /\
  plot_vertices A (Some []) s = plot_vertices A None s /\ plot_sites A (Some []) labels c s = plot_sites A None labels c s /\
  plot_arcs A cv order (Some []) given show labels s = plot_arcs A cv order None given show labels s.
Proof. repeat split. Qed.
Print Assumptions C64_empty_list.

(* the part of the plane that is shown: the smallest box around the polygon, with the margin `offset`
   on each side; for a circle, the box around the circle twice as large *)
Theorem C64_canvas_polygon (ts : list rpt) P offset : polygon_init RArith ts = Val P ->
  let cv := canvas_size RArith (BPoly RArith P) offset in
  extremes ts (cv_min_x RArith cv + offset) (cv_max_x RArith cv - offset) (cv_min_y RArith cv + offset) (cv_max_y RArith cv - offset).
Proof.
  intros HI. cbv zeta. unfold canvas_size. cbn [cv_min_x cv_max_x cv_min_y cv_max_y bd_min_x bd_max_x bd_min_y bd_max_y dsub dadd RArith]. change (D RArith) with R in *.
  destruct ts as [|t0 ts]; [done|].
  destruct (C31_corner_order (t0 :: ts) (t0 :: ts)) as (P' & HI' & _ & HE & _); [done|done|]. rewrite HI in HI'. injection HI' as <-.
  assert (K1 : forall a b : R, a - b + b = a) by (intros; ring). assert (K2 : forall a b : R, a + b - b = a) by (intros; ring). rewrite !K1, !K2. exact HE.
Qed.
Print Assumptions C64_canvas_polygon.
Theorem C64_canvas_circle (ci : circle RArith) offset : 0 <= ci_r ci ->
  let cv := canvas_size RArith (BCircle RArith ci) offset in
  (forall z : rpt, dist2 (ci_x ci, ci_y ci) z <= (2 * ci_r ci) * (2 * ci_r ci) ->
     cv_min_x RArith cv + offset <= fst z <= cv_max_x RArith cv - offset /\ cv_min_y RArith cv + offset <= snd z <= cv_max_y RArith cv - offset) /\
  forall z : rpt, z ∈ [(cv_min_x RArith cv + offset, ci_y ci); (cv_max_x RArith cv - offset, ci_y ci); (ci_x ci, cv_min_y RArith cv + offset); (ci_x ci, cv_max_y RArith cv - offset)] ->
    dist2 (ci_x ci, ci_y ci) z = (2 * ci_r ci) * (2 * ci_r ci).
Proof.
  destruct ci as [x y r]. cbn [ci_x ci_y ci_r]. intros Hr. cbv zeta. unfold canvas_size. cbn [cv_min_x cv_max_x cv_min_y cv_max_y bd_min_x bd_max_x bd_min_y bd_max_y dsub dadd dmul dZ RArith ci_x ci_y ci_r]. change (D RArith) with R in *.
  split.
  - intros [u v]. unfold dist2. cbn [fst snd]. intros H. pose proof (sq_nonneg (x - u)). pose proof (sq_nonneg (y - v)). assert (J1 : (x - u) * (x - u) <= 2 * r * (2 * r)) by lra. assert (J2 : (y - v) * (y - v) <= 2 * r * (2 * r)) by lra.
    assert (K : forall w, w * w <= 2 * r * (2 * r) -> - (2 * r) <= w <= 2 * r) by (intros w Hw; split; [apply (Rsqr_neg_pos_le_0 w (2 * r) Hw); lra|apply (Rsqr_incr_0_var w (2 * r) Hw); lra]). apply K in J1, J2. lra.
  - intros z Hz. unfold dist2. rewrite !elem_of_cons, elem_of_nil in Hz. destruct Hz as [-> |[-> |[-> |[-> |[]]]]]; cbn [fst snd]; ring.
Qed.
Print Assumptions C64_canvas_circle.

(* the three sites of C46: a circle event is pending, then it is the last one handled *)
Example C64_event_case : exists s1 index1 hist1 s2 index2 i k, runs RArith tri [] s1 index1 hist1 /\ i ∈ s_queue s1 /\ i_ev i = ECircle k /\ ignored RArith s1 i = false /\
  runs RArith tri [] s2 index2 (hist1 ++ [i]) /\ last (hist1 ++ [i]) = Some i.
Proof.
  destruct C46_C47_C55_case as (s & HS & _ & v & Hv & _). destruct (sweep_over _ _ _ _ tri_nodup HS) as (s0 & idx & hist & log & [HR HQ] & ->).
  destruct (C17_edge_count RArith tri [] s0 idx hist (lawful_real tri) (conj HR HQ)) as (_ & HC & _); [simpl; lia|]. change (v ∈ s_vset s0) in Hv.
  destruct (run_circle RArith tri [] s0 idx hist (lawful_real tri) HR) as (s1 & i1 & h1 & s2 & i2 & i & k & H1 & H2 & H3 & H4 & H5).
  { rewrite <- HC. destruct (s_vset s0); [by apply elem_of_nil in Hv|simpl; lia]. }
  exists s1, i1, h1, s2, i2, i, k. by rewrite last_snoc.
Qed.
(* two sites: both are on the beach line *)
Example C64_arcs_case : exists s index hist L n1 n2 l, runs RArith duo [] s index hist /\ uses_line s None l /\ beach RArith s L /\
  n1 ∈ L /\ site RArith s n1 = Some 1%nat /\ n2 ∈ L /\ site RArith s n2 = Some 0%nat.
Proof.
  destruct C42_C48_case as (s & index & hist & L & n1 & b1 & n2 & b2 & n3 & l0 & HR & _ & _ & HB & EL & H1 & H2 & _ & _ & _ & P0 & _).
  assert (HN : hist <> []) by (intros ->; by apply elem_of_nil in P0).
  destruct (runs_reach RArith duo [] RArith_order (RArith_mid _) RArith_circle _ _ _ HR) as [(_ & _ & ->)|(t & dn & HR' & _)]; [done|].
  destruct (SweepRealLoop.reach_geo duo [] duo_nodup _ _ _ _ HR') as (l & Hsw & _).
  exists s, index, hist, L, n1, n2, l. split; [done|]. split; [by left|]. split; [done|]. rewrite EL. repeat split; try done; rewrite !elem_of_cons; auto.
Qed.
(* three sites in a box: an edge, a vertex and a site to draw *)
Example C64_given_case : exists box s e v, bounding_box RArith (-1) 3 (-1) 4 = Val box /\ regular tri box /\
  create_diagram RArith box false 22 tri (init_state RArith (pg_points RArith box)) = Val (s, tt) /\ side_of s e /\ located RArith s v (1, 1).
Proof.
  destruct C59_case as (box & s & HB & HG & HD & HX). destruct (HX (canvas_size RArith (BPoly RArith box) 1)) as ((cmds & E & (a & b & Hon & _) & _) & _ & (l & EV & Hl) & _).
  assert (exists e, e ∈ s_edges s) as [e He].
  { destruct (s_edges s) as [|e es] eqn:Ee; [|exists e; left]. unfold plot_edges, bind, read in E. cbn [or_list] in E. rewrite Ee in E. cbn in E. injection E as <-. by apply elem_of_nil in Hon. }
  assert (exists v, located RArith s v (1, 1)) as [v Hv].
  { destruct (vertices_val s (proj1 (da_vset tri box HG 22 s HD))) as (l2 & E2 & _ & H2). rewrite EV in E2. injection E2 as <-. apply H2 in Hl as (v & _ & Hv). eauto. }
  exists box, s, e, v. split; [done|]. split; [done|]. split; [done|]. split; [by left|done].
Qed.
Example C64_canvas_case : exists P, polygon_init RArith [(0, 0); (1, 1); (1, 0)] = Val P.
Proof. destruct (C31_corner_order _ _ (proj1 C31_case) (proj2 C31_case)) as (P & HP & _). eauto. Qed.
