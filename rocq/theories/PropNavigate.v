(* PropNavigate.v -- C65: walking over the finished diagram with next, prev, twin and target, and
   turning around a vertex.  Exact arithmetic; sites and polygon as in SpecClip.regular. *)
From stdpp Require Import base list sets.
From Coq Require Import ZArith Reals Lra Lia Psatz.
From Verif Require Import Arith Geom Monad Tree Heapq State Sweep Finish SweepBase Dcel SweepInv Spec RArith GeomReal AreaReal PolyReal ConvexReal CircleReal FinishReal EdgeReal VoronoiGeom
  VoronoiStep Envelope EnvelopeEvents EnvelopeRow SpecVoronoi VoronoiFacts ClipGeom ClipBeach ClipVoronoi ClipFinal SpecClip SpecFinish FinishDiagram FinishBorder FinishLinks VisualEdges PropGeom PropVoronoi PropEnvelope PropReal PropClip CellGeom CellTrail CellBorder CellFirst CellArea
  SpecVisual VisualEdges CellDraw DrawAll PropCells CellClean PropClean Navigate NavFacts Visual PropDrawing.
Local Open Scope R_scope.

(* the target of half-edge e is vertex v *)
Definition target_is (s : state RArith) (e v : nat) : Prop := edge_target RArith e s = Val (s, Some (OVx v)).
(* half-edge f is reached from e by e.twin.next *)
Definition turns_to (s : state RArith) (e f : nat) : Prop := exists t, twin RArith s e = Some t /\ next RArith s t = Some f.

Lemma target_val (s : state RArith) e t v : twin RArith s e = Some t -> starts_at RArith s t v -> target_is s e v.
Proof.
  intros HT (ht & H1 & H2). unfold twin, half in *. destruct (s_hedges s !! e) as [h|] eqn:Eh; [|done]. simpl in HT.
  unfold target_is, edge_target, bind. rewrite (hedges_get' s e h Eh), HT, (hedges_get' s t ht H1), H2. done.
Qed.

Section Nav.
Context (xys : list (pt RArith)) (poly : polygon RArith) (HG : regular xys poly) (fuel : nat) (s' : state RArith).
Notation A := RArith.
Context (HD : create_diagram A poly false fuel xys (init_state A (pg_points A poly)) = Val (s', tt)).
Let LL := r_low _ _ HG.

Lemma links e p : side_of s' e -> borders_site A s' e = Some p -> exists u v n l,
  starts_at A s' e u /\ target_is s' e v /\
  next A s' e = Some n /\ prev A s' n = Some e /\ starts_at A s' n v /\ borders_site A s' n = Some p /\
  prev A s' e = Some l /\ next A s' l = Some e /\ target_is s' l u /\ borders_site A s' l = Some p.
Proof.
  intros HS HP. pose proof (reg_top xys poly HG) as TP.
  destruct (final_parts xys poly (r_distinct _ _ HG) (r_corners _ _ HG) (ll_sites xys poly LL) (ll_inside xys poly LL) (ll_vertex xys poly LL) (gp_vertex xys poly (r_generic _ _ HG)) TP fuel s' HD)
    as (s & idx & hist & s1 & r & dead & p0 & s2 & ex & HSw & HK & Hm & HR & N0 & Hhed & Hver & Hpts & Hvs & Hed & Hex & _).
  pose proof (site_live xys poly (r_corners _ _ HG) s idx hist HSw s1 r dead HK Hm p0 s2 HR s' e p Hhed Hed HS HP) as HL.
  pose proof (nav_next xys poly (r_distinct _ _ HG) (r_convex _ _ HG) (r_corners _ _ HG) (ll_sites xys poly LL) (ll_inside xys poly LL) (ll_vertex xys poly LL) (gp_vertex xys poly (r_generic _ _ HG)) TP (r_inside _ _ HG)
    (corner_one xys poly HG) (r_center _ _ HG) s idx hist HSw s1 r dead HK Hm p0 s2 HR N0) as NX.
  pose proof (nav_prev xys poly (r_distinct _ _ HG) (r_convex _ _ HG) (r_corners _ _ HG) (ll_sites xys poly LL) (ll_inside xys poly LL) (ll_vertex xys poly LL) (gp_vertex xys poly (r_generic _ _ HG)) TP (r_inside _ _ HG)
    (corner_one xys poly HG) (r_center _ _ HG) s idx hist HSw s1 r dead HK Hm p0 s2 HR N0) as PV.
  destruct (NX e HL) as (n & t & v & F1 & F2 & F3 & F4 & F5 & F6 & F7). destruct (PV e HL) as (l & K1 & K2). destruct (NX l K1) as (e' & t' & u & G1 & G2 & G3 & G4 & G5 & G6 & G7). assert (e' = e) as -> by congruence.
  assert (EQ : forall x, half A s' x = half A s2 x) by (intros x; unfold half; by rewrite Hhed).
  exists u, v, n, l. unfold borders_site in *. unfold starts_at, next, prev. rewrite !EQ in *.
  assert (TG : forall x y w, twin A s2 x = Some y -> starts_at A s2 y w -> target_is s' x w).
  { intros x y w H1 (h & H2 & H4). apply (target_val s' x y); [unfold twin; by rewrite EQ|]. exists h. by rewrite EQ. }
  split; [done|]. split; [by apply (TG e t)|]. split; [done|]. split; [done|]. split; [done|]. split; [congruence|]. split; [done|]. split; [done|]. split; [by apply (TG l t')|]. congruence.
Qed.

Lemma turn v z : v ∈ s_vset s' -> located A s' v z -> interior (pg_points A poly) z -> exists e1 e2 e3 p q t (P Q T : rpt),
  connected A s' v ≡ₚ [e1; e2; e3] /\ NoDup [e1; e2; e3] /\ starts_at A s' e1 v /\ starts_at A s' e2 v /\ starts_at A s' e3 v /\
  turns_to s' e1 e2 /\ turns_to s' e2 e3 /\ turns_to s' e3 e1 /\
  borders_site A s' e1 = Some p /\ borders_site A s' e2 = Some q /\ borders_site A s' e3 = Some t /\
  xys !! p = Some P /\ xys !! q = Some Q /\ xys !! t = Some T /\ 0 < cross3 P Q T.
Proof.
  intros Hv HLz Hz. pose proof (reg_top xys poly HG) as TP.
  destruct (final_parts xys poly (r_distinct _ _ HG) (r_corners _ _ HG) (ll_sites xys poly LL) (ll_inside xys poly LL) (ll_vertex xys poly LL) (gp_vertex xys poly (r_generic _ _ HG)) TP fuel s' HD)
    as (s & idx & hist & s1 & r & dead & p0 & s2 & ex & HSw & HK & Hm & HR & N0 & Hhed & Hver & Hpts & Hvs & Hed & Hex & _).
  assert (UP : forall v z, located A s1 v z -> located A s' v z).
  { intros u y (w & W1 & W2). destruct (b_conn _ _ _ _ _ _ HR u w W1) as (w' & X1 & X2 & _). exists w'. rewrite Hver. split; [done|]. congruence. }
  assert (FU : forall v z z', located A s' v z -> located A s1 v z' -> z' = z).
  { intros u y y' (w & W1 & W2) H. apply UP in H as (w' & W3 & W4). congruence. }
  assert (H1 : v ∈ s_vset s1 /\ located A s1 v z).
  { rewrite Hvs in Hv. apply elem_of_app in Hv as [Hv|Hv].
    - exfalso. destruct (ring_at poly s s1 r dead HK v Hv) as [X1 X2]. rewrite (FU v z _ HLz X1) in X2. by apply (outline_inner (pg_points A poly) (r_convex _ _ HG) z X2).
    - apply Hex in Hv as (Hv & w & xy & W1 & W2 & _). split; [done|]. exists w. split; [done|]. rewrite W2. f_equal. apply (FU v); [done|by exists w]. }
  destruct H1 as [V1 V2].
  destruct (nav_turn xys poly (r_distinct _ _ HG) (r_convex _ _ HG) (r_corners _ _ HG) (ll_sites xys poly LL) (ll_inside xys poly LL) (ll_vertex xys poly LL) (gp_vertex xys poly (r_generic _ _ HG)) TP (r_inside _ _ HG)
    (corner_one xys poly HG) (r_center _ _ HG) s idx hist HSw s1 r dead HK Hm p0 s2 HR N0 v z V1 V2 Hz) as (e1 & e2 & e3 & p & q & t & P & Q & T & t1 & t2 & t3 & X1 & X2 & X3 & X4 & X5 & X6 & X7 & (X8 & X9 & X10) & _ & (X11 & X12 & X13) & X14 & X15 & X16).
  assert (EQ : forall x, half A s' x = half A s2 x) by (intros x; unfold half; by rewrite Hhed).
  exists e1, e2, e3, p, q, t, P, Q, T. split; [unfold connected in *; by rewrite Hver|]. unfold starts_at, turns_to, borders_site, twin, next. setoid_rewrite EQ.
  split; [done|]. split; [exact X8|]. split; [exact X9|]. split; [exact X10|]. split; [by exists t1|]. split; [by exists t2|]. split; [by exists t3|]. done.
Qed.
End Nav.

(* Half-edge e of the diagram borders site p.  Then e.next starts where e ends, e.prev ends where e
   starts, the two are each other's inverse, and both border p. *)
Theorem C65_links (xys : list (pt RArith)) (poly : polygon RArith) fuel s e p : regular xys poly ->
  create_diagram RArith poly false fuel xys (init_state RArith (pg_points RArith poly)) = Val (s, tt) ->
  side_of s e -> borders_site RArith s e = Some p -> exists u v n l,
  starts_at RArith s e u /\ target_is s e v /\
  next RArith s e = Some n /\ prev RArith s n = Some e /\ starts_at RArith s n v /\ borders_site RArith s n = Some p /\
  prev RArith s e = Some l /\ next RArith s l = Some e /\ target_is s l u /\ borders_site RArith s l = Some p.
Proof. intros HG HD. exact (links xys poly HG fuel s HD e p). Qed.
Print Assumptions C65_links.

(* Around a vertex inside the polygon: its three connected edges start there, and twin.next goes from
   each to the next one, with the sites in counterclockwise order. *)
Theorem C65_turn (xys : list (pt RArith)) (poly : polygon RArith) fuel s v z : regular xys poly ->
  create_diagram RArith poly false fuel xys (init_state RArith (pg_points RArith poly)) = Val (s, tt) ->
  v ∈ s_vset s -> located RArith s v z -> interior (pg_points RArith poly) z -> exists e1 e2 e3 p q t (P Q T : rpt),
  connected RArith s v ≡ₚ [e1; e2; e3] /\ NoDup [e1; e2; e3] /\ starts_at RArith s e1 v /\ starts_at RArith s e2 v /\ starts_at RArith s e3 v /\
  turns_to s e1 e2 /\ turns_to s e2 e3 /\ turns_to s e3 e1 /\
  borders_site RArith s e1 = Some p /\ borders_site RArith s e2 = Some q /\ borders_site RArith s e3 = Some t /\
  xys !! p = Some P /\ xys !! q = Some Q /\ xys !! t = Some T /\ 0 < cross3 P Q T.
Proof. intros HG HD. exact (turn xys poly HG fuel s HD v z). Qed.
Print Assumptions C65_turn.

(* edge.twin.next is not "the previous edge" (examples/quickstart.py:47-48 says that it is edge.prev):
   for every edge between two sites the two are different, and border different sites *)
Theorem C65_twin_next_refuted (xys : list (pt RArith)) (poly : polygon RArith) fuel s e t p q : regular xys poly ->
  create_diagram RArith poly false fuel xys (init_state RArith (pg_points RArith poly)) = Val (s, tt) ->
  e ∈ s_edges s -> twin RArith s e = Some t -> borders_site RArith s e = Some p -> borders_site RArith s t = Some q ->
  exists f l, turns_to s e f /\ prev RArith s e = Some l /\ f <> l /\ borders_site RArith s f = Some q /\ borders_site RArith s l = Some p /\ p <> q.
Proof.
  intros HG HD He HT HP HQ. destruct (C65_links xys poly fuel s e p HG HD (or_introl He) HP) as (u & v & n & l & _ & _ & _ & _ & _ & _ & L1 & L2 & L3 & L4).
  destruct (C65_links xys poly fuel s t q HG HD) as (u' & v' & n' & l' & _ & _ & N1 & N2 & N3 & N4 & _); [right; by exists e|done|].
  assert (NE : p <> q).
  { destruct (da_joined xys poly HG fuel s HD e He) as (f & a & b & HJ & _). assert (f = t) as -> by (destruct HJ; congruence).
    destruct (da_sides xys poly HG fuel s HD e t a b He HJ) as (p' & X1 & [[X2 _]|(q' & X2 & X3)]); congruence. }
  exists n', l. split; [by exists t|]. split; [done|]. split; [intros ->; congruence|]. done.
Qed.
Print Assumptions C65_twin_next_refuted.

(* the same for the default call, when no point has four nearest sites *)
Theorem C65_default (xys : list (pt RArith)) (poly : polygon RArith) fuel s : regular xys poly -> at_most_three xys (pg_points RArith poly) ->
  create_diagram RArith poly true fuel xys (init_state RArith (pg_points RArith poly)) = Val (s, tt) ->
  (forall e p, side_of s e -> borders_site RArith s e = Some p -> exists u v n l,
     starts_at RArith s e u /\ target_is s e v /\
     next RArith s e = Some n /\ prev RArith s n = Some e /\ starts_at RArith s n v /\ borders_site RArith s n = Some p /\
     prev RArith s e = Some l /\ next RArith s l = Some e /\ target_is s l u /\ borders_site RArith s l = Some p) /\
  (forall v z, v ∈ s_vset s -> located RArith s v z -> interior (pg_points RArith poly) z -> exists e1 e2 e3,
     connected RArith s v ≡ₚ [e1; e2; e3] /\ turns_to s e1 e2 /\ turns_to s e2 e3 /\ turns_to s e3 e1).
Proof.
  intros HG N4 HD. rewrite (C60_default_diagram xys poly fuel HG N4) in HD. split; [intros e p; exact (C65_links xys poly fuel s e p HG HD)|].
  intros v z H1 H2 H3. destruct (C65_turn xys poly fuel s v z HG HD H1 H2 H3) as (e1 & e2 & e3 & p & q & t & P & Q & T & X1 & _ & _ & _ & _ & X2 & X3 & X4 & _). by exists e1, e2, e3.
Qed.
Print Assumptions C65_default.

(* a case: four sites; at the vertex (3/2, 0) an edge between two sites starts *)
Example C65_case : exists box s v e t p q, regular quad box /\ at_most_three quad (pg_points RArith box) /\
  create_diagram RArith box false 30 quad (init_state RArith (pg_points RArith box)) = Val (s, tt) /\
  v ∈ s_vset s /\ located RArith s v (3 / 2, 0) /\ interior (pg_points RArith box) (3 / 2, 0) /\
  e ∈ s_edges s /\ twin RArith s e = Some t /\ borders_site RArith s e = Some p /\ borders_site RArith s t = Some q.
Proof.
  destruct C60_case as (box & s & HB & HG & N4 & HD & u & v & _ & Hv & _ & Lv). rewrite (C60_default_diagram quad box 30 HG N4) in HD.
  destruct (bounding_box_R (-5) 5 (-3) 8) as (box' & HB' & HL & _); [lra..|]. assert (box' = box) as -> by congruence.
  assert (HI : interior (pg_points RArith box) (3 / 2, 0)) by (rewrite HL; apply box_interior; [lra..|]; unfold inside_box; cbn [fst snd]; lra).
  destruct (C65_turn quad box 30 s v (3 / 2, 0) HG HD Hv Lv HI) as (e1 & e2 & e3 & p & q & t & P & Q & T & X1 & _ & _ & _ & _ & (t1 & Y1 & Y2) & _ & _ & X2 & X3 & _ & _ & _ & _ & _).
  pose proof Lv as (w & W1 & _). destruct (da_outgoing quad box HG 30 s HD v w e1 Hv W1) as [(f & a & b & HJ & La) HS].
  { unfold connected in X1. rewrite W1 in X1. rewrite X1. by left. }
  assert (f = t1) as -> by (destruct HJ; congruence).
  assert (SQ : borders_site RArith s t1 = Some q).
  { destruct (borders_site RArith s t1) as [q'|] eqn:E.
    - assert (side_of s t1) as HS1. { destruct HS as [HS|(f & HS & HT)]; [right; by exists e1|left]. destruct (da_joined quad box HG 30 s HD f HS) as (g & a' & b' & (J1 & J2 & _) & _). assert (g = e1) as -> by congruence. assert (t1 = f) as -> by congruence. done. }
      destruct (C65_links quad box 30 s t1 q' HG HD HS1 E) as (u1 & v1 & n & l & _ & _ & Z1 & _ & _ & Z2 & _). congruence.
    - exfalso. destruct HS as [HS|(f & HS & HT)].
      + destruct (da_sides quad box HG 30 s HD e1 t1 a b HS HJ) as (p' & Z1 & [[_ Z2]|(q' & Z2 & _)]); [|congruence]. assert (a = (3 / 2, 0)) as -> by (destruct La as (w2 & U1 & U2), Lv as (w3 & U3 & U4); congruence).
        apply (outline_inner (pg_points RArith box) (r_convex _ _ HG) (3 / 2, 0)); [|done]. apply Z2. exists 0. split; [lra|]. destruct b. cbn [fst snd]. f_equal; ring.
      + destruct (da_joined quad box HG 30 s HD f HS) as (g & a' & b' & HJ' & _). assert (g = e1) as -> by (destruct HJ'; congruence). destruct HJ as (J1 & J2 & _), HJ' as (J3 & J4 & J5). assert (t1 = f) as -> by congruence.
        destruct (da_sides quad box HG 30 s HD f e1 a' b' HS (conj J3 (conj J4 J5))) as (p' & Z1 & _). congruence. }
  destruct HS as [HS|(f & HS & HT)].
  - exists box, s, v, e1, t1, p, q. done.
  - exists box, s, v, t1, e1, q, p. destruct (da_joined quad box HG 30 s HD f HS) as (g & a' & b' & (J1 & J2 & _) & _). assert (g = e1) as -> by congruence. assert (t1 = f) as -> by congruence. done.
Qed.


(* the list `vertices` of the finished diagram: all its elements have a position, and the positions are the
   corners of the polygon, the points of the outline with two nearest sites and the Voronoi vertices inside *)
Theorem C65_vertices (xys : list (pt RArith)) (poly : polygon RArith) fuel s : regular xys poly ->
  create_diagram RArith poly false fuel xys (init_state RArith (pg_points RArith poly)) = Val (s, tt) ->
  exists l, get_vertices RArith s = Val (s, l) /\ (forall v, v ∈ l -> exists z, located RArith s v z) /\
    forall z : rpt, (exists v, v ∈ l /\ located RArith s v z) <-> In z (pg_points RArith poly) \/
      (on_boundary (pg_points RArith poly) z /\ exists p q, p <> q /\ nearest xys p z /\ nearest xys q z) \/
      (interior (pg_points RArith poly) z /\ voronoi_vertex xys z).
Proof. intros HG HD. destruct (da_vset xys poly HG fuel s HD) as [H1 H2]. exists (s_vset s). split; [done|]. split; [exact H1|exact H2]. Qed.
Print Assumptions C65_vertices.
(* target of any half-edge in any state: None without a twin, and otherwise where the twin starts *)
Theorem C65_target (A : Arith) (s : state A) e h : s_hedges s !! e = Some h ->
  (h_twin h = None -> edge_target A e s = Val (s, None)) /\
  forall t ht, h_twin h = Some t -> s_hedges s !! t = Some ht -> edge_target A e s = Val (s, Some (h_origin ht)).
Proof.
  intros He. assert (G : forall x hx, s_hedges s !! x = Some hx -> hedges_do (get_at x) s = Val (s, hx)) by (intros x hx Hx; unfold hedges_do, zoom, get_at; rewrite Hx; by destruct s).
  unfold edge_target, bind. rewrite (G e h He). split; [intros ->; done|]. intros t ht -> Ht. rewrite (G t ht Ht). done.
Qed.
Print Assumptions C65_target.
(* the circle centre (1, 1) of three sites is the position of an element of `vertices` *)
Example C65_vertices_case : exists box s l v, bounding_box RArith (-1) 3 (-1) 4 = Val box /\ regular tri box /\
  create_diagram RArith box false 22 tri (init_state RArith (pg_points RArith box)) = Val (s, tt) /\ get_vertices RArith s = Val (s, l) /\ v ∈ l /\ located RArith s v (1, 1).
Proof.
  destruct C59_case as (box & s & HB & HG & HD & HX). destruct (HX (mkCanvas RArith 0 0 0 0)) as (_ & _ & (lv & Ev & Hv) & _). destruct (C59_vertices tri box 22 s HG HD) as (lv' & Ev' & LV). rewrite Ev in Ev'. injection Ev' as <-.
  destruct (C65_vertices tri box 22 s HG HD) as (l & El & _ & HL). apply LV in Hv. apply HL in Hv as (v & Hv & Lv). by exists box, s, l, v.
Qed.
