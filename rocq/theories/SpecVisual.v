(* SpecVisual.v -- what a drawing shows, independently of how it is made.  Exact arithmetic. *)
From stdpp Require Import base list.
From Coq Require Import Reals.
From Verif Require Import Arith Geom Monad State Spec RArith GeomReal SpecVoronoi Visual.
Local Open Scope R_scope.

(* nothing is left to happen above y = l: no circle event and no site *)
Definition quiet (xys : list (pt RArith)) (s : state RArith) (hist : list (qitem RArith)) (l : R) : Prop :=
  between_events s l /\ forall q (Q : rpt), xys !! q = Some Q -> ~ passed hist q -> snd Q <= l.

(* the argument sweep_line=given of a plot function makes it use y = l: none is given and the
   sweep line is at l, or l is given -- but a given 0 is ignored *)
Definition uses_line (s : state RArith) (given : option R) (l : R) : Prop :=
  (given = None /\ s_sweep s = Some l) \/ (given = Some l /\ l <> 0).

(* z is on a line that is drawn in color c.  A line with an end at infinity shows nothing. *)
Definition on_line (cmds : list (cmd RArith)) (c : color) (z : rpt) : Prop :=
  exists a b : rpt, CLine RArith c (xpt_of RArith a) (xpt_of RArith b) ∈ cmds /\
    exists u, 0 <= u <= 1 /\ z = walk a u (fst b - fst a, snd b - snd a).

(* z is not nearer to the sweep line than to site p: it lies on or above the parabola of p *)
Definition above_arc (xys : list (pt RArith)) (l : R) (p : nat) (z : rpt) : Prop :=
  exists P : rpt, xys !! p = Some P /\ l < snd z /\ dist2 P z <= (snd z - l) * (snd z - l).

(* exactly one curve is drawn in the color of the beach line: this one *)
Definition beach_curve (cmds : list (cmd RArith)) (curve : list (R * R)) : Prop :=
  forall dashed c, CCurve RArith BEACH_LINE dashed c ∈ cmds <-> dashed = false /\ c = curve.

(* the curve has 1000 points, evenly spaced over the canvas, each as far from P as from y = l *)
Definition follows (cv : canvas RArith) (l : R) (P : rpt) (curve : list (R * R)) : Prop := length curve = 1000%nat /\
  forall i x y, curve !! i = Some (x, y) -> x = cv_min_x RArith cv + INR i * (cv_max_x RArith cv - cv_min_x RArith cv) / 999 /\ dist2 P (x, y) = (y - l) * (y - l).

(* ---------- the finished diagram ---------- *)
(* half-edge e runs from a to b, its twin f from b to a *)
Definition joins (s : state RArith) (e f : nat) (a b : rpt) : Prop :=
  twin RArith s e = Some f /\ twin RArith s f = Some e /\ origin_at s e a /\ origin_at s f b.
(* the name of a site, and of the site that a half-edge borders *)
Definition site_name (s : state RArith) (p : nat) : option nat := x ← s_points s !! p; p_name x.
Definition edge_name (s : state RArith) (e : nat) : option nat := p ← borders_site RArith s e; site_name s p.
(* the point at distance d from a, on the way from a to b *)
Definition ahead_by (a b : rpt) (d : R) : rpt := walk a (d / sqrt (dist2 a b)) (fst b - fst a, snd b - snd a).
(* the half-edges of the edges *)
Definition side_of (s : state RArith) (e : nat) : Prop := e ∈ s_edges s \/ exists f, f ∈ s_edges s /\ twin RArith s f = Some e.
