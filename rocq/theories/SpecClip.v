(* SpecClip.v -- what is assumed of the sites and the polygon when the finished diagram is
   compared with the Voronoi diagram.  Exact arithmetic. *)
From stdpp Require Import base list.
From Coq Require Import Reals.
From Verif Require Import Arith Geom State SweepBase Spec RArith GeomReal ConvexReal SpecVoronoi.
Local Open Scope R_scope.

(* a Voronoi vertex: three different sites are nearest *)
Definition voronoi_vertex (xys : list (pt RArith)) (z : rpt) : Prop :=
  exists a b c, NoDup [a; b; c] /\ nearest xys a z /\ nearest xys b z /\ nearest xys c z.
(* z is above the horizontal line at y = l, and some site is nearer to z than the line *)
Definition clears (xys : list (pt RArith)) (l : R) (z : rpt) : Prop :=
  l < snd z /\ exists P : rpt, P ∈ xys /\ dist2 P z < (snd z - l) * (snd z - l).
(* the line y = l lies below everything: the sites, the polygon and the Voronoi vertices *)
Definition low_line (xys : list (pt RArith)) (corners : list rpt) (l : R) : Prop :=
  forall z : rpt, z ∈ xys \/ ~ exterior corners z \/ voronoi_vertex xys z -> clears xys l z.
(* no Voronoi vertex lies on the outline of the polygon *)
Definition generic_polygon (xys : list (pt RArith)) (corners : list rpt) : Prop :=
  forall z : rpt, voronoi_vertex xys z -> interior corners z \/ exterior corners z.
(* if several sites are highest, they are inside *)
Definition tops_inside (xys : list (pt RArith)) (inside : rpt -> Prop) : Prop :=
  forall P Q : rpt, P ∈ xys -> Q ∈ xys -> P <> Q -> snd P = snd Q -> (forall r : rpt, r ∈ xys -> snd r <= snd P) -> inside P /\ inside Q.
(* min_y and max_y belong to the corners, as in every polygon that Polygon.__init__ makes *)
Definition extent (poly : polygon RArith) : Prop :=
  (exists c : rpt, c ∈ pg_points RArith poly /\ snd c = pg_min_y RArith poly) /\ forall c : rpt, c ∈ pg_points RArith poly -> snd c <= pg_max_y RArith poly.
(* the closed box with these sides *)
Definition in_box (l r b t : R) (z : rpt) : Prop := l <= fst z <= r /\ b <= snd z <= t.
Definition inside_box (l r b t : R) (z : rpt) : Prop := l < fst z < r /\ b < snd z < t.

(* ---------- cells ---------- *)
(* What is assumed of sites and polygon: different sites, all of them inside; a convex polygon; the
   finishing line is low; no Voronoi vertex on the outline, no corner with two nearest sites;
   min_y and max_y as the constructor sets them; the centre of the bounding box, around which corners
   are sorted, is inside. *)
Record regular (xys : list (pt RArith)) (poly : polygon RArith) : Prop := {
  r_distinct : NoDup xys;
  r_convex : convex (pg_points RArith poly);
  r_corners : (3 <= length (pg_points RArith poly))%nat;
  r_low : low_line xys (pg_points RArith poly) (pg_min_y RArith poly - Rabs (pg_max_y RArith poly));
  r_generic : generic_polygon xys (pg_points RArith poly);
  r_extent : extent poly;
  r_inside : forall P : rpt, P ∈ xys -> interior (pg_points RArith poly) P;
  r_corner : forall c p q, c ∈ pg_points RArith poly -> nearest xys p c -> nearest xys q c -> p = q;
  r_center : interior (pg_points RArith poly) (pg_center RArith poly)
}.
(* half-edge e goes from a to b *)
Definition runs_to (s : state RArith) (e : nat) (a b : rpt) : Prop :=
  origin_at s e a /\ exists f, twin RArith s e = Some f /\ origin_at s f b.
(* z lies to the right of each of these half-edges, or on its line *)
Definition enclosed (s : state RArith) (l : list nat) (z : rpt) : Prop :=
  forall e a b, e ∈ l -> runs_to s e a b -> cross3 a b z <= 0.
(* an edge of the diagram with the outside of the polygon on its other side *)
Definition border_edge (s : state RArith) (e : nat) : Prop :=
  e ∈ s_edges s /\ exists t, twin RArith s e = Some t /\ borders_site RArith s t = None.
