(* SpecMove.v -- the sides of a Voronoi cell cut to the polygon, from the sites and the corners alone,
   and maps that scale all distances by the same factor. *)
From stdpp Require Import base list.
From Coq Require Import Reals.
From Verif Require Import Arith Geom RArith GeomReal AreaReal PolyReal ConvexReal CircleReal FinishReal SpecVoronoi SpecClip.
Local Open Scope R_scope.

(* a place where lines of the diagram end: a corner of the polygon, a point of the outline with two
   nearest sites, or a Voronoi vertex inside *)
Definition node (xys : list (pt RArith)) (corners : list rpt) (z : rpt) : Prop :=
  In z corners \/ (on_boundary corners z /\ exists p q, p <> q /\ nearest xys p z /\ nearest xys q z) \/
  (interior corners z /\ voronoi_vertex xys z).
(* the segment from a to b is a side of the cell of site p, with the site on its right: all of it is in
   the cell, and on the outline or as near to some other site; it goes from node to node *)
Definition cell_side (xys : list (pt RArith)) (corners : list rpt) (p : nat) (a b : rpt) : Prop :=
  a <> b /\ node xys corners a /\ node xys corners b /\
  (forall z, on_segment a b z -> z <> a -> z <> b -> ~ node xys corners z) /\
  (forall z, on_segment a b z -> nearest xys p z /\ ~ exterior corners z /\ (on_boundary corners z \/ exists q, q <> p /\ nearest xys q z)) /\
  exists P : rpt, xys !! p = Some P /\ cross3 a b P < 0.
(* T multiplies the square of every distance by k: it moves, turns, mirrors and scales the plane *)
Definition scales (T : rpt -> rpt) (k : R) : Prop := 0 < k /\ forall a b : rpt, dist2 (T a) (T b) = k * dist2 a b.
(* T turns the plane over *)
Definition mirrors (T : rpt -> rpt) : Prop := exists a b c : rpt, cross3 a b c < 0 /\ 0 < cross3 (T a) (T b) (T c).
