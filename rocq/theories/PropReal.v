(* PropReal.v -- where the ends of the edges are, in exact arithmetic: on the bisector (C18),
   and for clipped edges on the polygon (C23). *)
From stdpp Require Import base list sets.
From Coq Require Import ZArith Reals Lia.
From Verif Require Import Arith Geom Monad Tree Heapq State Sweep Finish SweepBase Spec SpecFinish SweepFacts
  RArith GeomReal CircleReal FinishDiagram FinishReal DiagramFacts PropSweep.
Local Open Scope R_scope.

(* ---------- C18 ---------- *)
(* dist2 is the square of the distance.  At every moment of the sweep: *)
Theorem C18_sweep_edge (xys corners : list (pt RArith)) s index hist e t p q v z : runs RArith xys corners s index hist ->
  twin RArith s e = Some t -> borders_site RArith s e = Some p -> borders_site RArith s t = Some q ->
  starts_at RArith s e v -> located RArith s v z ->
  exists P Q, xys !! p = Some P /\ xys !! q = Some Q /\ dist2 P z = dist2 Q z.
Proof.
  intros HR. exact (runs_good xys (Build_polygon RArith [] 0 0 0 0 (0, 0)) corners s index hist HR e t p q v z). 
Qed.
Print Assumptions C18_sweep_edge.
(* a vertex has three sites around it, all equally far *)
Theorem C18_sweep_vertex (xys corners : list (pt RArith)) s index hist v z : runs RArith xys corners s index hist ->
  v ∈ s_vset s -> located RArith s v z ->
  exists a b c pa pb pc d, NoDup [a; b; c] /\ xys !! a = Some pa /\ xys !! b = Some pb /\ xys !! c = Some pc /\
    dist2 pa z = d /\ dist2 pb z = d /\ dist2 pc z = d /\
    forall e, starts_at RArith s e v -> exists p, borders_site RArith s e = Some p /\ p ∈ [a; b; c].
Proof. exact (sweep_vertex xys corners s index hist v z). Qed.
Print Assumptions C18_sweep_vertex.

(* ---------- C18, C23: the finished diagram ---------- *)
(* Every edge has two ends.  An end is on the boundary of the polygon, or inside it where three
   sites are equally near.  An edge between two sites has both ends equally far from the two;
   any other edge is on the border, with both ends on the boundary. *)
Theorem C23_ends (xys : list (pt RArith)) (poly : polygon RArith) flag fuel s' :
  (1 <= length xys)%nat -> (2 <= length (pg_points RArith poly))%nat ->
  create_diagram RArith poly flag fuel xys (init_state RArith (pg_points RArith poly)) = Val (s', tt) ->
  forall e t, e ∈ s_edges s' -> twin RArith s' e = Some t ->
  exists v u z y, starts_at RArith s' e v /\ located RArith s' v z /\ starts_at RArith s' t u /\ located RArith s' u y /\
    (on_boundary (pg_points RArith poly) z \/ inside RArith (pg_points RArith poly) z = Val true /\ meeting xys z) /\
    (on_boundary (pg_points RArith poly) y \/ inside RArith (pg_points RArith poly) y = Val true /\ meeting xys y) /\
    ((exists p q P Q, p <> q /\ borders_site RArith s' e = Some p /\ borders_site RArith s' t = Some q /\
        xys !! p = Some P /\ xys !! q = Some Q /\ dist2 P z = dist2 Q z /\ dist2 P y = dist2 Q y) \/
     (borders_site RArith s' t = None /\ on_boundary (pg_points RArith poly) z /\ on_boundary (pg_points RArith poly) y)).
Proof. exact (diagram_good xys poly flag fuel s'). Qed.
Print Assumptions C23_ends.
(* the step of clipping: every vertex it adds is on the boundary *)
Theorem C23_clipped (xys : list (pt RArith)) (poly : polygon RArith) fuel s s1 r :
  sweep RArith fuel xys (init_state RArith (pg_points RArith poly)) = Val (s, tt) ->
  finish_edges RArith poly (s_edges s) s = Val (s1, r) ->
  (forall v z, v ∈ s_pverts s1 -> located RArith s1 v z -> on_boundary (pg_points RArith poly) z) /\
  forall e t p q v z, twin RArith s1 e = Some t -> borders_site RArith s1 e = Some p -> borders_site RArith s1 t = Some q ->
    starts_at RArith s1 e v -> located RArith s1 v z -> exists P Q, xys !! p = Some P /\ xys !! q = Some Q /\ dist2 P z = dist2 Q z.
Proof.
  intros HS HF. apply (sweep_ended RArith xys _ RArith_order) in HS. destruct (clip_good xys poly s s1 r HS HF) as [H1 H2]. split; [exact H2|exact H1].
Qed.
Print Assumptions C23_clipped.
