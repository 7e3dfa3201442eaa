(* SpecVoronoi.v -- the Voronoi diagram, independently of the sweep: nearest sites, and which
   points of the plane belong to an edge of a state.  Exact arithmetic. *)
From stdpp Require Import base list.
From Coq Require Import Reals.
From Verif Require Import Arith Geom Monad State SweepBase Spec RArith GeomReal.
Local Open Scope R_scope.

(* no site is nearer to z than site p; dist2 is the square of the distance *)
Definition nearest (xys : list (pt RArith)) (p : nat) (z : rpt) : Prop :=
  exists P : rpt, xys !! p = Some P /\ forall Q : rpt, Q ∈ xys -> dist2 P z <= dist2 Q z.

(* the vector from p to q turned by a right angle, clockwise *)
Definition turned (p q : rpt) : rpt := (snd q - snd p, - (fst q - fst p)).
(* from z, t times the vector u *)
Definition walk (z : rpt) (t : R) (u : rpt) : rpt := (fst z + t * fst u, snd z + t * snd u).
Definition middle (p q : rpt) : rpt := ((fst p + fst q) / 2, (snd p + snd q) / 2).

(* half-edge e has a vertex at z as its origin / has no vertex as its origin *)
Definition origin_at (s : state RArith) (e : nat) (z : rpt) : Prop := exists v, starts_at RArith s e v /\ located RArith s v z.
Definition no_origin (s : state RArith) (e : nat) : Prop := forall v, ~ starts_at RArith s e v.

(* The points of the edge made of half-edge e and its twin f, between site p (on e's side) and
   site q: the segment between the two origins; or the ray that leaves the only origin at a
   right angle to the line through the sites, with the half-edge's own site to its right; or,
   without an origin, the whole bisector. *)
Definition edge_point (xys : list (pt RArith)) (s : state RArith) (e f p q : nat) (z : rpt) : Prop :=
  twin RArith s e = Some f /\ borders_site RArith s e = Some p /\ borders_site RArith s f = Some q /\
  exists P Q : rpt, xys !! p = Some P /\ xys !! q = Some Q /\
   ((exists y w t, origin_at s e y /\ origin_at s f w /\ 0 <= t <= 1 /\ z = walk y t (fst w - fst y, snd w - snd y)) \/
    (exists y t, origin_at s e y /\ no_origin s f /\ 0 <= t /\ z = walk y t (turned P Q)) \/
    (exists w t, no_origin s e /\ origin_at s f w /\ 0 <= t /\ z = walk w t (turned Q P)) \/
    (exists t, no_origin s e /\ no_origin s f /\ z = walk (middle P Q) t (turned P Q))).

(* ---------- the beach line between two events ---------- *)
(* the sweep line may be at y = l before the next event: it is not above its last position and
   no circle event is waiting above l *)
Definition between_events (s : state RArith) (l : R) : Prop :=
  (forall l0, s_sweep s = Some l0 -> l <= l0) /\ forall k e, pending RArith s k e -> c_y e - c_r e <= l.
(* Breakpoint.get_intersection(l, max_y) of the breakpoint at node b has x coordinate x *)
Definition stands (xys : list (pt RArith)) (s : state RArith) (l : R) (max_y : option R) (b : nat) (x : R) : Prop :=
  exists p q (P Q : rpt) y, label RArith s b = Some (p, q) /\ xys !! p = Some P /\ xys !! q = Some Q /\
    get_intersection RArith P Q l max_y = Val (x, y).
(* the event of site q was handled *)
Definition passed (hist : list (qitem RArith)) (q : nat) : Prop := q ∈ handled_sites RArith hist.
