(* SpecCircle.v -- what clipping with a bounding circle should do.  Exact arithmetic. *)
From stdpp Require Import base list.
From Coq Require Import ZArith Reals.
From Verif Require Import Arith Geom Monad State Spec RArith Circle CircleReal SpecVoronoi.
Local Open Scope R_scope.

(* z is inside the circle or on it *)
Definition in_disk (ci : circle RArith) (z : rpt) : Prop := sqd z (ci_x ci, ci_y ci) <= ci_r ci * ci_r ci.
(* z is on the straight line between two ends, one of which may be infinitely high *)
Definition between (p q : xpt RArith) (z : rpt) : Prop :=
  match snd p, snd q with
  | Fin y, Fin y' => on_segment (fst p, y) (fst q, y') z
  | Fin y, PInf | PInf, Fin y => fst z = fst p /\ y <= snd z
  | PInf, PInf => False
  end.
(* two ends of a straight line: different points, or one above the other at infinity *)
Definition two_ends (p q : xpt RArith) : Prop :=
  match snd p, snd q with
  | Fin y, Fin y' => ((fst p, y) : rpt) <> (fst q, y')
  | Fin _, PInf | PInf, Fin _ => fst p = fst q :> R
  | PInf, PInf => False
  end.
(* z is on the line on which the two ends lie *)
Definition along (p q : xpt RArith) (z : rpt) : Prop :=
  match snd p, snd q with
  | Fin y, Fin y' => on_line_through (fst p, y) (fst q, y') z
  | _, _ => fst z = fst p
  end.

(* edge.get_origin(y=-1000) is p *)
Definition begins_at (s : state RArith) (e : nat) (p : xpt RArith) : Prop := origin_at_1000 RArith e s = Val (s, Some p).

(* half-edge x begins at z when the edge is clipped: there was its beginning before, inside the circle,
   and nothing changed; or there is a vertex of the outline on the circle now *)
Definition cut_at (ci : circle RArith) (s s' : state RArith) (x : nat) (z : rpt) : Prop :=
  half RArith s' x = half RArith s x /\ begins_at s x (fin_pt z) /\ sqd z (ci_x ci, ci_y ci) < ci_r ci * ci_r ci \/
  on_circle ci z /\ exists v, starts_at RArith s' x v /\ located RArith s' v z /\ v ∈ s_pverts s'.
(* only half-edges e and f may begin elsewhere; twins and sites stay; vertices are only added *)
Definition others_kept (s s' : state RArith) (e f : nat) : Prop :=
  (forall x, x <> e -> x <> f -> half RArith s' x = half RArith s x) /\
  (forall x, twin RArith s' x = twin RArith s x /\ borders_site RArith s' x = borders_site RArith s x) /\
  (forall v z, located RArith s v z -> located RArith s' v z) /\
  s_points s' = s_points s /\ s_edges s' = s_edges s /\ s_vset s' = s_vset s.

(* no point has four nearest sites *)
Definition at_most_three_nearest (xys : list (pt RArith)) : Prop :=
  forall z a b c d, NoDup [a; b; c; d] -> nearest xys a z -> nearest xys b z -> nearest xys c z -> nearest xys d z -> False.
(* z is on the straight edge from the vertex of half-edge e to the vertex of its twin f, with site p on
   the side of e and site q on the other *)
Definition straight_edge (s : state RArith) (e f p q : nat) (z : rpt) : Prop :=
  twin RArith s e = Some f /\ borders_site RArith s e = Some p /\ borders_site RArith s f = Some q /\
  exists a b, origin_at s e a /\ origin_at s f b /\ on_segment a b z.
