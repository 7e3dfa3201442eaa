(* SpecNeighbours.v -- sites whose cells share a border, as a user finds them by walking around a cell. *)
From stdpp Require Import base list.
From Coq Require Import Reals Relations.
From Verif Require Import Arith Geom State Finish Spec RArith GeomReal ConvexReal FinishReal SpecVoronoi SpecClip.
Local Open Scope R_scope.

(* half-edge e, of positive length, leads from the cell of site p into the cell of site q *)
Definition leads_to (s : state RArith) (p q e : nat) : Prop :=
  (exists f l, borders RArith s f p = Val l /\ e ∈ l) /\ (exists t, twin RArith s e = Some t /\ borders_site RArith s t = Some q) /\
  exists a b : rpt, runs_to s e a b /\ a <> b.
Definition neighbour (s : state RArith) (p q : nat) : Prop := exists e, leads_to s p q e.
(* in the plane: two different points of the polygon have both sites nearest *)
Definition touch (xys : list (pt RArith)) (corners : list rpt) (p q : nat) : Prop :=
  p <> q /\ exists y z : rpt, y <> z /\ ~ exterior corners y /\ ~ exterior corners z /\
  nearest xys p y /\ nearest xys q y /\ nearest xys p z /\ nearest xys q z.
(* one site can be reached from the other by going from neighbour to neighbour *)
Definition linked (s : state RArith) : nat -> nat -> Prop := clos_refl_trans nat (neighbour s).
