(* SpecParts.v -- specification for C77: points strictly inside of a cell. *)
From stdpp Require Import base list.
From Coq Require Import Reals.
From Verif Require Import Arith Geom State Finish SpecFinish RArith GeomReal CircleReal FinishReal SpecClip.
Local Open Scope R_scope.

(* z is strictly on the right of all half-edges of positive length of the list *)
Definition enclosed_strictly (s : state RArith) (l : list nat) (z : rpt) : Prop :=
  forall e a b, e ∈ l -> runs_to s e a b -> a <> b -> cross3 a b z < 0.
