(* SpecPicture.v -- what is in the picture.  Exact arithmetic. *)
From stdpp Require Import base list.
From Coq Require Import Reals.
From Verif Require Import Arith Geom Monad State RArith GeomReal Visual Picture.
Local Open Scope R_scope.

(* limits were set for both axes and z is within all that were set, the first being the lower one *)
Definition in_picture (calls : list (display RArith)) (z : rpt) : Prop :=
  (exists lo hi, DXlim RArith lo hi ∈ calls) /\ (exists lo hi, DYlim RArith lo hi ∈ calls) /\
  (forall lo hi : R, DXlim RArith lo hi ∈ calls -> lo <= fst z <= hi) /\ forall lo hi : R, DYlim RArith lo hi ∈ calls -> lo <= snd z <= hi.
