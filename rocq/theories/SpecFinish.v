(* SpecFinish.v -- the vocabulary of the properties of clipping, of the border and of the
   finished diagram.  As in Spec.v, nothing here is used by the model. *)
From stdpp Require Import base list.
From Coq Require Import ZArith.
From Verif Require Import Arith Geom Monad Tree Heapq State Sweep Finish SweepBase Spec.

Section SpecFinish.
Context (A : Arith).
Notation St := (state A).
Implicit Types s : St.

(* one of the two halves of an edge in the list r *)
Definition kept s (r : list nat) (x : nat) : Prop := x ∈ r \/ exists e, e ∈ r /\ twin A s e = Some x.

(* [v] is a vertex at [xy] where the half-edge [x] starts; the vertex lists the half-edge *)
Definition attached s (x v : nat) (xy : pt A) : Prop := starts_at A s x v /\ located A s v xy /\ x ∈ connected A s v.

(* the code's == on coordinates *)
Definition same_place (p q : pt A) : Prop := deqb A (fst p) (fst q) = true /\ deqb A (snd p) (snd q) = true.
Definition zero_length s (e : nat) : Prop := exists t u v p q, twin A s e = Some t /\
  starts_at A s e u /\ located A s u p /\ starts_at A s t v /\ located A s v q /\ same_place p q.

(* each element of the list is followed by its next *)
Definition follows s (l : list nat) : Prop := forall i a b, l !! i = Some a -> l !! S i = Some b -> next A s a = Some b.
Definition exists_all s (l : list nat) : Prop := Forall (fun e => e < length (s_hedges s)) l.
(* [l] is what one meets going from [e] along next: no edge twice, until next would come back
   to [e], or there is no next *)
Definition walk s (e : nat) (l : list nat) : Prop :=
  head l = Some e /\ follows s l /\ exists_all s l /\ NoDup l /\
  exists z, last l = Some z /\ (next A s z = Some e \/ next A s z = None).
(* the walk comes back to where it began *)
Definition closed s (e : nat) (l : list nat) : Prop := exists z, last l = Some z /\ next A s z = Some e.

(* the position after the last is the first *)
Definition after (m j : nat) : nat := if S j =? m then 0 else S j.
End SpecFinish.
