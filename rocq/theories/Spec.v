(* Spec.v -- the vocabulary of the property theorems.  Nothing here is used by the model;
   everything is a reading of a state of the model or a description of a run of it. *)
From stdpp Require Import base list.
From Coq Require Import ZArith.
From Verif Require Import Arith Geom Monad Tree Heapq State Sweep TreeProofs SweepBase.
Local Open Scope monad_scope.

Section Spec.
Context (A : Arith).
Notation St := (state A).
Implicit Types s : St.

(* ---------- runs ---------- *)
(* a popped circle event that was cancelled before: the loop ignores it *)
Definition ignored s (i : qitem A) : bool :=
  match i_ev i with
  | ESite _ => false
  | ECircle k => match s_cevs s !! k with Some e => negb (c_valid e) | None => false end
  end.

(* [runs xys corners s index hist]: [s] is a state of Algorithm at the head of the event
   loop of create_diagram(xys); [index] is the loop's counter; [hist] are the events
   handled so far, in order.  The polygon has the given corners. *)
Inductive runs (xys corners : list (pt A)) : St -> nat -> list (qitem A) -> Prop :=
| runs_start s : (ps <- new_points A xys;; initialize A ps) (init_state A corners) = Val (s, tt) ->
    runs xys corners s 0 []
| runs_step s index hist s1 i s2 index' : runs xys corners s index hist ->
    queue_get A s = Val (s1, Some i) -> step A i index s1 = Val (s2, index') ->
    runs xys corners s2 index' (if ignored s i then hist else hist ++ [i]).

(* the sites among the handled events, in order *)
Definition handled_sites (hist : list (qitem A)) : list nat :=
  omap (fun i => match i_ev i with ESite p => Some p | ECircle _ => None end) hist.
(* the number of handled circle events *)
Definition handled_circles (hist : list (qitem A)) : nat := length (List.filter (fun i => is_circle (i_ev i)) hist).

(* the state at the end of the event loop *)
Definition swept (xys corners : list (pt A)) s index hist : Prop :=
  runs xys corners s index hist /\ s_queue s = [].

(* What the proofs about the structure of a run need from the arithmetic: comparison is a
   total order; the mean of two of the given x coordinates does not overshoot; three
   points of which two are the same object have no circumcircle.  RArith (exact reals)
   satisfies this for all sites, DecArith (Decimal with 28 digits) for all sites whose x
   coordinates have at most 27 digits (lawful_real and lawful_decimal in PropSweep.v). *)
Definition lawful (xys : list (pt A)) : Prop :=
  TotalOrder A /\ MidOK A (fst <$> xys) /\ forall p q, create_circle A p q p = Val None.

(* ---------- the beach line ---------- *)
(* The status tree, whose parent and child links are consistent, read from left to right. *)
Definition beach s (L : list nat) : Prop :=
  exists t, rep (s_nodes s) None t /\ s_root s = rootid t /\ NoDup (inord t) /\ L = inord t.
(* [site A s n] (SweepBase.v): the site of the arc at node n; [label A s n]: the pair of
   sites of the breakpoint at node n. *)
Definition arcs_on s (L : list nat) : list nat := omap (site A s) L.

(* arcs and breakpoints alternate; each breakpoint carries the sites of the arcs beside it *)
Inductive alternating s : list nat -> Prop :=
| alt_one n p : site A s n = Some p -> alternating s [n]
| alt_cons n b m L p q : site A s n = Some p -> label A s b = Some (p, q) -> site A s m = Some q -> p <> q ->
    alternating s (m :: L) -> alternating s (n :: b :: m :: L).

(* a circle event waiting in the queue and not cancelled *)
Definition pending s (k : nat) (e : cevent A) : Prop :=
  (exists i, i ∈ s_queue s /\ i_ev i = ECircle k) /\ s_cevs s !! k = Some e /\ c_valid e = true.

(* [l], [n], [m] are successive arcs of the beach line L *)
Definition consecutive (L : list nat) (l n m : nat) : Prop :=
  exists L1 b1 b2 L2, L = L1 ++ l :: b1 :: n :: b2 :: m :: L2.

(* ---------- half-edges ---------- *)
Definition half s (e : nat) : option hedge := s_hedges s !! e.
Definition twin s (e : nat) : option nat := h ← half s e; h_twin h.
Definition next s (e : nat) : option nat := h ← half s e; h_next h.
Definition prev s (e : nat) : option nat := h ← half s e; h_prev h.
Definition borders_site s (e : nat) : option nat := h ← half s e; h_inc h.
Definition starts_at s (e v : nat) : Prop := exists h, half s e = Some h /\ h_origin h = OVx v.
Definition connected s (v : nat) : list nat := match s_verts s !! v with Some w => v_conn w | None => [] end.
Definition located s (v : nat) (xy : pt A) : Prop := exists w, s_verts s !! v = Some w /\ v_xy w = Some xy.

(* ---------- what observers saw ---------- *)
Definition seen (m : message) (log : list (subject_id * message * option (D A))) : list (option (D A)) :=
  omap (fun x => match x, m with
                 | (_, DEBUG, l), DEBUG | (_, STEP_FINISHED, l), STEP_FINISHED
                 | (_, SWEEP_FINISHED, l), SWEEP_FINISHED | (_, VORONOI_FINISHED, l), VORONOI_FINISHED => Some l
                 | _, _ => None end) log.
End Spec.
