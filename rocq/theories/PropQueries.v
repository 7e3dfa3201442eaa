(* PropQueries.v -- what a user who looks at the diagram while it is being built can rely on: the
   queries on a cell (C68) and the size of the structures (C69).  [runs] (Spec.v) is any moment
   between two events of the loop of create_diagram. *)
From stdpp Require Import base list sets.
From Coq Require Import ZArith Reals Lia Lra.
From Verif Require Import Arith Geom Monad Tree Heapq State Sweep Finish TreeProofs SweepBase Spec SpecFinish SweepFacts
  DiagramFacts FinishDiagram QueryFacts RArith DecArith DecLaws Witness PolyReal SpecVoronoi PropSweep PropReal PropVoronoi PropClip PropCells.

(* ---------- C68 ---------- *)
(* borders() of a site returns at every moment: distinct half-edges of that site, each the next of
   the one before it, up to one that has no next or whose next is the first; from the second
   handled site on it is not empty for a handled site *)
Theorem C68_borders (A : Arith) (xys corners : list (pt A)) s index hist p : lawful A xys -> runs A xys corners s index hist ->
  p < length xys ->
  exists l, (forall fuel, length (s_hedges s) <= fuel -> borders A s fuel p = Val l) /\
    NoDup l /\ length l <= length (s_hedges s) /\
    (forall i e f, l !! i = Some e -> l !! S i = Some f -> next A s e = Some f) /\
    (forall e, e ∈ l -> borders_site A s e = Some p) /\
    (forall z, last l = Some z -> next A s z = None \/ next A s z = head l) /\
    (p ∈ handled_sites A hist -> 2 <= length (handled_sites A hist) -> l <> []).
Proof. intros (TO & MO & CC). exact (query_borders A xys corners TO MO CC s index hist p). Qed.
Print Assumptions C68_borders.
(* vertices() then returns the vertices at which those half-edges start, all of them among the
   vertices of the diagram, and area() returns a number *)
Theorem C68_vertices (A : Arith) (xys corners : list (pt A)) s index hist p fuel l : lawful A xys -> runs A xys corners s index hist ->
  borders A s fuel p = Val l ->
  (exists vs, cell_vertices A s fuel p = Val vs /\ (forall v, v ∈ vs <-> exists e, e ∈ l /\ starts_at A s e v) /\
    (forall v, v ∈ vs -> v ∈ s_vset s) /\ length vs <= length l) /\
  exists a, area A s fuel p = Val a.
Proof.
  intros (TO & MO & CC) HR HB. split; [|exact (query_area A xys corners TO MO CC s index hist p fuel l HR HB)].
  destruct (query_vertices A xys corners TO MO CC s index hist p fuel l HR HB) as (vs & H1 & H2 & H3 & H4).
  exists vs. split; [done|]. split; [done|]. split; [|done]. by apply Forall_forall.
Qed.
Print Assumptions C68_vertices.

(* the documentation says None is returned while borders are missing.  It is not: a non-empty part
   of the borders is returned, without a half-edge that borders the same cell *)
Definition part (k p a e : nat) : bool :=
  match at_step DecArith pts3 box k with
  | Some (s, _, _) =>
      match borders DecArith s 50 p with Val l => bool_decide (l = [a]) | _ => false end &&
      match s_hedges s !! e with Some h => bool_decide (h_inc h = Some p) | None => false end
  | None => false
  end.
Lemma part_3 : part 3 0 1 3 = true.
Proof. vm_compute. reflexivity. Qed.
Theorem C68_incomplete_refuted : exists (xys corners : list (pt DecArith)) s index hist p e l, lawful DecArith xys /\
  runs DecArith xys corners s index hist /\ p < length xys /\ borders DecArith s 50 p = Val l /\ l <> [] /\
  borders_site DecArith s e = Some p /\ e ∉ l.
Proof.
  pose proof part_3 as H. unfold part in H. destruct (at_step DecArith pts3 box 3) as [[[s idx] hist]|] eqn:E; [|done].
  apply at_step_runs in E. apply andb_true_iff in H as [H1 H2]. destruct (borders DecArith s 50 0) as [l|] eqn:EB; [|done]. apply bool_decide_eq_true in H1 as ->.
  destruct (s_hedges s !! 3) as [h|] eqn:E3; [|done]. apply bool_decide_eq_true in H2.
  exists pts3, box, s, idx, hist, 0, 3, [1]. split; [exact pts3_lawful|]. split; [done|]. split; [simpl; lia|]. split; [done|]. split; [done|].
  split; [unfold borders_site, half; by rewrite E3|]. intros ?%elem_of_list_singleton. done.
Qed.
Print Assumptions C68_incomplete_refuted.
(* a moment with two half-edges of site 0 of which borders() returns one *)
Example C68_case : lawful DecArith pts3 /\ exists s index hist l, runs DecArith pts3 box s index hist /\ borders DecArith s 50 0 = Val l /\ l <> [].
Proof.
  split; [exact pts3_lawful|]. pose proof part_3 as H. unfold part in H. destruct (at_step DecArith pts3 box 3) as [[[s idx] hist]|] eqn:E; [|done].
  apply at_step_runs in E. apply andb_true_iff in H as [H1 _]. destruct (borders DecArith s 50 0) as [l|] eqn:EB; [|done]. apply bool_decide_eq_true in H1 as ->.
  exists s, idx, hist, [1]. done.
Qed.

(* ---------- C69 ---------- *)
(* at every moment after the first event, with h sites handled and V vertices: there are h + V - 1
   edges, at most 2h - 1 - V arcs on the beach line and at least two from the second site on, h + V
   events have been handled, and fewer than n + h + V are waiting (cancelled ones included) *)
Theorem C69_sizes (A : Arith) (xys corners : list (pt A)) s index hist line : lawful A xys -> runs A xys corners s index hist ->
  hist <> [] -> beach A s line ->
  length (s_edges s) + 1 = length (handled_sites A hist) + length (s_vset s) /\
  length (arcs_on A s line) + length (s_vset s) + 1 <= 2 * length (handled_sites A hist) /\
  (2 <= length (handled_sites A hist) -> 2 <= length (arcs_on A s line)) /\
  length hist = length (handled_sites A hist) + length (s_vset s) /\
  length (s_queue s) <= length xys + length hist.
Proof. intros (TO & MO & CC). exact (sizes A xys corners TO MO CC s index hist line). Qed.
Print Assumptions C69_sizes.
(* so when the loop is through n >= 2 sites there are at most 2n - 3 vertices and 3n - 4 edges *)
Theorem C69_swept (A : Arith) (xys corners : list (pt A)) s index hist : lawful A xys -> swept A xys corners s index hist ->
  2 <= length xys ->
  length (s_vset s) + 3 <= 2 * length xys /\ length (s_edges s) + 4 <= 3 * length xys /\ length hist + 3 <= 3 * length xys.
Proof.
  intros (TO & MO & CC) HS Hn. destruct (swept_sizes A xys corners TO MO CC s index hist HS ltac:(lia)) as (S1 & _ & S3). specialize (S3 Hn).
  pose proof (swept_events A xys corners TO MO CC s index hist HS Hn). lia.
Qed.
Print Assumptions C69_swept.
(* and the finished diagram in a polygon with m corners has at most 9n + m edges and 8n + m vertices *)
Theorem C69_finished (A : Arith) (xys corners : list (pt A)) (poly : polygon A) fuel s : lawful A xys ->
  1 <= length xys -> 2 <= length corners -> create_diagram A poly false fuel xys (init_state A corners) = Val (s, tt) ->
  length (s_edges s) <= 9 * length xys + length corners /\ length (s_vset s) <= 8 * length xys + length corners.
Proof.
  intros (TO & MO & CC) Hn Hk H. destruct (finished_sizes A xys corners TO MO CC poly fuel s Hn Hk H) as [H1 H2]. case_decide; lia.
Qed.
Print Assumptions C69_finished.
Theorem C69_cleaned (A : Arith) (xys corners : list (pt A)) (poly : polygon A) fuel s : lawful A xys ->
  1 <= length xys -> 2 <= length corners -> create_diagram A poly true fuel xys (init_state A corners) = Val (s, tt) ->
  length (s_edges s) <= 9 * length xys + length corners.
Proof.
  intros HA Hn Hk H. pose proof HA as (TO & MO & CC). destruct (cleaned A xys corners TO MO CC poly fuel s Hn Hk H) as (s0 & H0 & _ & H1 & _).
  apply sublist_length in H1. pose proof (proj1 (C69_finished A xys corners poly fuel s0 HA Hn Hk H0)). lia.
Qed.
Print Assumptions C69_cleaned.
(* three sites: one vertex, three edges, four events *)
Example C69_case : lawful DecArith pts3 /\ exists s index hist, swept DecArith pts3 box s index hist /\ length (s_vset s) = 1 /\ length (s_edges s) = 3 /\ length hist = 4.
Proof. exact (conj pts3_lawful swept_case). Qed.
Example C69_finished_case : exists poly s, bounding_box RArith (-1)%R 3%R (-1)%R 4%R = Val poly /\ length (pg_points RArith poly) = 4 /\
  create_diagram RArith poly false 22 tri (init_state RArith (pg_points RArith poly)) = Val (s, tt).
Proof.
  destruct (bounding_box_R (-1) 3 (-1) 4) as (bx & HB & HL & _); [lra..|]. destruct (tri_runs bx HB) as [s HD].
  exists bx, s. split; [exact HB|]. split; [by rewrite HL|exact HD].
Qed.
