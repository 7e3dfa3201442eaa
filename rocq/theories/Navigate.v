(* Navigate.v -- the properties of HalfEdge and Algorithm with which a user walks over the diagram. *)
From stdpp Require Import base list.
From Verif Require Import Arith Geom Monad Tree Heapq State Sweep Finish.
Local Open Scope monad_scope.

Section Navigate.
Context (A : Arith).
Notation St := (M (state A)).

(* graph/half_edge.py:138-149 target: None without a twin, otherwise the twin's origin *)
Definition edge_target (e : nat) : St (option origin) :=
  h <- hedges_do (get_at e);;
  match h_twin h with
  | None => ret None
  | Some t => ht <- hedges_do (get_at t);; ret (Some (h_origin ht))
  end.

(* algorithm.py:92-94 vertices: the elements of the attribute _vertices *)
Definition get_vertices : St (list nat) := read s_vset.
End Navigate.
