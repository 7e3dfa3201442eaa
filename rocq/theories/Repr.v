(* Repr.v -- how points, vertices and half-edges are printed (__repr__). *)
From stdpp Require Import base list.
From Coq Require Import ZArith String.
From Verif Require Import Arith Geom Monad Tree Heapq State Sweep Finish Visual Watch.
Local Open Scope monad_scope.
Local Open Scope string_scope.

Section Repr.
(* fmt: the text f"{x:.2f}" of a number, not modelled further *)
Context (A : Arith) (fmt : D A -> string).
Notation St := (M (state A)).

(* graph/point.py:49-52 Point.__repr__ *)
Definition repr_point (p : nat) : St string :=
  x <- points_do (get_at p);;
  ret (match p_name x with
       | Some i => "P" ++ str_name (Some i)
       | None => "Point(" ++ fmt (fst (p_xy x)) ++ ", " ++ fmt (snd (p_xy x)) ++ ")"
       end).

(* graph/half_edge.py:76-77 HalfEdge.__repr__: f"{self.incident_point}/{self.twin.incident_point or '-'}";
   str(None) is "None"; points are never false *)
Definition repr_half_edge (e : nat) : St string :=
  h <- hedges_do (get_at e);;
  left <- match h_inc h with Some p => repr_point p | None => ret "None" end;;
  t <- need (h_twin h);;
  ht <- hedges_do (get_at t);;
  right <- match h_inc ht with Some p => repr_point p | None => ret "-" end;;
  ret (left ++ "/" ++ right).

(* graph/vertex.py:36-37 Vertex.__repr__: formatting None raises TypeError *)
Definition repr_vertex (v : nat) : St string :=
  x <- verts_do (get_at v);;
  match v_xy x with
  | Some (a, b) => ret ("Vertex(" ++ fmt a ++ ", " ++ fmt b ++ ")")
  | None => raise TypeError
  end.
End Repr.
