(* SpecFigure.v -- what the keywords of plot_all ask for, from its documentation.  Exact arithmetic. *)
From stdpp Require Import base list.
From Coq Require Import Reals.
From Verif Require Import Arith Geom Monad State RArith Visual Watch.
Local Open Scope R_scope.

(* the keywords that are on for a message if no settings are given *)
Definition usual (m : message) : list key := [KEdges; KVertices; KSites] ++
  match m with STEP_FINISHED => [KPolygon; KEvents; KBeachLine; KSweepLine] | SWEEP_FINISHED => [KPolygon] | _ => [] end.
(* keyword k is on at message m, with settings d: a given value counts, a number if it is not zero *)
Definition on (m : message) (d : dict RArith) (k : key) : Prop :=
  match d k with
  | None => In k (usual m)
  | Some (VBool _ v) => v = true
  | Some (VNum _ x) => x <> 0
  end.
(* the length of the arrows *)
Definition arrow_length (d : dict RArith) : R :=
  match d KScale with None => 1 | Some (VBool _ v) => if v then 1 else 0 | Some (VNum _ x) => x end.

(* the keyword that a call on the canvas belongs to *)
Definition keyword {A : Arith} (c : cmd A) : option key :=
  match c with
  | CLine _ EDGE _ _ | CLabel _ _ (TEdge _ _) => Some KEdges
  | CPointer _ _ _ _ => Some KBorderToSite
  | CHorizontal _ SWEEP_LINE _ _ _ => Some KSweepLine
  | CCurve _ BEACH_LINE _ _ | CCurve _ ARC _ _ | CVertical _ SWEEP_LINE _ | CArcLabel _ _ _ (TArc _) => Some KBeachLine
  | CScatter _ VERTICES _ => Some KVertices
  | CScatter _ CELL_POINTS _ | CLabel _ _ (TSite _) => Some KSites
  | CScatter _ VALID_CIRCLE _ | CCircle _ VALID_CIRCLE _ _ | CCircle _ INVALID_CIRCLE _ _ => Some KEvents
  | CArrow _ _ _ => Some KOutgoing
  | CPolygon _ BOUNDING_BOX _ | CCircle _ BOUNDING_BOX _ _ => Some KPolygon
  | _ => None
  end.
(* and the keyword that has to be on as well *)
Definition detail {A : Arith} (c : cmd A) : option key :=
  match c with
  | CLabel _ _ (TEdge _ _) => Some KEdgeLabels
  | CLabel _ _ (TSite _) => Some KSiteLabels
  | CCurve _ ARC _ _ | CVertical _ _ _ => Some KArcs
  | CArcLabel _ _ _ _ => Some KArcLabels
  | _ => None
  end.
(* the method that draws what a keyword asks for; yes: the keywords that are on *)
Definition drawn_by {A : Arith} (b : bounds A) (cv : canvas A) (order : list nat) (yes : key -> bool) (scale : D A) (k : key) : M (state A) (list (cmd A)) :=
  match k with
  | KSweepLine => plot_sweep_line A cv None
  | KPolygon => plot_polygon A b
  | KEdges => plot_edges A cv None None (yes KEdgeLabels) EDGE
  | KBorderToSite => plot_border_to_site A cv None None
  | KVertices => plot_vertices A None
  | KSites => plot_sites A None (yes KSiteLabels) CELL_POINTS
  | KOutgoing => plot_outgoing_edges A cv None scale
  | KEvents => plot_event A (EBool (yes KTriangles)) false
  | KBeachLine => plot_arcs A cv order None None (yes KArcs) (yes KArcLabels)
  | _ => ret []
  end.
