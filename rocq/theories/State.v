(* State.v -- the objects of a run of the algorithm.  Every class gets a store in
   which an object's identity is its index; attributes are record fields. *)
From stdpp Require Import base list.
From Coq Require Import ZArith.
From Verif Require Import Arith Geom Monad Tree Heapq.
Local Open Scope monad_scope.

Section State.
Context (A : Arith).

(* nodes/arc.py:28-29; origin is a Point, circle_event a CircleEvent or None *)
Record arc : Type := mkArc { a_origin : nat; a_cev : option nat }.

(* nodes/breakpoint.py:26-31; breakpoint = (Point, Point), edge a HalfEdge or None *)
Record bp : Type := mkBp { b_l : nat; b_r : nat; b_edge : option nat }.

(* Node.data: an Arc in a LeafNode, a Breakpoint in an InternalNode *)
Inductive ndata : Type := DArc (a : nat) | DBp (b : nat).

(* HalfEdge.origin: a Breakpoint or a Vertex (half_edge.py:60-61) *)
Inductive origin : Type := OBp (b : nat) | OVx (v : nat).

(* graph/half_edge.py:60-74.  `removed` (line 74) is never read or changed: omitted. *)
Record hedge : Type := mkHedge {
  h_origin : origin;
  h_inc : option nat;        (* incident_point: Point or None *)
  h_twin : option nat;
  h_next : option nat;
  h_prev : option nat
}.

(* graph/vertex.py:32-34; None for Vertex(None, None) *)
Record vertex : Type := mkVertex { v_xy : option (pt A); v_conn : list nat }.

(* graph/point.py:44-47 *)
Record point : Type := mkPoint { p_xy : pt A; p_name : option nat; p_first : option nat }.

(* events/circle_event.py:30-35 (arc_triple is never read: omitted) *)
Record cevent : Type := mkCevent {
  c_x : D A; c_y : D A; c_r : D A;   (* center.xd, center.yd, radius *)
  c_node : nat;                      (* arc_pointer *)
  c_valid : bool;                    (* is_valid *)
  c_triple : nat * nat * nat         (* point_triple *)
}.

(* a SiteEvent for a point, or a CircleEvent *)
Inductive event : Type := ESite (p : nat) | ECircle (c : nat).

(* An entry of the event queue: the event with its yd and xd properties
   (site_event.py:21-41, circle_event.py:40-60).  No code changes a point's or a
   circle's coordinates, so the keys are those of the moment of insertion. *)
Record qitem : Type := mkItem { i_ev : event; i_y : D A; i_x : D A }.

(* class attribute circle_event (event.py:2, circle_event.py:11, site_event.py:7) *)
Definition is_circle (e : event) : bool := match e with ECircle _ => true | ESite _ => false end.

(* events/event.py:12-20 Event.__lt__ *)
Definition event_lt (e f : qitem) : bool :=
  if deqb A (i_y e) (i_y f) && deqb A (i_x e) (i_x f) then is_circle (i_ev e) && negb (is_circle (i_ev f))
  else if deqb A (i_y e) (i_y f) then dltb A (i_x e) (i_x f)
  else dltb A (i_y f) (i_y e).

(* events/event.py:22-25 Event.__eq__ on two events *)
Definition event_eq (y x y' x' : D A) : bool := deqb A y y' && deqb A x x'.

(* observers/message.py; payloads of DEBUG messages are not modelled *)
Inductive message : Type := DEBUG | STEP_FINISHED | SWEEP_FINISHED | VORONOI_FINISHED.
(* whose notify_observers is called: the Algorithm's or the Polygon's *)
Inductive subject_id : Type := SAlgorithm | SPolygon.

(* algorithm.py:54-86 (attributes of Algorithm), polygon.py:31 (polygon_vertices) and
   the object stores.  Sets are lists in insertion order, without duplicates. *)
Record state : Type := mkState {
  s_nodes : list (node ndata);
  s_arcs : list arc;
  s_bps : list bp;
  s_hedges : list hedge;
  s_verts : list vertex;
  s_points : list point;
  s_cevs : list cevent;
  s_queue : list qitem;               (* event_queue *)
  s_root : option nat;                (* status_tree *)
  s_sweep : option (D A);             (* sweep_line; None is float('inf') *)
  s_sites : list nat;                 (* sites *)
  s_edges : list nat;                 (* edges *)
  s_arcset : list nat;                (* _arcs *)
  s_vset : list nat;                  (* _vertices *)
  s_event : option event;             (* event *)
  s_pverts : list nat;                (* bounding_poly.polygon_vertices *)
  s_log : list (subject_id * message * option (D A)); (* notifications sent so far, each with
                                         the sweep_line an observer sees at that moment *)
  s_vlist : bool                      (* _vertices is a list (algorithm.py:215), no longer a set (83) *)
}.

Definition set_nodes v s := mkState v (s_arcs s) (s_bps s) (s_hedges s) (s_verts s) (s_points s) (s_cevs s) (s_queue s) (s_root s) (s_sweep s) (s_sites s) (s_edges s) (s_arcset s) (s_vset s) (s_event s) (s_pverts s) (s_log s) (s_vlist s).
Definition set_arcs v s := mkState (s_nodes s) v (s_bps s) (s_hedges s) (s_verts s) (s_points s) (s_cevs s) (s_queue s) (s_root s) (s_sweep s) (s_sites s) (s_edges s) (s_arcset s) (s_vset s) (s_event s) (s_pverts s) (s_log s) (s_vlist s).
Definition set_bps v s := mkState (s_nodes s) (s_arcs s) v (s_hedges s) (s_verts s) (s_points s) (s_cevs s) (s_queue s) (s_root s) (s_sweep s) (s_sites s) (s_edges s) (s_arcset s) (s_vset s) (s_event s) (s_pverts s) (s_log s) (s_vlist s).
Definition set_hedges v s := mkState (s_nodes s) (s_arcs s) (s_bps s) v (s_verts s) (s_points s) (s_cevs s) (s_queue s) (s_root s) (s_sweep s) (s_sites s) (s_edges s) (s_arcset s) (s_vset s) (s_event s) (s_pverts s) (s_log s) (s_vlist s).
Definition set_verts v s := mkState (s_nodes s) (s_arcs s) (s_bps s) (s_hedges s) v (s_points s) (s_cevs s) (s_queue s) (s_root s) (s_sweep s) (s_sites s) (s_edges s) (s_arcset s) (s_vset s) (s_event s) (s_pverts s) (s_log s) (s_vlist s).
Definition set_points v s := mkState (s_nodes s) (s_arcs s) (s_bps s) (s_hedges s) (s_verts s) v (s_cevs s) (s_queue s) (s_root s) (s_sweep s) (s_sites s) (s_edges s) (s_arcset s) (s_vset s) (s_event s) (s_pverts s) (s_log s) (s_vlist s).
Definition set_cevs v s := mkState (s_nodes s) (s_arcs s) (s_bps s) (s_hedges s) (s_verts s) (s_points s) v (s_queue s) (s_root s) (s_sweep s) (s_sites s) (s_edges s) (s_arcset s) (s_vset s) (s_event s) (s_pverts s) (s_log s) (s_vlist s).
Definition set_queue v s := mkState (s_nodes s) (s_arcs s) (s_bps s) (s_hedges s) (s_verts s) (s_points s) (s_cevs s) v (s_root s) (s_sweep s) (s_sites s) (s_edges s) (s_arcset s) (s_vset s) (s_event s) (s_pverts s) (s_log s) (s_vlist s).
Definition set_root v s := mkState (s_nodes s) (s_arcs s) (s_bps s) (s_hedges s) (s_verts s) (s_points s) (s_cevs s) (s_queue s) v (s_sweep s) (s_sites s) (s_edges s) (s_arcset s) (s_vset s) (s_event s) (s_pverts s) (s_log s) (s_vlist s).
Definition set_sweep v s := mkState (s_nodes s) (s_arcs s) (s_bps s) (s_hedges s) (s_verts s) (s_points s) (s_cevs s) (s_queue s) (s_root s) v (s_sites s) (s_edges s) (s_arcset s) (s_vset s) (s_event s) (s_pverts s) (s_log s) (s_vlist s).
Definition set_sites v s := mkState (s_nodes s) (s_arcs s) (s_bps s) (s_hedges s) (s_verts s) (s_points s) (s_cevs s) (s_queue s) (s_root s) (s_sweep s) v (s_edges s) (s_arcset s) (s_vset s) (s_event s) (s_pverts s) (s_log s) (s_vlist s).
Definition set_edges v s := mkState (s_nodes s) (s_arcs s) (s_bps s) (s_hedges s) (s_verts s) (s_points s) (s_cevs s) (s_queue s) (s_root s) (s_sweep s) (s_sites s) v (s_arcset s) (s_vset s) (s_event s) (s_pverts s) (s_log s) (s_vlist s).
Definition set_arcset v s := mkState (s_nodes s) (s_arcs s) (s_bps s) (s_hedges s) (s_verts s) (s_points s) (s_cevs s) (s_queue s) (s_root s) (s_sweep s) (s_sites s) (s_edges s) v (s_vset s) (s_event s) (s_pverts s) (s_log s) (s_vlist s).
Definition set_vset v s := mkState (s_nodes s) (s_arcs s) (s_bps s) (s_hedges s) (s_verts s) (s_points s) (s_cevs s) (s_queue s) (s_root s) (s_sweep s) (s_sites s) (s_edges s) (s_arcset s) v (s_event s) (s_pverts s) (s_log s) (s_vlist s).
Definition set_event v s := mkState (s_nodes s) (s_arcs s) (s_bps s) (s_hedges s) (s_verts s) (s_points s) (s_cevs s) (s_queue s) (s_root s) (s_sweep s) (s_sites s) (s_edges s) (s_arcset s) (s_vset s) v (s_pverts s) (s_log s) (s_vlist s).
Definition set_pverts v s := mkState (s_nodes s) (s_arcs s) (s_bps s) (s_hedges s) (s_verts s) (s_points s) (s_cevs s) (s_queue s) (s_root s) (s_sweep s) (s_sites s) (s_edges s) (s_arcset s) (s_vset s) (s_event s) v (s_log s) (s_vlist s).
Definition set_log v s := mkState (s_nodes s) (s_arcs s) (s_bps s) (s_hedges s) (s_verts s) (s_points s) (s_cevs s) (s_queue s) (s_root s) (s_sweep s) (s_sites s) (s_edges s) (s_arcset s) (s_vset s) (s_event s) (s_pverts s) v (s_vlist s).
Definition set_vlist v s := mkState (s_nodes s) (s_arcs s) (s_bps s) (s_hedges s) (s_verts s) (s_points s) (s_cevs s) (s_queue s) (s_root s) (s_sweep s) (s_sites s) (s_edges s) (s_arcset s) (s_vset s) (s_event s) (s_pverts s) (s_log s) v.

Notation St := (M state).

(* access to one store *)
Definition nodes_do {Y} (m : M (list (node ndata)) Y) : St Y := zoom s_nodes set_nodes m.
Definition arcs_do {Y} (m : M (list arc) Y) : St Y := zoom s_arcs set_arcs m.
Definition bps_do {Y} (m : M (list bp) Y) : St Y := zoom s_bps set_bps m.
Definition hedges_do {Y} (m : M (list hedge) Y) : St Y := zoom s_hedges set_hedges m.
Definition verts_do {Y} (m : M (list vertex) Y) : St Y := zoom s_verts set_verts m.
Definition points_do {Y} (m : M (list point) Y) : St Y := zoom s_points set_points m.
Definition cevs_do {Y} (m : M (list cevent) Y) : St Y := zoom s_cevs set_cevs m.

(* allocation *)
Definition alloc {T} (x : T) : M (list T) nat := fun h => Val (h ++ [x], length h).

(* observers/subject.py:40-51 notify_observers, as an append to the log *)
Definition notify (who : subject_id) (m : message) : St unit :=
  write (fun s => set_log (s_log s ++ [(who, m, s_sweep s)]) s).

(* `x = x or y` for an optional object *)
Definition or_else {Y} (o : option Y) (y : Y) : option Y := match o with Some _ => o | None => Some y end.

Definition with_arc_cev c (a : arc) := mkArc (a_origin a) c.
Definition with_bp_pair l r (b : bp) := mkBp l r (b_edge b).
Definition with_bp_edge e (b : bp) := mkBp (b_l b) (b_r b) e.
Definition with_h_origin v (h : hedge) := mkHedge v (h_inc h) (h_twin h) (h_next h) (h_prev h).
Definition with_h_twin v (h : hedge) := mkHedge (h_origin h) (h_inc h) v (h_next h) (h_prev h).
Definition with_h_next v (h : hedge) := mkHedge (h_origin h) (h_inc h) (h_twin h) v (h_prev h).
Definition with_h_prev v (h : hedge) := mkHedge (h_origin h) (h_inc h) (h_twin h) (h_next h) v.
Definition with_v_conn c (v : vertex) := mkVertex (v_xy v) c.
Definition with_p_name n (p : point) := mkPoint (p_xy p) n (p_first p).
Definition with_p_first e (p : point) := mkPoint (p_xy p) (p_name p) e.
Definition with_c_valid b (c : cevent) := mkCevent (c_x c) (c_y c) (c_r c) (c_node c) b (c_triple c).

(* graph/half_edge.py:6-74 HalfEdge.__init__ with the twin setter (131-136) *)
Definition new_hedge (inc : option nat) (twin : option nat) (o : origin) : St nat :=
  hedges_do (
    e <- alloc (mkHedge o inc twin None None);;
    match twin with
    | Some t => upd_at t (with_h_twin (Some e))
    | None => ret tt
    end;;;
    ret e).

(* graph/half_edge.py:79-90 HalfEdge.set_next *)
Definition set_next (e : nat) (nx : option nat) : St unit :=
  hedges_do (
    match nx with Some n => upd_at n (with_h_prev (Some e)) | None => ret tt end;;;
    upd_at e (with_h_next nx)).

(* `edge.twin` used as an object *)
Definition twin_of (e : nat) : St nat :=
  h <- hedges_do (get_at e);; need (h_twin h).

(* v.connected_edges.append(e) *)
Definition conn_append (v e : nat) : St unit :=
  verts_do (upd_at v (fun x => with_v_conn (v_conn x ++ [e]) x)).

(* list.remove(x): first occurrence; raises ValueError if absent *)
Fixpoint list_remove (x : nat) (l : list nat) : option (list nat) :=
  match l with
  | [] => None
  | y :: l' => if (x =? y)%nat then Some l' else match list_remove x l' with Some r => Some (y :: r) | None => None end
  end.
Definition conn_remove (v e : nat) : St unit :=
  x <- verts_do (get_at v);;
  match list_remove e (v_conn x) with
  | Some l => verts_do (upd_at v (with_v_conn l))
  | None => raise ValueError
  end.

(* set.add *)
Definition set_add (x : nat) (l : list nat) : list nat :=
  if bool_decide (x ∈ l) then l else l ++ [x].

(* coordinates of a point *)
Definition point_xy (p : nat) : St (pt A) := x <- points_do (get_at p);; ret (p_xy x).

(* p.first_edge = p.first_edge or e *)
Definition first_edge_or (p e : nat) : St unit :=
  points_do (upd_at p (fun x => with_p_first (or_else (p_first x) e) x)).

End State.

Arguments v_xy {A}.
Arguments v_conn {A}.
Arguments p_xy {A}.
Arguments p_name {A}.
Arguments p_first {A}.
Arguments c_x {A}.
Arguments c_y {A}.
Arguments c_r {A}.
Arguments c_node {A}.
Arguments c_valid {A}.
Arguments c_triple {A}.
Arguments i_ev {A}.
Arguments i_y {A}.
Arguments i_x {A}.
Arguments mkVertex {A}.
Arguments mkPoint {A}.
Arguments mkCevent {A}.
Arguments mkItem {A}.
Arguments mkState {A}.
Arguments s_nodes {A}.
Arguments s_arcs {A}.
Arguments s_bps {A}.
Arguments s_hedges {A}.
Arguments s_verts {A}.
Arguments s_points {A}.
Arguments s_cevs {A}.
Arguments s_queue {A}.
Arguments s_root {A}.
Arguments s_sweep {A}.
Arguments s_sites {A}.
Arguments s_edges {A}.
Arguments s_arcset {A}.
Arguments s_vset {A}.
Arguments s_event {A}.
Arguments s_pverts {A}.
Arguments s_log {A}.
Arguments s_vlist {A}.
Arguments set_vlist {A}.
Arguments set_nodes {A}.
Arguments set_arcs {A}.
Arguments set_bps {A}.
Arguments set_hedges {A}.
Arguments set_verts {A}.
Arguments set_points {A}.
Arguments set_cevs {A}.
Arguments set_queue {A}.
Arguments set_root {A}.
Arguments set_sweep {A}.
Arguments set_sites {A}.
Arguments set_edges {A}.
Arguments set_arcset {A}.
Arguments set_vset {A}.
Arguments set_event {A}.
Arguments set_pverts {A}.
Arguments set_log {A}.
Arguments nodes_do {A Y}.
Arguments arcs_do {A Y}.
Arguments bps_do {A Y}.
Arguments hedges_do {A Y}.
Arguments verts_do {A Y}.
Arguments points_do {A Y}.
Arguments cevs_do {A Y}.
Arguments notify {A}.
Arguments with_v_conn {A}.
Arguments with_p_name {A}.
Arguments with_p_first {A}.
Arguments with_c_valid {A}.
Arguments new_hedge {A}.
Arguments set_next {A}.
Arguments twin_of {A}.
Arguments conn_append {A}.
Arguments conn_remove {A}.
Arguments point_xy {A}.
Arguments first_edge_or {A}.
