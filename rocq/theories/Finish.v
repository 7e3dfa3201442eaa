(* Finish.v -- clipping to the bounding polygon (foronoi/graph/polygon.py), removal of
   zero-length edges and create_diagram (foronoi/algorithm.py), and the queries on a
   finished cell (foronoi/graph/point.py). *)
From stdpp Require Import base list.
From Coq Require Import ZArith.
From Verif Require Import Arith Geom Monad Tree Heapq State Sweep.
Local Open Scope monad_scope.

Section Finish.
Context (A : Arith).
Notation St := (M (state A)).

Fixpoint mfor {X} (l : list X) (f : X -> St unit) : St unit :=
  match l with [] => ret tt | x :: l' => f x;;; mfor l' f end.

(* graph/half_edge.py:92-118 HalfEdge.get_origin(y, max_y); [at_] = None: called without y *)
Definition get_origin (e : nat) (at_ : option (D A * D A)) : St (option (xpt A)) :=
  h <- hedges_do (get_at e);;
  match h_origin h with
  | OVx v => x <- verts_do (get_at v);; ret (option_map (xpt_of A) (v_xy x))
  | OBp b =>
      match at_ with
      | None => ret None
      | Some (y, max_y) =>
          x <- bps_do (get_at b);;
          pi <- point_xy (b_l x);; pj <- point_xy (b_r x);;
          q <- lift (get_intersection A pi pj y (Some max_y));;
          ret (Some q)
      end
  end.

(* graph/half_edge.py:151-174 HalfEdge.delete *)
Definition delete_edge (e : nat) : St unit :=
  h <- hedges_do (get_at e);;
  match h_origin h with OVx v => conn_remove v e | OBp _ => ret tt end;;;
  match h_prev h with Some p => set_next p (h_next h) | None => ret tt end;;;
  match h_inc h with
  | None => ret tt
  | Some p =>
      xp <- points_do (get_at p);;
      if bool_decide (p_first xp = Some e) then
        h' <- hedges_do (get_at e);;
        match h_next h' with
        | None => ret tt
        | Some n =>
            hn <- hedges_do (get_at n);;
            if bool_decide (h_inc hn = Some p) then ret tt else raise AssertionError
        end;;;
        points_do (upd_at p (with_p_first (h_next h')))
      else ret tt
  end.

Section Poly.
(* the bounding polygon: its geometric attributes are fixed by Polygon.__init__;
   its growing list polygon_vertices is s_pverts *)
Context (poly : polygon A).

(* graph/polygon.py:150-169 _finish_edge *)
Definition finish_edge (e : nat) : St unit :=
  let sl := finish_sweep_line A poly in
  let max_y := pg_max_y A poly in
  start <- get_origin e (Some (sl, max_y));;
  t <- twin_of e;;
  end_ <- get_origin t (Some (sl, max_y));;
  point <- lift (get_intersection_point A (pg_points A poly) end_ start);;
  let xy := match point with
            | Some (x, y) => Some (ofF A (toF A x), ofF A (toF A y))
            | None => None
            end in
  v <- verts_do (alloc (mkVertex xy [e]));;
  hedges_do (upd_at e (with_h_origin (OVx v)));;;
  write (fun s => set_pverts (s_pverts s ++ [v]) s).

(* `edge.get_origin() is None or not self.inside(edge.get_origin())` (polygon.py:135, 138).
   get_origin() without y never returns an infinite coordinate. *)
Definition origin_unfinished (e : nat) : St bool :=
  o <- get_origin e None;;
  match o with
  | Some (x, Fin y) => b <- lift (inside A (pg_points A poly) (x, y));; ret (negb b)
  | _ => ret true
  end.

Definition has_origin (e : nat) : St bool := o <- get_origin e None;; ret (bool_decide (is_Some o)).

(* graph/polygon.py:133-146, the body of the loop; returns whether the edge is kept *)
Definition clip_edge (e : nat) : St bool :=
  b1 <- origin_unfinished e;;
  (if b1 : bool then finish_edge e else ret tt);;;
  t <- twin_of e;;
  b2 <- origin_unfinished t;;
  (if b2 : bool then finish_edge t else ret tt);;;
  o1 <- has_origin e;;
  o2 <- has_origin t;;
  if (o1 : bool) && (o2 : bool) then ret true
  else delete_edge e;;; delete_edge t;;; notify SPolygon DEBUG;;; ret false.

(* graph/polygon.py:117-148 finish_edges *)
Fixpoint finish_edges (edges : list nat) : St (list nat) :=
  match edges with
  | [] => ret []
  | e :: es =>
      k <- clip_edge e;;
      r <- finish_edges es;;
      ret (if k : bool then e :: r else r)
  end.

(* graph/polygon.py:39-43 _get_ordered_vertices *)
Definition get_ordered_vertices (vs : list nat) (s : state A) : list nat :=
  let located := List.filter (fun v => match s_verts s !! v with
                                  | Some x => match v_xy x with Some _ => true | None => false end
                                  | None => false end) vs in
  let key v := match s_verts s !! v with
               | Some x => match v_xy x with
                           | Some p => clockwise_key A (pg_center A poly) p
                           | None => fZ A 0 end
               | None => fZ A 0 end in
  sort_by A key located.

Definition vertex_xy (v : nat) : St (pt A) := x <- verts_do (get_at v);; need (v_xy x).

Fixpoint points_xy (ps : list nat) : St (list (pt A)) :=
  match ps with [] => ret [] | p :: r => x <- point_xy p;; xs <- points_xy r;; ret (x :: xs) end.

(* polygon.py:82-83: the incident point of the twin of the first connected edge *)
Definition first_conn_twin (v : nat) : St (option nat) :=
  x <- verts_do (get_at v);;
  match v_conn x with
  | [] => ret None
  | c :: _ => t <- twin_of c;; ret (Some t)
  end.

(* graph/polygon.py:75-108, one border edge from [origin] to [end_]; [cell] is the
   current cell (None when the twin's incident point is None).  Returns the new cell
   and edge.  Line 99 always holds since line 87 has just appended to the list. *)
Definition border_edge (origin end_ : nat) (cell : option nat) : St (option nat * nat) :=
  o <- first_conn_twin origin;;
  cell' <- match o with
           | None => ret cell
           | Some t => h <- hedges_do (get_at t);; ret (h_inc h)
           end;;
  te <- new_hedge None None (OVx end_);;
  e <- new_hedge cell' (Some te) (OVx origin);;
  conn_append origin e;;;
  te' <- twin_of e;;
  conn_append end_ te';;;
  match cell' with Some c => first_edge_or c e | None => ret tt end;;;
  xe <- verts_do (get_at end_);;
  match v_conn xe with c :: _ => set_next e (Some c) | [] => ret tt end;;;
  xo <- verts_do (get_at origin);;
  match v_conn xo with c :: _ => t <- twin_of c;; set_next t (Some e) | [] => ret tt end;;;
  ret (cell', e).

Fixpoint border_loop (pairs : list (nat * nat)) (cell : option nat) : St (list nat) :=
  match pairs with
  | [] => ret []
  | (o, e) :: r =>
      '(cell', x) <- border_edge o e cell;;
      xs <- border_loop r cell';;
      ret (x :: xs)
  end.

(* polygon.py:110 [i for i in existing_vertices if self.inside(i)] *)
Fixpoint keep_inside (vs : list nat) : St (list nat) :=
  match vs with
  | [] => ret []
  | v :: r =>
      xy <- vertex_xy v;;
      b <- lift (inside A (pg_points A poly) xy);;
      xs <- keep_inside r;;
      ret (if b : bool then v :: xs else xs)
  end.

(* graph/polygon.py:51-112 finish_polygon *)
Definition finish_polygon (edges existing points : list nat) : St (list nat * list nat) :=
  pv <- read s_pverts;;
  vs <- read (get_ordered_vertices pv);;
  match vs with
  | [] => raise IndexError
  | v0 :: _ =>
      p0 <- vertex_xy v0;;
      xys <- points_xy points;;
      i <- lift (get_closest_point A p0 xys);;
      cell <- deref (points !! i);;
      new <- border_loop (sides vs) (Some cell);;
      ex <- keep_inside existing;;
      ret (edges ++ new, vs ++ ex)
  end.
End Poly.

(* algorithm.py:557-561: iterating over v1.connected_edges while removing from it; [i]
   is the position of Python's list iterator *)
Fixpoint move_connected (fuel : nat) (i v1 v2 : nat) : St unit :=
  match fuel with
  | O => raise OutOfFuel
  | S fuel =>
      x <- verts_do (get_at v1);;
      match v_conn x !! i with
      | None => ret tt
      | Some c =>
          hedges_do (upd_at c (with_h_origin (OVx v2)));;;
          conn_remove v1 c;;;
          conn_append v2 c;;;
          move_connected fuel (S i) v1 v2
      end
  end.

(* self._vertices.remove(v1) (algorithm.py:564) *)
Definition vertices_remove (v : nat) : St unit :=
  l <- read s_vset;;
  match list_remove v l with Some l' => write (set_vset l') | None => raise ValueError end.

Definition vertex_of_origin (e : nat) : St nat :=
  h <- hedges_do (get_at e);;
  match h_origin h with OVx v => ret v | OBp _ => raise AttributeError end.

(* algorithm.py:548-571, the body of the loop; returns whether the edge is kept *)
Definition clean_edge (e : nat) : St bool :=
  start <- get_origin e None;;
  t <- twin_of e;;
  end_ <- get_origin t None;;
  p <- need start;; q <- need end_;;
  let same := deqb A (fst p) (fst q) &&
              match snd p, snd q with Fin y, Fin y' => deqb A y y' | _, _ => false end in
  if same then
    v1 <- vertex_of_origin e;;
    v2 <- vertex_of_origin t;;
    x <- verts_do (get_at v1);;
    move_connected (S (length (v_conn x))) 0 v1 v2;;;
    vertices_remove v1;;;
    delete_edge e;;;
    t' <- twin_of e;;
    delete_edge t';;;
    ret false
  else ret true.

Fixpoint clean_loop (edges : list nat) : St (list nat) :=
  match edges with
  | [] => ret []
  | e :: es => k <- clean_edge e;; r <- clean_loop es;; ret (if k : bool then e :: r else r)
  end.

(* algorithm.py:541-572 clean_up_zero_length_edges *)
Definition clean_up_zero_length_edges : St unit :=
  es <- read s_edges;;
  r <- clean_loop es;;
  write (set_edges r).

(* algorithm.py:122-222 create_diagram for a Polygon (or BoundingBox); the fuel bounds
   the number of iterations of the main loop *)
Definition create_diagram (poly : polygon A) (remove_zero_length_edges : bool) (fuel : nat)
    (xys : list (pt A)) : St unit :=
  sweep A fuel xys;;;
  es <- read s_edges;;
  es' <- finish_edges poly es;;
  write (set_edges es');;;
  vs <- read s_vset;;
  sites <- read s_sites;;
  '(es2, vs2) <- finish_polygon poly es' vs sites;;
  write (fun s => set_vlist true (set_vset vs2 (set_edges es2 s)));;;
  (if remove_zero_length_edges then clean_up_zero_length_edges else ret tt);;;
  notify SAlgorithm DEBUG;;;
  notify SAlgorithm VORONOI_FINISHED.

(* graph/point.py:76-95 borders; None: the walk did not end within the fuel *)
Fixpoint borders_loop (fuel : nat) (s : state A) (first e : nat) : result (list nat) :=
  match fuel with
  | O => Raise OutOfFuel
  | S fuel =>
      match s_hedges s !! e with
      | None => Raise Dangling
      | Some h =>
          if bool_decide (h_next h = Some first) then Val [e]
          else match h_next h with
               | None => Val [e]
               | Some n => rbind (borders_loop fuel s first n) (fun r => Val (e :: r))
               end
      end
  end.
Definition borders (s : state A) (fuel : nat) (p : nat) : result (list nat) :=
  match s_points s !! p with
  | None => Raise Dangling
  | Some x => match p_first x with
              | None => Val []
              | Some e => borders_loop fuel s e e
              end
  end.

(* graph/point.py:97-110 vertices *)
Definition cell_vertices (s : state A) (fuel : nat) (p : nat) : result (list nat) :=
  rbind (borders s fuel p) (fun es =>
  Val (flat_map (fun e => match s_hedges s !! e with
                          | Some h => match h_origin h with OVx v => [v] | OBp _ => [] end
                          | None => [] end) es)).

(* graph/point.py:112-118 _get_xy; a vertex without coordinates makes float(None) raise
   TypeError *)
Definition get_xy (s : state A) (fuel : nat) (p : nat) : result (list (F A) * list (F A)) :=
  rbind (cell_vertices s fuel p) (fun vs =>
  rbind (rmap (fun v => match s_verts s !! v with
                        | Some x => match v_xy x with Some q => Val q | None => Raise TypeError end
                        | None => Raise Dangling end) vs) (fun qs =>
  Val (map (fun q => toF A (fst q)) qs, map (fun q => toF A (snd q)) qs))).

(* graph/point.py:54-74 area() without rounding *)
Definition area (s : state A) (fuel : nat) (p : nat) : result (F A) :=
  rbind (get_xy s fuel p) (fun xy => Val (shoelace A (fst xy) (snd xy))).

End Finish.
