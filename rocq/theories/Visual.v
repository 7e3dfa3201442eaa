(* Visual.v -- foronoi/visualization/visualizer.py: what is drawn.  A drawing is the list of
   the calls made on the matplotlib canvas, without line widths, sizes, z-orders and fonts. *)
From stdpp Require Import base list.
From Coq Require Import ZArith.
From Verif Require Import Arith Geom Monad Tree Heapq State Sweep Finish Circle.
Local Open Scope monad_scope.

(* visualizer.py:13-29 Colors; BEACH_LINE, ... name the constants *)
Inductive color : Type := SWEEP_LINE | VERTICES | BEACH_LINE | EDGE | ARC | INCIDENT_POINT_POINTER | INVALID_CIRCLE
  | VALID_CIRCLE | CELL_POINTS | TRIANGLE | BOUNDING_BOX | EDGE_DIRECTION | FIRST_EDGE.

(* texts: "P{name}" of a site; "{incident_point}/{twin's incident_point}" of an edge, by the
   names of the points (point.py:49-52, half_edge.py:76-77); the name alone on an arc *)
Inductive text : Type := TSite (name : option nat) | TEdge (left right : option nat) | TArc (name : option nat).

Section Visual.
Context (A : Arith).
Notation St := (M (state A)).

Inductive cmd : Type :=
| CLine (c : color) (p q : xpt A)                       (* canvas.plot([p.x, q.x], [p.y, q.y]) *)
| CPointer (c : color) (p : xpt A) (q : pt A)           (* the same, dashed *)
| CHorizontal (c : color) (x1 x2 : D A) (y : option (D A)) (* canvas.plot([x1, x2], [y, y]); None: y = inf *)
| CCurve (c : color) (dashed : bool) (l : list (F A * F A)) (* canvas.plot(xs, ys) *)
| CVertical (c : color) (x : D A)                       (* canvas.axvline *)
| CScatter (c : color) (l : list (pt A))                (* canvas.scatter *)
| CLabel (p : xpt A) (t : text)                         (* canvas.text / annotate *)
| CArcLabel (x : option (F A)) (y : option (F A)) (t : text) (* canvas.text; x = None: nan; y = None: nan or None *)
| CArrow (p q : pt A)                                   (* canvas.annotate with an arrow from p to q *)
| CCircle (c : color) (centre : pt A) (radius : D A)
| CPolygon (c : color) (l : list (pt A)).

(* run a drawing for each element and put the calls one after another *)
Fixpoint mcat {X} (f : X -> St (list cmd)) (l : list X) : St (list cmd) :=
  match l with
  | [] => ret []
  | x :: l' => a <- f x;; b <- mcat f l';; ret (a ++ b)
  end.
Fixpoint mmap {X Y} (f : X -> St Y) (l : list X) : St (list Y) :=
  match l with
  | [] => ret []
  | x :: l' => a <- f x;; b <- mmap f l';; ret (a :: b)
  end.

(* the bounding object: a Polygon, or a BoundingCircle (contrib/bounding_circle.py:16-27).
   hasattr(_, 'radius') tells them apart (visualizer.py:202) *)
Inductive bounds : Type := BPoly (p : polygon A) | BCircle (c : circle A).
Definition bd_min_x (b : bounds) : D A := match b with BPoly p => pg_min_x A p | BCircle c => dsub A (ci_x c) (dmul A (dZ A 2) (ci_r c)) end.
Definition bd_max_x (b : bounds) : D A := match b with BPoly p => pg_max_x A p | BCircle c => dadd A (ci_x c) (dmul A (dZ A 2) (ci_r c)) end.
Definition bd_min_y (b : bounds) : D A := match b with BPoly p => pg_min_y A p | BCircle c => dsub A (ci_y c) (dmul A (dZ A 2) (ci_r c)) end.
Definition bd_max_y (b : bounds) : D A := match b with BPoly p => pg_max_y A p | BCircle c => dadd A (ci_y c) (dmul A (dZ A 2) (ci_r c)) end.

(* visualizer.py:546-552 _canvas_size; canvas_offset is an int (or a Decimal) *)
Record canvas : Type := mkCanvas { cv_min_x : D A; cv_max_x : D A; cv_min_y : D A; cv_max_y : D A }.
Definition canvas_size (b : bounds) (offset : D A) : canvas :=
  mkCanvas (dsub A (bd_min_x b) offset) (dadd A (bd_max_x b) offset) (dsub A (bd_min_y b) offset) (dadd A (bd_max_y b) offset).

Section Canvas.
Context (b : bounds) (cv : canvas).

(* `given or default` for a list: an empty list counts as not given *)
Definition or_list {X} (given : option (list X)) (l : list X) : list X :=
  match given with Some (x :: r) => x :: r | _ => l end.
(* `sweep_line or self.voronoi.sweep_line`: a given 0 counts as not given *)
Definition or_sweep (given : option (D A)) (s : option (D A)) : option (D A) :=
  match given with Some y => if deqb A y (dZ A 0) then s else given | None => s end.

(* visualizer.py:193-216 plot_polygon; note the (xd, xd) of line 205 *)
Definition plot_polygon : St (list cmd) :=
  match b with
  | BCircle c => ret [CCircle BOUNDING_BOX (ci_x c, ci_x c) (ci_r c)]
  | BPoly p => ret [CPolygon BOUNDING_BOX (pg_points A p)]
  end.

(* the coordinates of a vertex, which scatter needs to be numbers *)
Definition vertex_xy (v : nat) : St (pt A) := x <- verts_do (get_at v);; need (v_xy x).

(* visualizer.py:218-239 plot_vertices *)
Definition plot_vertices (vertices : option (list nat)) : St (list cmd) :=
  default_ <- read s_vset;;
  l <- mmap vertex_xy (or_list vertices default_);;
  ret [CScatter VERTICES l].

(* visualizer.py:535-544 _origins.  sl = None: an infinite sweep line; there are no edges then,
   and get_origin is called as without one *)
Definition origins (e : nat) (sl : option (D A)) : St (option (xpt A) * option (xpt A)) :=
  let at_ := option_map (fun y => (y, cv_max_y cv)) sl in
  start <- get_origin A e at_;;
  t <- twin_of e;;
  end_ <- get_origin A t at_;;
  ret (start, end_).

(* (a + b) / 2 on coordinates that may be infinite *)
Definition ext_mid (a b : ext A) : result (ext A) :=
  match a, b with
  | Fin x, Fin y => rbind (lift_div A (ddiv A (dadd A x y) (dZ A 2))) (fun m => Val (Fin m))
  | _, _ => Val PInf
  end.
Definition xpt_mid (p q : xpt A) : result (xpt A) :=
  rbind (lift_div A (ddiv A (dadd A (fst p) (fst q)) (dZ A 2))) (fun x => rbind (ext_mid (snd p) (snd q)) (fun y => Val (x, y))).

(* the name in str(point) *)
Definition name_of (p : option nat) : St (option nat) :=
  match p with None => ret None | Some p => x <- points_do (get_at p);; ret (p_name x) end.

(* visualizer.py:498-521 _plot_edge *)
Definition plot_edge (e : nat) (sl : option (D A)) (print_name : bool) (c : color) : St (list cmd) :=
  o <- origins e sl;;
  match o with
  | (Some start, Some end_) =>
      if print_name then
        h <- hedges_do (get_at e);;
        t <- twin_of e;; ht <- hedges_do (get_at t);;
        n1 <- name_of (h_inc h);; n2 <- name_of (h_inc ht);;
        m <- lift (xpt_mid end_ start);;
        ret [CLine c start end_; CLabel m (TEdge n1 n2)]
      else ret [CLine c start end_]
  | _ => ret []
  end.

(* visualizer.py:318-344 plot_edges *)
Definition plot_edges (edges : option (list nat)) (sweep_line : option (D A)) (show_labels : bool) (c : color) : St (list cmd) :=
  default_ <- read s_edges;; sl <- read s_sweep;;
  let sl := or_sweep sweep_line sl in
  mcat (fun e => a <- plot_edge e sl show_labels c;; t <- twin_of e;; b <- plot_edge t sl false c;; ret (a ++ b))
    (or_list edges default_).

(* visualizer.py:523-533 _draw_line_from_edge_midpoint_to_incident_point *)
Definition plot_pointer (e : nat) (sl : option (D A)) : St (list cmd) :=
  o <- origins e sl;;
  h <- hedges_do (get_at e);;
  match h_inc h with
  | None => ret []
  | Some p =>
      x <- points_do (get_at p);;
      match o with
      | (Some start, Some end_) =>
          m <- lift (xpt_mid start end_);;
          ret [CPointer (if bool_decide (p_first x = Some e) then FIRST_EDGE else INCIDENT_POINT_POINTER) m (p_xy x)]
      | _ => ret []
      end
  end.

(* visualizer.py:346-369 plot_border_to_site *)
Definition plot_border_to_site (edges : option (list nat)) (sweep_line : option (D A)) : St (list cmd) :=
  default_ <- read s_edges;; sl <- read s_sweep;;
  let sl := or_sweep sweep_line sl in
  mcat (fun e => a <- plot_pointer e sl;; t <- twin_of e;; b <- plot_pointer t sl;; ret (a ++ b)) (or_list edges default_).

(* visualizer.py:260-280, the body of the loop of plot_outgoing_edges.  The origins are found
   without a sweep line, so they are vertices. *)
Definition plot_arrow (e : nat) (scale : D A) : St (list cmd) :=
  o <- origins e None;;
  match o with
  | (Some (x1, Fin y1), Some (x2, Fin y2)) =>
      let dx := dsub A x2 x1 in
      let dy := dsub A y2 y1 in
      len <- lift (lift_sqrt A (dsqrt A (dadd A (dsq A dx) (dsq A dy))));;
      if deqb A len (dZ A 0) then ret []
      else
        ux <- lift (lift_div A (ddiv A dx len));; uy <- lift (lift_div A (ddiv A dy len));;
        ret [CArrow (x1, y1) (dadd A x1 (dmul A ux scale), dadd A y1 (dmul A uy scale))]
  | _ => ret []
  end.
(* visualizer.py:241-282 plot_outgoing_edges *)
Definition plot_outgoing_edges (vertices : option (list nat)) (scale : D A) : St (list cmd) :=
  default_ <- read s_vset;;
  mcat (fun v => x <- verts_do (get_at v);; mcat (fun e => plot_arrow e scale) (v_conn x)) (or_list vertices default_).

(* visualizer.py:284-316 plot_sites; the points are given by their identities *)
Definition plot_sites (points : option (list nat)) (show_labels : bool) (c : color) : St (list cmd) :=
  default_ <- read s_sites;;
  let ps := or_list points default_ in
  l <- mmap (fun p => point_xy p) ps;;
  labels <- (if show_labels then mcat (fun p => x <- points_do (get_at p);; ret [CLabel (xpt_of A (p_xy x)) (TSite (p_name x))]) ps else ret []);;
  ret (CScatter c l :: labels).

(* visualizer.py:437-457 plot_sweep_line *)
Definition plot_sweep_line (sweep_line : option (D A)) : St (list cmd) :=
  sl <- read s_sweep;;
  ret [CHorizontal SWEEP_LINE (cv_min_x cv) (cv_max_x cv) (or_sweep sweep_line sl)].

(* visualizer.py:481-496 _plot_circle *)
Definition plot_circle (k : nat) (show_triangle : bool) : St (list cmd) :=
  e <- cevs_do (get_at k);;
  let '(a, b, c) := c_triple e in
  pa <- point_xy a;; pb <- point_xy b;; pc <- point_xy c;;
  points <- plot_sites (Some [a; b; c]) false VALID_CIRCLE;;
  ret ([CCircle (if c_valid e then VALID_CIRCLE else INVALID_CIRCLE) (c_x e, c_y e) (c_r e)] ++
       (if show_triangle then [CPolygon TRIANGLE [pa; pb; pc]] else []) ++ points).

(* visualizer.py:459-479 plot_event.  plot_all calls it with the boolean `triangles` in the
   place of the event (line 188), hence the argument may be a boolean. *)
Inductive event_arg : Type := ENone | EEvent (e : event) | EBool (v : bool).
Definition plot_event (arg : event_arg) (triangles : bool) : St (list cmd) :=
  current <- read s_event;;
  let shown := match arg with EEvent e => Some e | EBool true => None | ENone | EBool false => current end in
  match shown with Some (ECircle k) => plot_circle k triangles | _ => ret [] end.

(* ---------- the arcs ---------- *)
(* np.linspace(a, b, n) for n >= 2 *)
Definition linspace (a b : F A) (n : nat) : list (F A) :=
  let step := fdiv A (fsub A b a) (fZ A (Z.of_nat (n - 1))) in
  map (fun i => fadd A a (fmul A (fZ A (Z.of_nat i)) step)) (seq 0 (n - 1)) ++ [b].

(* np.min(_, axis=0): for each position the least of the values there *)
Definition fmin (a b : F A) : F A := if fltb A b a then b else a.
Definition bottom_of (lines : list (list (F A))) (n : nat) : list (F A) :=
  match lines with
  | [] => []
  | l0 :: rest => map (fun i => fold_left (fun m l => match l !! i with Some y => fmin m y | None => m end) rest (default (fZ A 0) (l0 !! i))) (seq 0 n)
  end.

(* arc.get_plot(xs, sweep_line) for an array xs, which is not empty (nodes/arc.py:34-61) *)
Definition arc_line (p : pt A) (xs : list (F A)) (l : F A) : option (list (F A)) :=
  mapM (fun x => get_plot A (toF A (fst p)) (toF A (snd p)) x l) xs.

(* np.nanargmin(_, axis=0) at position i: the first line that is lowest there *)
Definition argmin_at (lines : list (list (F A))) (i : nat) : nat :=
  (fix go (k : nat) (best : nat) (y : option (F A)) (ls : list (list (F A))) : nat :=
     match ls with
     | [] => best
     | l :: ls' => match l !! i, y with
                   | Some z, None => go (S k) k (Some z) ls'
                   | Some z, Some y0 => if fltb A z y0 then go (S k) k (Some z) ls' else go (S k) best y ls'
                   | None, _ => go (S k) best y ls'
                   end
     end) 0 0 None lines.
(* np.nanmedian of a sorted list; None: nan *)
Definition median (l : list (F A)) : option (F A) :=
  let n := length l in
  if Nat.even n then
    match l !! (n / 2 - 1), l !! (n / 2) with
    | Some a, Some b => if (n =? 0)%nat then None else Some (fdiv A (fadd A a b) (fZ A 2))
    | _, _ => None
    end
  else l !! (n / 2).


(* visualizer.py:426-435 _plot_arc_labels.  `arcs` is the list of all arcs, `lines` those of the
   arcs that are no vertical lines: index refers to the latter and is used on the former. *)
Definition plot_arc_labels (xs : list (F A)) (lines : list (list (F A))) (bottom : list (F A)) (l : F A) (arcs : list nat) : St (list cmd) :=
  let indices := map (argmin_at lines) (seq 0 (length xs)) in
  let used := List.filter (fun k => existsb (Nat.eqb k) indices) (seq 0 (length lines)) in
  mcat (fun k =>
    let here := omap (fun i => match xs !! i, bottom !! i, indices !! i with
                               | Some x, Some y, Some k' => if (k' =? k)%nat && fltb A y (toF A (cv_max_y cv)) then Some x else None
                               | _, _, _ => None
                               end) (seq 0 (length xs)) in
    let x_mean := median here in
    a <- deref (arcs !! k);;
    ar <- arcs_do (get_at a);;
    p <- points_do (get_at (a_origin ar));;
    let y := match x_mean with Some x => get_plot A (toF A (fst (p_xy p))) (toF A (snd (p_xy p))) x l | None => None end in
    ret [CArcLabel x_mean y (TArc (p_name p))]) used.

(* visualizer.py:404-414, the loop over the arcs: the calls and the lines that are kept *)
Fixpoint arc_lines (arcs : list nat) (xs : list (F A)) (l : F A) (show : bool) : St (list cmd * list (list (F A))) :=
  match arcs with
  | [] => ret ([], [])
  | a :: arcs' =>
      ar <- arcs_do (get_at a);;
      p <- point_xy (a_origin ar);;
      r <- arc_lines arcs' xs l show;;
      match arc_line p xs l with
      | None => ret ((if show then [CVertical SWEEP_LINE (fst p)] else []) ++ fst r, snd r)
      | Some ys => ret ((if show then [CCurve ARC true (combine xs ys)] else []) ++ fst r, ys :: snd r)
      end
  end.

(* visualizer.py:371-424 plot_arcs.  `order`: self.voronoi.arcs, the elements of the set _arcs in
   the order in which Python iterates over it (algorithm.py:88-90). *)
Definition plot_arcs (order : list nat) (arcs : option (list nat)) (sweep_line : option (D A)) (show_arcs show_labels : bool) : St (list cmd) :=
  let arcs := or_list arcs order in
  sl <- read s_sweep;;
  let l := toF A (default (cv_max_y cv) (or_sweep sweep_line sl)) in
  let xs := linspace (toF A (cv_min_x cv)) (toF A (cv_max_x cv)) 1000 in
  r <- arc_lines arcs xs l show_arcs;;
  match snd r with
  | [] => ret (fst r)
  | _ =>
      let bottom := bottom_of (snd r) (length xs) in
      labels <- (if show_labels then plot_arc_labels xs (snd r) bottom l arcs else ret []);;
      ret (fst r ++ CCurve BEACH_LINE false (combine xs bottom) :: labels)
  end.

(* ---------- everything ---------- *)
(* visualizer.py:130-133, the arguments of plot_all *)
Record flags : Type := mkFlags {
  fl_polygon : bool; fl_edges : bool; fl_vertices : bool; fl_sites : bool; fl_outgoing_edges : bool; fl_border_to_site : bool;
  fl_scale : D A; fl_edge_labels : bool; fl_site_labels : bool; fl_triangles : bool; fl_arcs : bool; fl_sweep_line : bool;
  fl_events : bool; fl_arc_labels : bool; fl_beach_line : bool }.

Definition when (c : bool) (m : St (list cmd)) : St (list cmd) := if c then m else ret [].

(* visualizer.py:130-191 plot_all *)
Definition plot_all (order : list nat) (f : flags) : St (list cmd) :=
  c1 <- when (fl_sweep_line f) (plot_sweep_line None);;
  c2 <- when (fl_polygon f) plot_polygon;;
  c3 <- when (fl_edges f) (plot_edges None None (fl_edge_labels f) EDGE);;
  c4 <- when (fl_border_to_site f) (plot_border_to_site None None);;
  c5 <- when (fl_vertices f) (plot_vertices None);;
  c6 <- when (fl_sites f) (plot_sites None (fl_site_labels f) CELL_POINTS);;
  c7 <- when (fl_outgoing_edges f) (plot_outgoing_edges None (fl_scale f));;
  c8 <- when (fl_events f) (plot_event (EBool (fl_triangles f)) false);;
  c9 <- when (fl_beach_line f) (plot_arcs order None None (fl_arcs f) (fl_arc_labels f));;
  ret (c1 ++ c2 ++ c3 ++ c4 ++ c5 ++ c6 ++ c7 ++ c8 ++ c9).
End Canvas.
End Visual.
