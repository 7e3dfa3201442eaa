(* Circle.v -- foronoi/contrib/bounding_circle.py, and create_diagram when the bounding
   "polygon" is a BoundingCircle. *)
From stdpp Require Import base list.
From Coq Require Import ZArith.
From Verif Require Import Arith Geom Monad Tree Heapq State Sweep Finish.
Local Open Scope monad_scope.

(* bounding_circle.py:16-19, 21: the centre and the radius.  (min_x .. max_y and the dummy
   Algorithm of lines 22-27 are used only for drawing: omitted; the corners are in Visual.v.) *)
Record circle (A : Arith) : Type := mkCircle { ci_x : D A; ci_y : D A; ci_r : D A }.
Arguments mkCircle {A}. Arguments ci_x {A}. Arguments ci_y {A}. Arguments ci_r {A}.

Section Pure.
Context (A : Arith).
Notation "a + b" := (dadd A a b). Notation "a - b" := (dsub A a b). Notation "a * b" := (dmul A a b).
Local Open Scope result_scope.

(* bounding_circle.py:39-40 inside *)
Definition circle_inside (c : circle A) (p : pt A) : bool :=
  dltb A (dsq A (ci_x c - fst p) + dsq A (ci_y c - snd p)) (dsq A (ci_r c)).
(* the same for a point that may be at Decimal('Infinity'): its squared distance is infinite *)
Definition circle_inside_x (c : circle A) (p : xpt A) : bool :=
  match snd p with Fin y => circle_inside c (fst p, y) | PInf => false end.

(* bounding_circle.py:117-131 get_line, for two located points *)
Definition get_line (p q : pt A) : result (D A * D A * D A) :=
  if deqb A (snd q - snd p) (dZ A 0) then Val (dZ A 0, dZ A 1, snd p)
  else if deqb A (fst q - fst p) (dZ A 0) then Val (dZ A 1, dZ A 0, fst p)
  else
    a <-r lift_div A (ddiv A (dneg A (snd q - snd p)) (fst q - fst p));;
    Val (a, dZ A 1, fst p * a + snd p).

(* get_line when an end may have an infinite y.  Two infinite ones: Infinity - Infinity is
   an InvalidOperation.  One infinite one: the first test fails, and unless the x agree a is
   infinite and cut_circle runs into an InvalidOperation, at 0 * Infinity or
   Infinity - Infinity. *)
Definition get_line_x (p q : xpt A) : result (D A * D A * D A) :=
  match snd p, snd q with
  | Fin y, Fin y' => get_line (fst p, y) (fst q, y')
  | PInf, PInf => Raise InvalidOperation
  | _, _ => if deqb A (fst q - fst p) (dZ A 0) then Val (dZ A 1, dZ A 0, fst p) else Raise InvalidOperation
  end.

(* a <= b on y-coordinates *)
Definition xleb (a b : ext A) : bool :=
  match a, b with Fin x, Fin y => dleb A x y | _, PInf => true | PInf, Fin _ => false end.

(* bounding_circle.py:152-163 on_line(A, B, C) *)
Definition within {T} (le : T -> T -> bool) (p q r : T) : bool := (le p q && le q r) || (le r q && le q p).
Definition on_line (p q : xpt A) (c : pt A) : bool :=
  if negb (deqb A (fst p) (fst q)) then within (dleb A) (fst p) (fst c) (fst q)
  else within xleb (snd p) (Fin (snd c)) (snd q).

(* bounding_circle.py:195-210 cut_circle.  Decimal.sqrt of a negative number raises
   InvalidOperation, which is not the ValueError caught in line 200. *)
Definition cut_circle (ci : circle A) (a b c : D A) : result (pt A * pt A) :=
  let d := c - a * ci_x ci - b * ci_y ci in
  let n := dsq A a + dsq A b in
  s <-r lift_sqrt A (dsqrt A (dsq A (ci_r ci) * n - dsq A d));;
  x1 <-r lift_div A (ddiv A (a * d + b * s) n);;
  y1 <-r lift_div A (ddiv A (b * d - a * s) n);;
  x2 <-r lift_div A (ddiv A (a * d - b * s) n);;
  y2 <-r lift_div A (ddiv A (b * d + a * s) n);;
  Val ((ci_x ci + x1, ci_y ci + y1), (ci_x ci + x2, ci_y ci + y2)).

(* bounding_circle.py:188-193: the nearer of two points; an infinite A is infinitely far
   from both *)
Definition nearer (p : xpt A) (q1 q2 : pt A) : pt A :=
  match snd p with
  | PInf => q2
  | Fin y =>
      let dist q := dsq A (fst p - fst q) + dsq A (y - snd q) in
      if dltb A (dist q1) (dist q2) then q1 else q2
  end.

(* bounding_circle.py:165-193 cut_line, given the two ends of the edge *)
Definition cut_line (ci : circle A) (p q : xpt A) : result (option (pt A)) :=
  abc <-r get_line_x p q;;
  let '(a, b, c) := abc in
  pts <-r cut_circle ci a b c;;
  let '(p1, p2) := pts in
  Val (match on_line p q p1, on_line p q p2 with
       | false, false => None
       | true, false => Some p1
       | false, true => Some p2
       | true, true => Some (nearer p p1 p2)
       end).
End Pure.

Section Circle.
Context (A : Arith) (ci : circle A).
Notation St := (M (state A)).

(* edge.get_origin(y=-1000) (bounding_circle.py:46-47, 166-167; half_edge.py:92-118) *)
Definition origin_at_1000 (e : nat) : St (option (xpt A)) :=
  h <- hedges_do (get_at e);;
  match h_origin h with
  | OVx v => x <- verts_do (get_at v);; ret (option_map (xpt_of A) (v_xy x))
  | OBp b =>
      x <- bps_do (get_at b);;
      pi <- point_xy (b_l x);; pj <- point_xy (b_r x);;
      q <- lift (get_intersection A pi pj (dZ A (-1000)) None);;
      ret (Some q)
  end.

(* bounding_circle.py:103-115 trim_edge *)
Definition trim_edge (e : nat) : St bool :=
  a <- origin_at_1000 e;;
  t <- twin_of e;;
  b <- origin_at_1000 t;;
  p <- need a;; q <- need b;;
  o <- lift (cut_line A ci p q);;
  match o with
  | None => ret false
  | Some z =>
      v <- verts_do (alloc (mkVertex (Some (ofF A (toF A (fst z)), ofF A (toF A (snd z)))) [e]));;
      hedges_do (upd_at e (with_h_origin (OVx v)));;;
      write (fun s => set_pverts (s_pverts s ++ [v]) s);;;
      ret true
  end.

(* bounding_circle.py:45-79, the body of the loop: the edges added to the result *)
Definition circle_clip (e : nat) : St (list nat) :=
  a <- origin_at_1000 e;;
  t <- twin_of e;;
  b <- origin_at_1000 t;;
  match a, b with
  | None, None => ret []
  | _, _ =>
      k <- match a with
           | None => trim_edge e
           | Some p => if circle_inside_x A ci p then ret true else trim_edge e
           end;;
      let kept := if k : bool then [e] else [] in
      k2 <- match b with
            | Some q => if circle_inside_x A ci q then ret false else trim_edge t
            | None => trim_edge t
            end;;
      ret (kept ++ (if k2 : bool then [t] else []))
  end.

Fixpoint circle_clip_all (es : list nat) : St (list nat) :=
  match es with
  | [] => ret []
  | e :: r => xs <- circle_clip e;; ys <- circle_clip_all r;; ret (xs ++ ys)
  end.

(* What the attribute edges of the Algorithm may hold: a list of half-edges, or the pair
   that BoundingCircle.finish_edges returns *)
Inductive edges_value : Type := EList (l : list nat) | EPair (l vs : list nat).

(* the attributes of BoundingCircle used by the methods inherited from Polygon *)
Definition circle_poly : polygon A :=
  {| pg_points := []; pg_min_y := ci_y ci; pg_min_x := ci_x ci; pg_max_y := ci_y ci; pg_max_x := ci_x ci;
     pg_center := (ci_x ci, ci_y ci) |}.

(* bounding_circle.py:42-101 finish_edges *)
Definition circle_finish_edges (es : list nat) : St edges_value :=
  r <- circle_clip_all es;;
  pv <- read s_pverts;;
  vs <- read (get_ordered_vertices A circle_poly pv);;
  write (set_pverts vs);;;
  ret (EPair r vs).

(* edges.append(edge): a tuple has no method append *)
Definition edges_append (ev : edges_value) (e : nat) : St edges_value :=
  match ev with EList l => ret (EList (l ++ [e])) | EPair _ _ => raise AttributeError end.

(* graph/polygon.py:75-108, the loop of finish_polygon on such a value *)
Fixpoint border_loop_on (ev : edges_value) (pairs : list (nat * nat)) (cell : option nat) : St edges_value :=
  match pairs with
  | [] => ret ev
  | (o, e) :: r =>
      '(cell', x) <- border_edge A o e cell;;
      ev' <- edges_append ev x;;
      border_loop_on ev' r cell'
  end.

Fixpoint keep_inside_circle (vs : list nat) : St (list nat) :=
  match vs with
  | [] => ret []
  | v :: r => xy <- vertex_xy A v;; xs <- keep_inside_circle r;; ret (if circle_inside A ci xy then v :: xs else xs)
  end.

(* graph/polygon.py:51-112 finish_polygon, inherited by BoundingCircle *)
Definition circle_finish_polygon (ev : edges_value) (existing points : list nat) : St (edges_value * list nat) :=
  pv <- read s_pverts;;
  vs <- read (get_ordered_vertices A circle_poly pv);;
  match vs with
  | [] => raise IndexError
  | v0 :: _ =>
      p0 <- vertex_xy A v0;;
      xys <- points_xy A points;;
      i <- lift (get_closest_point A p0 xys);;
      cell <- deref (points !! i);;
      ev' <- border_loop_on ev (sides vs) (Some cell);;
      ex <- keep_inside_circle existing;;
      ret (ev', vs ++ ex)
  end.

(* algorithm.py:122-222 create_diagram with a BoundingCircle, to the end of line 215; what
   it leaves in self.edges and self._vertices *)
Definition create_diagram_circle (fuel : nat) (xys : list (pt A)) : St (edges_value * list nat) :=
  sweep A fuel xys;;;
  es <- read s_edges;;
  ev <- circle_finish_edges es;;
  vs <- read s_vset;;
  sites <- read s_sites;;
  circle_finish_polygon ev vs sites.
End Circle.
