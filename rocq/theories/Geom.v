(* Geom.v -- the pure geometric functions of foronoi, over any arithmetic. *)
From Coq Require Import ZArith List Bool.
From Verif Require Import Arith.
Import ListNotations.
Local Open Scope result_scope.

Section Geom.
Context (A : Arith).

(* graph/coordinate.py:4-17, attributes _xd and _yd of a located coordinate *)
Definition pt : Type := (D A * D A)%type.
(* graph/algebra.py:28-32, a numpy array of two floats *)
Definition fpt : Type := (F A * F A)%type.

(* A y-coordinate that may be Decimal('Infinity') (nodes/breakpoint.py:89,115). *)
Inductive ext : Type := Fin (d : D A) | PInf.
(* a Coordinate returned by Breakpoint.get_intersection *)
Definition xpt : Type := (D A * ext)%type.
Definition xpt_of (p : pt) : xpt := (fst p, Fin (snd p)).

Definition lift_div (o : option (D A)) : result (D A) :=
  match o with Some d => Val d | None => Raise DivisionByZero end.
Definition lift_sqrt (o : option (D A)) : result (D A) :=
  match o with Some d => Val d | None => Raise InvalidOperation end.

Declare Scope dec_scope.
Delimit Scope dec_scope with dec.
Bind Scope dec_scope with D.
Notation "a + b" := (dadd A a b) : dec_scope.
Notation "a - b" := (dsub A a b) : dec_scope.
Notation "a * b" := (dmul A a b) : dec_scope.
Notation "a ^2" := (dsq A a) (at level 30) : dec_scope.
Notation "- a" := (dneg A a) : dec_scope.
Notation "a <? b" := (dltb A a b) : dec_scope.
Notation "a =? b" := (deqb A a b) : dec_scope.
Notation "# n" := (dZ A n) (at level 5) : dec_scope.
Local Open Scope dec_scope.

(* events/circle_event.py:126-165 CircleEvent.create_circle; None models the
   returned False (collinear points), Some (x, y, radius) the returned triple. *)
Definition create_circle (a b c : pt) : result (option (D A * D A * D A)) :=
  let '(ax, ay) := a in let '(bx, by_) := b in let '(cx, cy) := c in
  let vA := bx - ax in
  let vB := by_ - ay in
  let vC := cx - ax in
  let vD := cy - ay in
  let vE := (bx - ax) * (ax + bx) + (by_ - ay) * (ay + by_) in
  let vF := (cx - ax) * (ax + cx) + (cy - ay) * (ay + cy) in
  let vG := #2 * ((bx - ax) * (cy - by_) - (by_ - ay) * (cx - bx)) in
  if vG =? #0 then Val None
  else
    x <-r lift_div (ddiv A (vD * vE - vB * vF) vG);;
    y <-r lift_div (ddiv A (vA * vF - vC * vE) vG);;
    r <-r lift_sqrt (dsqrt A ((ax - x)^2 + (ay - y)^2));;
    Val (Some (x, y, r)).

(* nodes/breakpoint.py:36-49 Breakpoint.does_intersect, breakpoint = (i, j) *)
Definition does_intersect (i j : pt) : bool :=
  negb ((snd i =? snd j) && (fst j <? fst i)).

(* nodes/breakpoint.py:113-120, the end of get_intersection: y from x on the
   parabola of p *)
Definition breakpoint_y (p : pt) (x l : D A) : result ext :=
  let '(a, b) := p in
  let u := #2 * (b - l) in
  if u =? #0 then Val PInf
  else
    inv <-r lift_div (ddiv A #1 u);;
    Val (Fin (inv * (x^2 - #2 * a * x + a^2 + b^2 - l^2))).

(* nodes/breakpoint.py:99-105, the general case: x of the crossing of the two
   parabolas *)
Definition breakpoint_x_general (i j : pt) (l : D A) : result (D A) :=
  let '(a, b) := i in let '(c, d) := j in
  let u := #2 * (b - l) in
  let v := #2 * (d - l) in
  s <-r lift_sqrt (dsqrt A
        (v * (a^2 * u - #2 * a * c * u + b^2 * (u - v) + c^2 * u)
         + d^2 * u * (v - u) + l^2 * (u - v)^2));;
  lift_div (ddiv A (- (s + a * v - c * u)) (u - v)).

(* nodes/breakpoint.py:51-120 Breakpoint.get_intersection(l, max_y), breakpoint = (i, j).
   `max_y or float('inf')` (line 89): a zero max_y is falsy. *)
Definition get_intersection (i j : pt) (l : D A) (max_y : option (D A)) : result xpt :=
  if snd i =? snd j then
    x <-r lift_div (ddiv A (fst i + fst j) #2);;
    if fst j <? fst i then
      Val (x, match max_y with
              | None => PInf
              | Some m => if m =? #0 then PInf else Fin m
              end)
    else y <-r breakpoint_y i x l;; Val (x, y)
  else if snd i =? l then
    y <-r breakpoint_y j (fst i) l;; Val (fst i, y)
  else if snd j =? l then
    y <-r breakpoint_y i (fst j) l;; Val (fst j, y)
  else
    x <-r breakpoint_x_general i j l;;
    y <-r breakpoint_y i x l;; Val (x, y).

(* nodes/arc.py:34-61 Arc.get_plot for a single x; None is returned for the
   degenerate arc.  (py and sweep_line are already floats there.) *)
Definition get_plot (px py x l : F A) : option (F A) :=
  if feqb A (fsub A py l) (fZ A 0) then None
  else
    let u := fmul A (fZ A 2) (fsub A py l) in
    let sq z := fmul A z z in
    let v := fsub A (fadd A (fadd A (fsub A (sq x) (fmul A (fmul A (fZ A 2) px) x)) (sq px)) (sq py)) (sq l) in
    Some (fdiv A v u).

(* graph/algebra.py:63-66 Algebra.calculate_angle *)
Definition calculate_angle (p center : pt) : F A :=
  fangle A (toF A (snd p - snd center)) (toF A (fst p - fst center)).

(* graph/algebra.py:69-79 Algebra.check_clockwise *)
Definition check_clockwise (a b c center : pt) : bool :=
  let angle_1 := calculate_angle a center in
  let angle_2 := calculate_angle b center in
  let angle_3 := calculate_angle c center in
  let counter_clockwise :=
    fltb A (fmod360 A (fsub A angle_3 angle_2)) (fmod360 A (fsub A angle_3 angle_1)) in
  negb counter_clockwise.

(* graph/algebra.py:7-13 Algebra.distance *)
Definition distance (p q : pt) : result (D A) :=
  lift_sqrt (dsqrt A ((fst q - fst p)^2 + (snd q - snd p)^2)).

(* numpy dot and cross of two-element vectors *)
Definition fdot (u v : fpt) : F A := fadd A (fmul A (fst u) (fst v)) (fmul A (snd u) (snd v)).
Definition fcross (u v : fpt) : F A := fsub A (fmul A (fst u) (snd v)) (fmul A (snd u) (fst v)).

(* graph/algebra.py:16-17 Algebra.magnitude *)
Definition magnitude (v : fpt) : F A := fsqrt A (fdot v v).

(* graph/algebra.py:20-23 Algebra.norm *)
Definition norm (v : fpt) : fpt :=
  if feqb A (magnitude v) (fZ A 0) then v
  else (fdiv A (fst v) (magnitude v), fdiv A (snd v) (magnitude v)).

(* graph/algebra.py:26-48 Algebra.line_ray_intersection_point; None is the empty list *)
Definition line_ray_intersection_point (orig end_ point_1 point_2 : fpt) : option fpt :=
  let direction := norm (fsub A (fst end_) (fst orig), fsub A (snd end_) (snd orig)) in
  let v1 := (fsub A (fst orig) (fst point_1), fsub A (snd orig) (snd point_1)) in
  let v2 := (fsub A (fst point_2) (fst point_1), fsub A (snd point_2) (snd point_1)) in
  let v3 := (fneg A (snd direction), fst direction) in
  if feqb A (fdot v2 v3) (fZ A 0) then None
  else
    let t1 := fdiv A (fcross v2 v1) (fdot v2 v3) in
    let t2 := fdiv A (fdot v1 v3) (fdot v2 v3) in
    if fltb A (fZ A 0) t1 && (fleb A (fZ A 0) t2 && fleb A t2 (fZ A 1)) then
      Some (fadd A (fst orig) (fmul A t1 (fst direction)),
            fadd A (snd orig) (fmul A t1 (snd direction)))
    else None.

Definition fpt_of (p : pt) : fpt := (toF A (fst p), toF A (snd p)).

(* graph/algebra.py:51-60 Algebra.get_intersection.  orig/end are None or
   coordinates.  An infinite y-coordinate makes direction and all later
   quantities NaN, every comparison false, and the result None (lines 30-48). *)
Definition ray_segment (orig end_ : option xpt) (p1 p2 : pt) : option pt :=
  match orig, end_ with
  | Some (ox, Fin oy), Some (ex, Fin ey) =>
      match line_ray_intersection_point (fpt_of (ox, oy)) (fpt_of (ex, ey)) (fpt_of p1) (fpt_of p2) with
      | None => None
      | Some q => Some (ofF A (fst q), ofF A (snd q))
      end
  | _, _ => None
  end.

(* consecutive corners of the closed polygon: p[i], p[i + 1] for p = points + [points[0]]
   (polygon.py:172, 200, 220) *)
Definition sides {X} (points : list X) : list (X * X) :=
  match points with
  | [] => []
  | p0 :: rest => combine points (rest ++ [p0])
  end.

(* np.argmin / np.argmax on a list of Decimals: first extremal index (None: empty
   list, numpy raises ValueError) *)
Fixpoint argbest (better : D A -> D A -> bool) (best : D A) (bi i : nat) (l : list (D A)) : nat :=
  match l with
  | [] => bi
  | x :: l' => if better x best then argbest better x i (S i) l' else argbest better best bi (S i) l'
  end.
Definition argmin (l : list (D A)) : option nat :=
  match l with [] => None | x :: l' => Some (argbest (fun a b => a <? b) x 0 1 l') end.
Definition argmax (l : list (D A)) : option nat :=
  match l with [] => None | x :: l' => Some (argbest (fun a b => b <? a) x 0 1 l') end.

(* graph/polygon.py:226-228: the intersections that exist, in side order *)
Fixpoint collect_some {X} (l : list (option X)) : list X :=
  match l with
  | [] => []
  | Some x :: l' => x :: collect_some l'
  | None :: l' => collect_some l'
  end.

(* graph/polygon.py:219-242 Polygon._get_intersection_point *)
Definition get_intersection_point (points : list pt) (orig end_ : option xpt) : result (option pt) :=
  let pts := collect_some (map (fun s => ray_segment orig end_ (fst s) (snd s)) (sides points)) in
  match pts, orig, end_ with
  | [], _, _ => Val None
  | _, Some (ox, Fin oy), Some (ex, Fin ey) =>
      max_distance <-r distance (ox, oy) (ex, ey);;
      distances <-r rmap (fun p => distance (ox, oy) p) pts;;
      let distances' := filter (fun d => dleb A d max_distance) distances in
      match argmax distances' with
      | None => Val None
      | Some i => match nth_error pts i with Some p => Val (Some p) | None => Raise IndexError end
      end
  | _, _, _ => Val None (* unreachable: pts is empty then *)
  end.

(* graph/polygon.py:206-215, one side of the crossing-parity loop *)
Definition crosses (p : pt) (s : pt * pt) : result bool :=
  let '(x, y) := p in
  let '((xi, yi), (xj, yj)) := s in
  if xorb (y <? yi) (y <? yj) then
    q <-r lift_div (ddiv A ((xj - xi) * (y - yi)) (yj - yi));;
    Val (x <? q + xi)
  else Val false.

Fixpoint inside_loop (p : pt) (ss : list (pt * pt)) (acc : bool) : result bool :=
  match ss with
  | [] => Val acc
  | s :: ss' => i <-r crosses p s;; inside_loop p ss' (if i then negb acc else acc)
  end.

(* graph/polygon.py:185-217 Polygon.inside *)
Definition inside (points : list pt) (p : pt) : result bool := inside_loop p (sides points) false.

(* graph/polygon.py:171-183 Polygon._on_edge (not called by the library) *)
Definition on_edge (points : list pt) (p : pt) : bool :=
  existsb (fun s : pt * pt =>
    let '(v, w) := s in
    let dxc := fst p - fst v in let dyc := snd p - snd v in
    let dx1 := fst w - fst v in let dy1 := snd w - snd v in
    (dxc * dy1 - dyc * dx1) =? #0) (sides points).

(* sorted(l, key) : Python's sort is stable and uses only `<` on the keys; modelled
   by stable insertion *)
Fixpoint insert_by {X} (key : X -> F A) (x : X) (l : list X) : list X :=
  match l with
  | [] => [x]
  | y :: l' => if fltb A (key x) (key y) then x :: l else y :: insert_by key x l'
  end.
Definition sort_by {X} (key : X -> F A) (l : list X) : list X :=
  fold_left (fun acc x => insert_by key x acc) l [].

(* graph/polygon.py:36, 42: the sort key *)
Definition clockwise_key (center p : pt) : F A :=
  fmod360 A (fsub A (fsub A (fZ A 0) (fZ A 180)) (calculate_angle p center)).

(* graph/polygon.py:35-37 Polygon._order_points *)
Definition order_points (center : pt) (points : list pt) : list pt :=
  sort_by (clockwise_key center) points.

(* min(l) / max(l) on a list of Decimals *)
Definition dmin (l : list (D A)) : result (D A) :=
  match l with
  | [] => Raise ValueError
  | x :: l' => Val (fold_left (fun m y => if y <? m then y else m) l' x)
  end.
Definition dmax (l : list (D A)) : result (D A) :=
  match l with
  | [] => Raise ValueError
  | x :: l' => Val (fold_left (fun m y => if m <? y then y else m) l' x)
  end.

(* graph/polygon.py:20-33, the attributes set by Polygon.__init__ *)
Record polygon : Type := {
  pg_points : list pt;           (* self.points, ordered *)
  pg_min_y : D A; pg_min_x : D A; pg_max_y : D A; pg_max_x : D A;
  pg_center : pt
}.

(* graph/polygon.py:10-33 Polygon.__init__; coordinates are given as Decimals *)
Definition polygon_init (tuples : list pt) : result polygon :=
  min_y <-r dmin (map snd tuples);;
  min_x <-r dmin (map fst tuples);;
  max_y <-r dmax (map snd tuples);;
  max_x <-r dmax (map fst tuples);;
  cx <-r lift_div (ddiv A (max_x + min_x) #2);;
  cy <-r lift_div (ddiv A (max_y + min_y) #2);;
  Val {| pg_points := order_points (cx, cy) tuples;
         pg_min_y := min_y; pg_min_x := min_x; pg_max_y := max_y; pg_max_x := max_x;
         pg_center := (cx, cy) |}.

(* graph/bounding_box.py:6-28 BoundingBox.__init__ *)
Definition bounding_box (left_x right_x bottom_y top_y : D A) : result polygon :=
  polygon_init [(left_x, top_y); (right_x, top_y); (right_x, bottom_y); (left_x, bottom_y)].

(* graph/polygon.py:152: the sweep line position used to locate unfinished breakpoints *)
Definition finish_sweep_line (p : polygon) : D A := pg_min_y p - dabs A (pg_max_y p).

(* graph/polygon.py:46-49 Polygon._get_closest_point, as an index into points *)
Definition get_closest_point (position : pt) (points : list pt) : result nat :=
  ds <-r rmap (fun p => distance position p) points;;
  match argmin ds with None => Raise ValueError | Some i => Val i end.

(* np.dot on lists of floats, np.roll(l, 1) *)
Definition fdotl (xs ys : list (F A)) : F A :=
  fold_left (fun acc p => fadd A acc (fmul A (fst p) (snd p))) (combine xs ys) (fZ A 0).
Definition roll1 {X} (l : list X) : list X :=
  match rev l with [] => [] | x :: r => x :: rev r end.

(* graph/point.py:124-125 Point._shoelace *)
Definition shoelace (xs ys : list (F A)) : F A :=
  fmul A (fhalf A) (fabs A (fsub A (fdotl xs (roll1 ys)) (fdotl ys (roll1 xs)))).

End Geom.

Arguments Fin {A} d. Arguments PInf {A}.
