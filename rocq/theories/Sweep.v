(* Sweep.v -- model of the sweep in foronoi/algorithm.py and of the construction of
   circle events in foronoi/events/circle_event.py. *)
From stdpp Require Import base list.
From Coq Require Import ZArith.
From Verif Require Import Arith Geom Monad Tree Heapq State.
Local Open Scope monad_scope.

Section Sweep.
Context (A : Arith).
Notation St := (M (state A)).

(* event_queue.put (algorithm.py:118, 464, 468) *)
Definition queue_put (i : qitem A) : St unit :=
  write (fun s => set_queue (heappush (event_lt A) (s_queue s) i) s).

(* node.get_value() / node.data of a leaf: its Arc.  (A LeafNode's data is an Arc, an
   InternalNode's a Breakpoint; asking a Breakpoint for arc attributes is an
   AttributeError.) *)
Definition arc_of (n : nat) : St nat :=
  x <- nodes_do (get n);;
  match n_data x with DArc a => ret a | DBp _ => raise AttributeError end.
Definition origin_of (n : nat) : St nat :=
  a <- arc_of n;; x <- arcs_do (get_at a);; ret (a_origin x).

(* node.data of an internal node: its Breakpoint *)
Definition bp_of (n : nat) : St nat :=
  x <- nodes_do (get n);;
  match n_data x with DBp b => ret b | DArc _ => raise AttributeError end.

(* the sweep line as a Decimal; float('inf') mixed with Decimals is a TypeError *)
Definition sweep_line : St (D A) :=
  o <- read s_sweep;; match o with Some l => ret l | None => raise TypeError end.

Definition lookup_r {T} (l : list T) (i : nat) : result T :=
  match l !! i with Some x => Val x | None => Raise Dangling end.

(* Breakpoint.get_intersection(l).xd for the sites (i, j) *)
Definition bp_key (s : state A) (l : D A) (i j : nat) : result (D A) :=
  rbind (lookup_r (s_points s) i) (fun pi =>
  rbind (lookup_r (s_points s) j) (fun pj =>
  rbind (get_intersection A (p_xy pi) (p_xy pj) l None) (fun q => Val (fst q)))).

(* nodes/leaf_node.py:12-13 and nodes/internal_node.py:11-12 get_key(sweep_line) *)
Definition node_key (s : state A) (l : D A) (x : node ndata) : result (D A) :=
  match n_data x with
  | DArc a =>
      rbind (lookup_r (s_arcs s) a) (fun xa =>
      rbind (lookup_r (s_points s) (a_origin xa)) (fun p => Val (fst (p_xy p))))
  | DBp b => rbind (lookup_r (s_bps s) b) (fun xb => bp_key s l (b_l xb) (b_r xb))
  end.

(* algorithm.py:96-120 initialize: one site event per point *)
Fixpoint put_sites (ps : list nat) : St unit :=
  match ps with
  | [] => ret tt
  | p :: ps' => xy <- point_xy p;; queue_put (mkItem (ESite p) (snd xy) (fst xy));;; put_sites ps'
  end.
Definition initialize (ps : list nat) : St unit :=
  write (set_sites ps);;; put_sites ps.

(* algorithm.py:151: points = [Point(x, y) for x, y in points] *)
Fixpoint new_points (xys : list (pt A)) : St (list nat) :=
  match xys with
  | [] => ret []
  | xy :: r => p <- points_do (alloc (mkPoint xy None None));; ps <- new_points r;; ret (p :: ps)
  end.

(* events/circle_event.py:69-78 remove *)
Definition cev_remove (c : nat) : St unit := cevs_do (upd_at c (with_c_valid false)).

(* events/circle_event.py:80-123 create_circle_event.  The object is allocated only
   when a circle exists; allocation itself is observable only through the queue. *)
Definition create_circle_event (left_node middle_node right_node : option nat) : St (option nat) :=
  match left_node, right_node, middle_node with
  | Some ln, Some rn, Some mn =>
      a <- origin_of ln;; b <- origin_of mn;; c <- origin_of rn;;
      pa <- point_xy a;; pb <- point_xy b;; pc <- point_xy c;;
      o <- lift (create_circle A pa pb pc);;
      match o with
      | None => ret None
      | Some (x, y, r) =>
          k <- cevs_do (alloc (mkCevent x y r mn true (a, b, c)));; ret (Some k)
      end
  | _, _, _ => ret None
  end.

(* algorithm.py:451-455 / 457-461: drop an event whose sites are not clockwise *)
Definition keep_clockwise (na nb nc : option nat) (ev : option nat) : St (option nat) :=
  match ev with
  | None => ret None
  | Some k =>
      ia <- need na;; ib <- need nb;; ic <- need nc;;
      a <- origin_of ia;; b <- origin_of ib;; c <- origin_of ic;;
      pa <- point_xy a;; pb <- point_xy b;; pc <- point_xy c;;
      e <- cevs_do (get_at k);;
      if check_clockwise A pa pb pc (c_x e, c_y e) then ret (Some k)
      else notify SAlgorithm DEBUG;;; ret None
  end.

(* yd, xd of a circle event (circle_event.py:40-60) *)
Definition cev_item (k : nat) (e : cevent A) : qitem A :=
  mkItem (ECircle k) (dsub A (c_y e) (c_r e)) (c_x e).

(* algorithm.py:463-465 / 468-469: enqueue an event and point the middle arc at it *)
Definition put_circle_event (nb : option nat) (k : nat) : St unit :=
  e <- cevs_do (get_at k);;
  queue_put (cev_item k e);;;
  ib <- need nb;;
  a <- arc_of ib;;
  arcs_do (upd_at a (with_arc_cev (Some k))).

(* algorithm.py:467: left_event != right_event *)
Definition events_differ (left_event : option nat) (k : nat) : St bool :=
  match left_event with
  | None => ret true
  | Some j =>
      e <- cevs_do (get_at j);; f <- cevs_do (get_at k);;
      let ie := cev_item j e in let jf := cev_item k f in
      ret (negb (event_eq A (i_y ie) (i_x ie) (i_y jf) (i_x jf)))
  end.

(* algorithm.py:443-478 _check_circles *)
Definition check_circles (na nb nc nd ne nf : option nat) : St unit :=
  le0 <- create_circle_event na nb nc;;
  re0 <- create_circle_event nd ne nf;;
  le <- keep_clockwise na nb nc le0;;
  re <- keep_clockwise nd ne nf re0;;
  match le with Some k => put_circle_event nb k | None => ret tt end;;;
  match re with
  | Some k =>
      d <- events_differ le k;;
      if d : bool then put_circle_event ne k else ret tt
  | None => ret tt
  end;;;
  match le with Some _ => notify SAlgorithm DEBUG | None => ret tt end;;;
  match re with Some _ => notify SAlgorithm DEBUG | None => ret tt end.

(* algorithm.py:224-336 handle_site_event *)
Definition handle_site_event (point_i : nat) : St unit :=
  new_arc <- arcs_do (alloc (mkArc point_i None));;
  write (fun s => set_arcset (set_add new_arc (s_arcset s)) s);;;
  tree <- read s_root;;
  match tree with
  | None =>
      n <- nodes_do (new_node (DArc new_arc));;
      write (set_root (Some n))
  | Some _ =>
      pi <- point_xy point_i;;
      l <- sweep_line;;
      s0 <- read id;;
      o <- nodes_do (find_leaf_node (node_key s0 l) (dltb A) (deqb A) tree (fst pi));;
      above <- need o;;
      arc_above <- arc_of above;;
      xa <- arcs_do (get_at arc_above);;
      match a_cev xa with Some c => cev_remove c | None => ret tt end;;;
      let point_j := a_origin xa in
      pj <- point_xy point_j;;
      bl <- bps_do (alloc (mkBp point_j point_i None));;
      br <- bps_do (alloc (mkBp point_i point_j None));;
      root <- nodes_do (new_node (DBp bl));;
      al <- arcs_do (alloc (mkArc point_j None));;
      nl <- nodes_do (new_node (DArc al));;
      nodes_do (set_left root (Some nl));;;
      (if does_intersect A pi pj then
         nr <- nodes_do (new_node (DBp br));;
         nodes_do (set_right root (Some nr));;;
         nm <- nodes_do (new_node (DArc new_arc));;
         nodes_do (set_left nr (Some nm));;;
         ar <- arcs_do (alloc (mkArc point_j None));;
         nn <- nodes_do (new_node (DArc ar));;
         nodes_do (set_right nr (Some nn))
       else
         nm <- nodes_do (new_node (DArc new_arc));;
         nodes_do (set_right root (Some nm)));;;
      tree' <- nodes_do (replace_leaf above (Some root) tree);;
      write (set_root tree');;;
      (* 4. half edges: A = point_j, B = point_i, AB = bl, BA = br *)
      e1 <- new_hedge (Some point_i) None (OBp bl);;
      bps_do (upd_at bl (with_bp_edge (Some e1)));;;
      e2 <- new_hedge (Some point_j) (Some e1) (OBp br);;
      bps_do (upd_at br (with_bp_edge (Some e2)));;;
      write (fun s => set_edges (s_edges s ++ [e1]) s);;;
      first_edge_or point_i e1;;;
      first_edge_or point_j e2;;;
      (* 5. circle events *)
      if negb (does_intersect A pi pj) then ret tt else
      xroot <- nodes_do (get root);;
      node_b <- need (n_left xroot);;
      nr <- need (n_right xroot);;
      xr <- nodes_do (get nr);;
      node_a <- nodes_do (predecessor node_b);;
      let node_c := n_left xr in
      node_d <- need (n_right xr);;
      node_e <- nodes_do (successor node_d);;
      check_circles node_a (Some node_b) node_c node_c (Some node_d) node_e;;;
      r <- nodes_do (balance_and_propagate root);;
      write (set_root (Some r))
  end.

(* `compare` (algorithm.py:499, 527): the node holds a Breakpoint with the same pair
   of Point objects *)
Definition same_breakpoint (s : state A) (i j : nat) (d : ndata) : bool :=
  match d with
  | DArc _ => false
  | DBp b => match s_bps s !! b with
             | Some x => (b_l x =? i)%nat && (b_r x =? j)%nat
             | None => false
             end
  end.

(* algorithm.py:480-539 _update_breakpoints; returns (root, updated, removed, left, right)
   with breakpoints identified by their Breakpoint object *)
Definition update_breakpoints (root : option nat) (arc_node : nat) (pred succ : option nat)
  : St (nat * option nat * nat * option nat * option nat) :=
  bleft <- nodes_do (is_left_child arc_node);;
  xn <- nodes_do (get arc_node);;
  parent <- need (n_parent xn);;
  xp <- nodes_do (get parent);;
  if bleft : bool then
    root1 <- nodes_do (replace_leaf parent (n_right xp) root);;
    removed <- bp_of parent;;
    root1' <- need root1;;
    root2 <- nodes_do (balance_and_propagate root1');;
    np <- need pred;; i <- origin_of np;; j <- origin_of arc_node;;
    l <- sweep_line;;
    s0 <- read id;;
    o <- nodes_do (find_value (node_key s0 l) (dltb A) (deqb A) (Some root2)
                     (bp_key s0 l i j) (same_breakpoint s0 i j));;
    match o with
    | Some m =>
        b <- bp_of m;;
        ns <- need succ;; k <- origin_of ns;;
        bps_do (upd_at b (fun x => with_bp_pair (b_l x) k x));;;
        ret (root2, Some b, removed, Some b, Some removed)
    | None => ret (root2, None, removed, None, Some removed)
    end
  else
    root1 <- nodes_do (replace_leaf parent (n_left xp) root);;
    removed <- bp_of parent;;
    root1' <- need root1;;
    root2 <- nodes_do (balance_and_propagate root1');;
    i <- origin_of arc_node;; ns <- need succ;; j <- origin_of ns;;
    l <- sweep_line;;
    s0 <- read id;;
    o <- nodes_do (find_value (node_key s0 l) (dltb A) (deqb A) (Some root2)
                     (bp_key s0 l i j) (same_breakpoint s0 i j));;
    match o with
    | Some m =>
        b <- bp_of m;;
        np <- need pred;; k <- origin_of np;;
        bps_do (upd_at b (fun x => with_bp_pair k (b_r x) x));;;
        ret (root2, Some b, removed, Some removed, Some b)
    | None => ret (root2, None, removed, Some removed, None)
    end.

(* breakpoint.edge used as an object *)
Definition edge_of (b : nat) : St nat := x <- bps_do (get_at b);; need (b_edge x).

(* algorithm.py:385-389, the nested function remove *)
Definition remove_neighbor (neighbor : option nat) : St unit :=
  n <- need neighbor;;
  a <- arc_of n;; x <- arcs_do (get_at a);;
  match a_cev x with
  | None => ret tt
  | Some c => notify SAlgorithm DEBUG;;; cev_remove c
  end.

(* self._vertices.add(v) (algorithm.py:404); a list has no method add *)
Definition vertices_add (v : nat) : St unit :=
  b <- read s_vlist;;
  if b : bool then raise AttributeError else write (fun s => set_vset (set_add v (s_vset s)) s).

(* algorithm.py:338-441 handle_circle_event *)
Definition handle_circle_event (ev : nat) : St unit :=
  e <- cevs_do (get_at ev);;
  let arc_node := c_node e in
  a <- arc_of arc_node;;
  write (fun s => set_arcset (List.filter (fun b => negb (b =? a)%nat) (s_arcset s)) s);;;
  pred <- nodes_do (predecessor arc_node);;
  succ <- nodes_do (successor arc_node);;
  tree <- read s_root;;
  '(root, updated, removed, lbp, rbp) <- update_breakpoints tree arc_node pred succ;;
  write (set_root (Some root));;;
  match updated with
  | None => ret tt
  | Some upd =>
      remove_neighbor pred;;;
      remove_neighbor succ;;;
      (* 2. vertex and half-edges *)
      v <- verts_do (alloc (mkVertex (Some (c_x e, c_y e)) []));;
      vertices_add v;;;
      eu <- edge_of upd;;
      hedges_do (upd_at eu (with_h_origin (OVx v)));;;
      er <- edge_of removed;;
      hedges_do (upd_at er (with_h_origin (OVx v)));;;
      conn_append v eu;;;
      conn_append v er;;;
      xu <- bps_do (get_at upd);;
      t <- new_hedge (Some (b_r xu)) None (OBp upd);;
      new_edge <- new_hedge (Some (b_l xu)) (Some t) (OVx v);;
      bl <- need lbp;; br <- need rbp;;
      el <- edge_of bl;; tl <- twin_of el;; set_next tl (Some new_edge);;;
      eR <- edge_of br;; tr <- twin_of eR;; set_next tr (Some el);;;
      tn <- twin_of new_edge;; set_next tn (Some eR);;;
      write (fun s => set_edges (s_edges s ++ [new_edge]) s);;;
      conn_append v new_edge;;;
      tn' <- twin_of new_edge;;
      bps_do (upd_at upd (with_bp_edge (Some tn')));;;
      (* 3. new triples *)
      former_left <- need pred;; former_right <- need succ;;
      na <- nodes_do (predecessor former_left);;
      nc <- nodes_do (successor former_left);;
      nd <- nodes_do (predecessor former_right);;
      nf <- nodes_do (successor former_right);;
      check_circles na (Some former_left) nc nd (Some former_right) nf
  end.

(* algorithm.py:160-205, one iteration of the main loop on a non-empty queue;
   [index] is the counter naming the points.  (genesis_point is never used.) *)
Definition step (i : qitem A) (index : nat) : St nat :=
  match i_ev i with
  | ECircle c =>
      e <- cevs_do (get_at c);;
      if c_valid e then
        write (set_sweep (Some (i_y i)));;;
        notify SAlgorithm DEBUG;;;
        handle_circle_event c;;;
        write (set_event (Some (i_ev i)));;;
        notify SAlgorithm STEP_FINISHED;;;
        ret index
      else ret index
  | ESite p =>
      points_do (upd_at p (with_p_name (Some index)));;;
      write (set_sweep (Some (i_y i)));;;
      notify SAlgorithm DEBUG;;;
      handle_site_event p;;;
      write (set_event (Some (i_ev i)));;;
      notify SAlgorithm STEP_FINISHED;;;
      ret (S index)
  end.

(* event_queue.get() (algorithm.py:163) together with the emptiness test (160) *)
Definition queue_get : St (option (qitem A)) :=
  fun s => match heappop (event_lt A) (s_queue s) with
           | None => Val (s, None)
           | Some (i, q) => Val (set_queue q s, Some i)
           end.

(* algorithm.py:160-205 the main loop *)
Fixpoint sweep_loop (fuel : nat) (index : nat) : St unit :=
  match fuel with
  | O => raise OutOfFuel
  | S fuel =>
      o <- queue_get;;
      match o with
      | None => ret tt
      | Some i => index' <- step i index;; sweep_loop fuel index'
      end
  end.

(* algorithm.py:151-208: from the given coordinates to the end of the sweep *)
Definition sweep (fuel : nat) (xys : list (pt A)) : St unit :=
  ps <- new_points xys;;
  initialize ps;;;
  sweep_loop fuel 0;;;
  notify SAlgorithm DEBUG;;;
  notify SAlgorithm SWEEP_FINISHED.

(* algorithm.py:54-86 Algorithm.__init__; [corners] are the polygon's ordered corner
   points, for each of which the polygon holds a Vertex (polygon.py:31-33) *)
Definition init_state (corners : list (pt A)) : state A :=
  mkState [] [] [] [] (map (fun p => mkVertex (Some p) []) corners) [] [] [] None None [] [] [] []
    None (seq 0 (length corners)) [] false.

End Sweep.
