(* Watch.v -- foronoi/observers/tree_observer.py, voronoi_observer.py, debug_observer.py,
   visualization/tree_visualizer.py and Node.visualize: what observers show during a run. *)
From stdpp Require Import base list.
From Coq Require Import ZArith String Ascii DecimalString.
From Verif Require Import Arith Geom Monad Tree Heapq State Sweep Finish Visual.
Local Open Scope monad_scope.

(* ---------- labels ---------- *)
(* str(point.name): the name is None or an int *)
Definition str_name (n : option nat) : string :=
  match n with None => "None" | Some n => NilEmpty.string_of_uint (Nat.to_uint n) end.

Section Watch.
Context (A : Arith).
Notation St := (M (state A)).

(* nodes/leaf_node.py:18-19 and nodes/internal_node.py:17-18 get_label *)
Definition get_label (d : ndata) : St string :=
  match d with
  | DArc a =>
      x <- arcs_do (get_at a);;
      p <- points_do (get_at (a_origin x));;
      ret (str_name (p_name p))
  | DBp b =>
      x <- bps_do (get_at b);;
      p <- points_do (get_at (b_l x));;
      q <- points_do (get_at (b_r x));;
      ret (str_name (p_name p) ++ "," ++ str_name (p_name q))%string
  end.

(* ---------- text ---------- *)
Definition newline : string := String (ascii_of_nat 10) "".
(* "    " * depth *)
Fixpoint indent (depth : nat) : string := match depth with O => "" | S d => ("    " ++ indent d)%string end.

(* tree/node.py:229-252 visualize and _visualize; recursion by fuel *)
Fixpoint visualize_fuel (fuel depth n : nat) : St string :=
  match fuel with
  | O => raise OutOfFuel
  | S fuel =>
      x <- nodes_do (get_at n);;
      r <- match n_right x with Some k => visualize_fuel fuel (S depth) k | None => ret ""%string end;;
      label <- get_label (n_data x);;
      l <- match n_left x with Some k => visualize_fuel fuel (S depth) k | None => ret ""%string end;;
      ret (r ++ (newline ++ indent depth ++ label) ++ l)%string
  end.
Definition visualize (n : nat) : St string := fun s => visualize_fuel (S (List.length (s_nodes s))) 0 n s.

(* ---------- graph ---------- *)
(* the calls made on the Digraph object *)
Inductive gcall : Type := GNode (id : nat) (label : string) | GEdge (from to : nat).

(* observers/tree_observer.py:91-105 _visualize, which is tree_visualizer.py:12-26 _plot.
   uuid.uuid4() is modelled by a counter: ids never repeat. *)
Fixpoint graph_fuel (fuel : nat) (parent : option nat) (next n : nat) : St (list gcall * nat) :=
  match fuel with
  | O => raise OutOfFuel
  | S fuel =>
      let id := next in
      x <- nodes_do (get_at n);;
      label <- get_label (n_data x);;
      let here := GNode id label :: match parent with Some p => [GEdge p id] | None => [] end in
      l <- match n_left x with Some k => graph_fuel fuel (Some id) (S next) k | None => ret ([], S next) end;;
      r <- match n_right x with Some k => graph_fuel fuel (Some id) (snd l) k | None => ret ([], snd l) end;;
      ret (here ++ fst l ++ fst r, snd r)
  end.
(* tree_visualizer.py:7-10 plot, tree_observer.py:82-89 _create_graph *)
Definition graph (n : nat) : St (list gcall) :=
  fun s => (r <- graph_fuel (S (List.length (s_nodes s))) None 0 n;; ret (fst r)) s.

(* ---------- TreeObserver ---------- *)
(* tree_observer.py:51-56 *)
Record tree_observer : Type := mkTreeObs {
  to_text : bool; to_steps : bool; to_result : bool; to_count : nat; to_messages : list message }.
Inductive shown : Type := ShownText (t : string) | ShownGraph (n_messages : nat) (g : list gcall).

Definition is_msg (m m' : message) : bool :=
  match m, m' with
  | DEBUG, DEBUG | STEP_FINISHED, STEP_FINISHED | SWEEP_FINISHED, SWEEP_FINISHED | VORONOI_FINISHED, VORONOI_FINISHED => true
  | _, _ => false
  end.

(* tree_observer.py:58-80 update.  What is passed to the callback (or printed, or rendered);
   n_messages: what the callback can read from the observer it gets *)
Definition tree_update (o : tree_observer) (m : message) : St (tree_observer * option shown) :=
  if (is_msg m STEP_FINISHED && to_steps o) || (is_msg m VORONOI_FINISHED && to_result o && negb (to_steps o)) then
    root <- read s_root;;
    n <- need root;;
    out <- (if to_text o then t <- visualize n;; ret (ShownText t) else g <- graph n;; ret (ShownGraph (to_count o) g));;
    ret (mkTreeObs (to_text o) (to_steps o) (to_result o) (S (to_count o)) (to_messages o ++ [m]), Some out)
  else ret (o, None).

(* ---------- VoronoiObserver ---------- *)
(* the keyword arguments of plot_all (visualizer.py:130-133).  Settings with other keys, for which
   plot_all raises TypeError, are not modelled. *)
Inductive key : Type := KPolygon | KEdges | KVertices | KSites | KOutgoing | KBorderToSite | KScale | KEdgeLabels | KSiteLabels
  | KTriangles | KArcs | KSweepLine | KEvents | KArcLabels | KBeachLine.
(* a value: the truth value of a switch, or a number for scale *)
Inductive value : Type := VBool (b : bool) | VNum (x : D A).
(* a dict with such keys *)
Definition dict : Type := key -> option value.
(* dict.update *)
Definition dict_update (d e : dict) : dict := fun k => match e k with Some v => Some v | None => d k end.
Definition empty_dict : dict := fun _ => None.

(* visualizer.py:32-40 Presets: class attributes, shared by all *)
Record presets : Type := mkPresets { pr_construction : dict; pr_clipping : dict; pr_final : dict }.
Definition presets0 : presets :=
  mkPresets (fun k => match k with KPolygon | KEvents | KBeachLine | KSweepLine => Some (VBool true) | _ => None end)
            (fun k => match k with KPolygon => Some (VBool true) | _ => None end)
            empty_dict.

(* plot_all's default arguments (visualizer.py:130-133) and the call plot_all with a dict *)
Definition truth (d : dict) (k : key) (default_ : bool) : bool :=
  match d k with Some (VBool v) => v | Some (VNum x) => negb (deqb A x (dZ A 0)) | None => default_ end.
Definition flags_of (d : dict) : flags A :=
  mkFlags A (truth d KPolygon false) (truth d KEdges true) (truth d KVertices true) (truth d KSites true) (truth d KOutgoing false)
    (truth d KBorderToSite false) (match d KScale with Some (VNum x) => x | Some (VBool v) => dZ A (if v then 1 else 0) | None => dZ A 1 end)
    (truth d KEdgeLabels false) (truth d KSiteLabels false) (truth d KTriangles false) (truth d KArcs false) (truth d KSweepLine false)
    (truth d KEvents false) (truth d KArcLabels false) (truth d KBeachLine false).

(* voronoi_observer.py:59-67 *)
Record voronoi_observer : Type := mkVorObs {
  vo_steps : bool; vo_before : bool; vo_result : bool; vo_offset : D A; vo_settings : dict; vo_count : nat; vo_messages : list message }.
(* a call of the callback: the observer's n_messages, and the figure *)
Record figure : Type := mkFigure { fg_number : nat; fg_cmds : list (cmd A) }.

(* event.yd (site_event.py:31-41, circle_event.py:51-60) *)
Definition event_yd (e : event) : St (D A) :=
  match e with
  | ESite p => xy <- point_xy p;; ret (snd xy)
  | ECircle k => c <- cevs_do (get_at k);; ret (dsub A (c_y c) (c_r c))
  end.

(* voronoi_observer.py:85-86, 92-93, 98-99: `settings = Presets.<...>; settings.update(self.settings)`: the class attribute changes *)
Definition use_settings (o : voronoi_observer) (m : message) (p : presets) : option (dict * presets) :=
  match m with
  | STEP_FINISHED => if vo_steps o then let d := dict_update (pr_construction p) (vo_settings o) in Some (d, mkPresets d (pr_clipping p) (pr_final p)) else None
  | SWEEP_FINISHED => if vo_before o then let d := dict_update (pr_clipping p) (vo_settings o) in Some (d, mkPresets (pr_construction p) d (pr_final p)) else None
  | VORONOI_FINISHED => if vo_result o then let d := dict_update (pr_final p) (vo_settings o) in Some (d, mkPresets (pr_construction p) (pr_clipping p) d) else None
  | DEBUG => None
  end.

(* voronoi_observer.py:87 assert subject.sweep_line == subject.event.yd, in a step only *)
Definition check_line (m : message) : St unit :=
  match m with
  | STEP_FINISHED =>
      sl <- read s_sweep;; ev <- read s_event;; e <- need ev;; y <- event_yd e;;
      if match sl with Some l => deqb A l y | None => false end then ret tt else raise AssertionError
  | _ => ret tt
  end.

(* voronoi_observer.py:69-108 update, for a subject that is an Algorithm with bounding object b;
   titles are not modelled.  `order` as for plot_arcs. *)
Definition voronoi_update (b : bounds A) (order : state A -> list nat) (o : voronoi_observer) (p : presets) (m : message) :
    St (voronoi_observer * presets * option figure) :=
  match use_settings o m p with
  | None => ret (o, p, None)
  | Some (d, p') =>
      check_line m;;;
      arcs <- read order;;
      cmds <- plot_all A b (canvas_size A b (vo_offset o)) arcs (flags_of d);;
      ret (mkVorObs (vo_steps o) (vo_before o) (vo_result o) (vo_offset o) (vo_settings o) (S (vo_count o)) (vo_messages o ++ [m]), p', Some (mkFigure (vo_count o) cmds))
  end.

(* one notification: every observer in turn (subject.py:40-51); the figures that were shown *)
Fixpoint notify_all (b : bounds A) (order : state A -> list nat) (os : list voronoi_observer) (p : presets) (m : message) :
    St (list voronoi_observer * presets * list (option figure)) :=
  match os with
  | [] => ret ([], p, [])
  | o :: os' =>
      x <- voronoi_update b order o p m;;
      y <- notify_all b order os' (snd (fst x)) m;;
      ret (fst (fst x) :: fst (fst y), snd (fst y), snd x :: snd y)
  end.

(* observers/debug_observer.py:21-35 update: the callback is called for DEBUG messages only *)
Definition debug_update (m : message) : bool := is_msg m DEBUG.
End Watch.
