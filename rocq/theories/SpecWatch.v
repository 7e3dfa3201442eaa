(* SpecWatch.v -- what observers see, independently of how it is computed. *)
From stdpp Require Import base list.
From Coq Require Import String.
From Verif Require Import Arith Geom Monad Tree State Sweep SweepBase Spec Visual Watch.
Local Open Scope nat_scope.

Section SW.
Context (A : Arith).
Implicit Types s : state A.

(* the name of a site as text *)
Definition name_at s (p : nat) : string := str_name (x ← s_points s !! p; p_name x).
(* the text at a node of the status tree: the site of an arc, the two sites of a breakpoint *)
Definition shown_at s (n : nat) : string :=
  match site A s n, label A s n with
  | Some p, _ => name_at s p
  | None, Some (p, q) => name_at s p ++ "," ++ name_at s q
  | None, None => ""
  end%string.
(* node n of the status tree is d steps below the root *)
Inductive level s : nat -> nat -> Prop :=
| level_root n : s_root s = Some n -> level s n 0
| level_child n x p d : s_nodes s !! n = Some x -> n_parent x = Some p -> level s p d -> level s n (S d).
(* a line of the text: a line break, four blanks for each level, the label *)
Definition text_line s (d n : nat) : string := (newline ++ indent d ++ shown_at s n)%string.
Definition concat_all (l : list string) : string := fold_right append EmptyString l.
(* t: the nodes of L from the last (top line) to the first (bottom line), each indented by its level *)
Definition text_of s (L : list nat) (t : string) : Prop :=
  exists ls : list (nat * nat), map snd ls = rev L /\ (forall d n, (d, n) ∈ ls -> level s n d) /\
    t = concat_all (map (fun x => text_line s (fst x) (snd x)) ls).
Definition parent_of s (n : nat) : option nat := x ← s_nodes s !! n; n_parent x.
(* g: the nodes of L, numbered from the root, each drawn once with its label, and an edge from
   every node's parent to it, drawn once *)
Definition graph_of s (L : list nat) (g : list gcall) : Prop :=
  exists ids : list nat, ids ≡ₚ L /\ s_root s = ids !! 0 /\
    (forall i lb, GNode i lb ∈ g <-> exists n, ids !! i = Some n /\ lb = shown_at s n) /\
    (forall i j, GEdge i j ∈ g <-> exists n m, ids !! i = Some n /\ ids !! j = Some m /\ parent_of s m = Some n) /\
    List.length g + 1 = 2 * List.length L.

(* ---------- the states in which observers are notified ---------- *)
(* a run up to some event, with the states at its STEP_FINISHED messages (algorithm.py:205; the log
   of messages, which no observer sees, is the only part of the state that notify changes) *)
Inductive notified (xys corners : list (pt A)) : state A -> nat -> list (state A) -> Prop :=
| notified_start s : (ps <- new_points A xys;; initialize A ps)%monad (init_state A corners) = Val (s, tt) ->
    notified xys corners s 0 []
| notified_step s index seen s1 i s2 index' : notified xys corners s index seen ->
    queue_get A s = Val (s1, Some i) -> step A i index s1 = Val (s2, index') ->
    notified xys corners s2 index' (if ignored A s i then seen else seen ++ [s2]).
(* all notifications of a run that are not DEBUG: in every step, at the end of the sweep in state s,
   at the end in state s' *)
Definition notifications (seen : list (state A)) s s' : list (message * state A) :=
  map (pair STEP_FINISHED) seen ++ [(SWEEP_FINISHED, s); (VORONOI_FINISHED, s')].

(* an observer with update function f, from state o on, through a list of notifications *)
Fixpoint attend {O X : Type} (f : O -> message -> M (state A) (O * X)) (o : O) (l : list (message * state A)) : result (O * list X) :=
  match l with
  | [] => Val (o, [])
  | (m, s) :: r => rbind (f o m s) (fun x => rbind (attend f (fst (snd x)) r) (fun y => Val (fst y, snd (snd x) :: snd y)))
  end.
End SW.

(* ---------- TreeObserver ---------- *)
(* the messages for which it shows something *)
Definition tree_wants (steps result : bool) (m : message) : bool :=
  match m with STEP_FINISHED => steps | VORONOI_FINISHED => result && negb steps | _ => false end.
(* what it shows of state s: the status tree, as text, or as a graph with the number of figures shown before *)
Definition tree_shows (A : Arith) (text : bool) (number : nat) (s : state A) (x : shown) : Prop :=
  exists L, beach A s L /\ alternating A s L /\
    match x with
    | ShownText t => text = true /\ text_of A s L t
    | ShownGraph k g => text = false /\ k = number /\ graph_of A s L g
    end.

(* ---------- VoronoiObserver ---------- *)
(* the messages for which it draws a figure *)
Definition vor_wants {A : Arith} (o : voronoi_observer A) (m : message) : bool :=
  match m with STEP_FINISHED => vo_steps A o | SWEEP_FINISHED => vo_before A o | VORONOI_FINISHED => vo_result A o | DEBUG => false end.
(* the shared settings for a message *)
Definition preset_for {A : Arith} (p : presets A) (m : message) : dict A :=
  match m with STEP_FINISHED => pr_construction A p | SWEEP_FINISHED => pr_clipping A p | VORONOI_FINISHED => pr_final A p | DEBUG => empty_dict A end.
(* an observer after messages ms: it has counted and kept those that it wants *)
Definition vor_after {A : Arith} (o : voronoi_observer A) (ms : list message) : voronoi_observer A :=
  mkVorObs A (vo_steps A o) (vo_before A o) (vo_result A o) (vo_offset A o) (vo_settings A o)
    (vo_count A o + List.length (List.filter (vor_wants o) ms)) (vo_messages A o ++ List.filter (vor_wants o) ms).
(* settings d for a figure of observer o at message m: its own settings; for other keys the shared
   ones, which may have been changed by an observer of os that draws at m *)
Definition settings_for {A : Arith} (os : list (voronoi_observer A)) (p : presets A) (o : voronoi_observer A) (m : message) (d : dict A) : Prop :=
  forall k, match vo_settings A o k with
            | Some v => d k = Some v
            | None => d k = preset_for p m k \/ exists o', o' ∈ os /\ vor_wants o' m = true /\ vo_settings A o' k <> None /\ d k = vo_settings A o' k
            end.
(* what observer o (one of os, with shared settings p at first) shows at message m in state s, when it
   has shown n figures before: the drawing of the state with such settings *)
Definition shows_figure {A : Arith} (b : bounds A) (order : state A -> list nat) (os : list (voronoi_observer A)) (p : presets A)
    (o : voronoi_observer A) (n : nat) (m : message) (s : state A) (fig : option (figure A)) : Prop :=
  if vor_wants o m then exists d cmds, fig = Some (mkFigure A n cmds) /\ settings_for os p o m d /\
    plot_all A b (canvas_size A b (vo_offset A o)) (order s) (flags_of A d) s = Val (s, cmds)
  else fig = None.
