(* VisualFacts.v -- drawing changes no object of the algorithm. *)
From stdpp Require Import base list.
From Coq Require Import ZArith.
From Verif Require Import Arith Geom Monad Tree TreeProofs Heapq State Sweep Finish Circle Visual CleanUp.

Section RO.
Context (A : Arith).
Notation St := (M (state A)).
Definition ro {X} (m : St X) : Prop := forall s s' x, m s = Val (s', x) -> s' = s.
Lemma ro_ret {X} (x : X) : ro (ret x). Proof. by intros s s' y [= <- _]. Qed.
Lemma ro_raise {X} e : ro (raise (X:=X) e). Proof. done. Qed.
Lemma ro_need {X} (o : option X) : ro (need o). Proof. destruct o; [apply ro_ret|done]. Qed.
Lemma ro_deref {X} (o : option X) : ro (deref o). Proof. destruct o; [apply ro_ret|done]. Qed.
Lemma ro_read {X} (f : state A -> X) : ro (read f). Proof. by intros s s' y [= <- _]. Qed.
Lemma ro_lift {X} (r : result X) : ro (lift r). Proof. intros s s' y. unfold lift. destruct r; [|done]. by intros [= <- _]. Qed.
Lemma ro_bind {X Y} (m : St X) (k : X -> St Y) : ro m -> (forall x, ro (k x)) -> ro (bind m k).
Proof. intros H1 H2 s s' y H. apply CleanUp.bind_inv in H as (s1 & x & E1 & E2). apply H1 in E1 as ->. by apply H2 in E2. Qed.
Lemma get_at_ro {T} (h h' : list T) i x : get_at i h = Val (h', x) -> h' = h.
Proof. unfold get_at. destruct (h !! i); [|done]. by intros [= <- _]. Qed.
Lemma ro_hedges e : ro (hedges_do (get_at e)).
Proof. intros s s' x H. unfold hedges_do, zoom in H. destruct (get_at e (s_hedges s)) as [[h y]|] eqn:E; [|done]. injection H as <- _. apply get_at_ro in E as ->. by destruct s. Qed.
Lemma ro_verts e : ro (verts_do (get_at e)).
Proof. intros s s' x H. unfold verts_do, zoom in H. destruct (get_at e (s_verts s)) as [[h y]|] eqn:E; [|done]. injection H as <- _. apply get_at_ro in E as ->. by destruct s. Qed.
Lemma ro_points e : ro (points_do (get_at e)).
Proof. intros s s' x H. unfold points_do, zoom in H. destruct (get_at e (s_points s)) as [[h y]|] eqn:E; [|done]. injection H as <- _. apply get_at_ro in E as ->. by destruct s. Qed.
Lemma ro_bps e : ro (bps_do (get_at e)).
Proof. intros s s' x H. unfold bps_do, zoom in H. destruct (get_at e (s_bps s)) as [[h y]|] eqn:E; [|done]. injection H as <- _. apply get_at_ro in E as ->. by destruct s. Qed.
Lemma ro_arcs e : ro (arcs_do (get_at e)).
Proof. intros s s' x H. unfold arcs_do, zoom in H. destruct (get_at e (s_arcs s)) as [[h y]|] eqn:E; [|done]. injection H as <- _. apply get_at_ro in E as ->. by destruct s. Qed.
Lemma ro_cevs e : ro (cevs_do (get_at e)).
Proof. intros s s' x H. unfold cevs_do, zoom in H. destruct (get_at e (s_cevs s)) as [[h y]|] eqn:E; [|done]. injection H as <- _. apply get_at_ro in E as ->. by destruct s. Qed.
Lemma ro_point_xy p : ro (point_xy p).
Proof. unfold point_xy. apply ro_bind; [apply ro_points|]. intros. apply ro_ret. Qed.
Lemma ro_twin_of e : ro (twin_of e).
Proof. unfold twin_of. apply ro_bind; [apply ro_hedges|]. intros. apply ro_need. Qed.
End RO.

Ltac ro_tac := repeat first
  [ apply ro_ret | apply ro_raise | apply ro_need | apply ro_deref | apply ro_read | apply ro_lift | apply ro_hedges | apply ro_verts | apply ro_points
  | apply ro_bps | apply ro_arcs | apply ro_cevs | apply ro_point_xy | apply ro_twin_of
  | progress (apply ro_bind; [|intros ?])
  | match goal with |- ro _ (match ?x with _ => _ end) => destruct x end
  | match goal with |- ro _ (if ?x then _ else _) => destruct x end ].

Section Draw.
Context (A : Arith) (b : bounds A) (cv : canvas A).
Notation ro := (ro A).
Lemma ro_mcat {X} (f : X -> M (state A) (list (cmd A))) l : (forall x, ro (f x)) -> ro (mcat A f l).
Proof. intros H. induction l as [|x l IH]; cbn; [apply ro_ret|]. apply ro_bind; [apply H|]. intros a. apply ro_bind; [apply IH|]. intros. apply ro_ret. Qed.
Lemma ro_mmap {X Y} (f : X -> M (state A) Y) l : (forall x, ro (f x)) -> ro (mmap A f l).
Proof. intros H. induction l as [|x l IH]; cbn; [apply ro_ret|]. apply ro_bind; [apply H|]. intros a. apply ro_bind; [apply IH|]. intros. apply ro_ret. Qed.
Lemma ro_get_origin e at_ : ro (get_origin A e at_).
Proof. unfold get_origin. ro_tac. Qed.
Lemma ro_origins e sl : ro (origins A cv e sl).
Proof. unfold origins. apply ro_bind; [apply ro_get_origin|]. intros. apply ro_bind; [apply ro_twin_of|]. intros. apply ro_bind; [apply ro_get_origin|]. intros. apply ro_ret. Qed.
Lemma ro_name_of p : ro (name_of A p).
Proof. unfold name_of. ro_tac. Qed.
Lemma ro_plot_edge e sl pn c : ro (plot_edge A cv e sl pn c).
Proof. unfold plot_edge. apply ro_bind; [apply ro_origins|]. intros [[] []]; ro_tac; try apply ro_name_of. Qed.
Lemma ro_plot_edges es sl lb c : ro (plot_edges A cv es sl lb c).
Proof. unfold plot_edges. ro_tac. apply ro_mcat. intros e. apply ro_bind; [apply ro_plot_edge|]. intros. ro_tac. all: apply ro_plot_edge. Qed.
Lemma ro_plot_pointer e sl : ro (plot_pointer A cv e sl).
Proof. unfold plot_pointer. apply ro_bind; [apply ro_origins|]. intros. ro_tac. Qed.
Lemma ro_plot_border_to_site es sl : ro (plot_border_to_site A cv es sl).
Proof. unfold plot_border_to_site. ro_tac. apply ro_mcat. intros e. apply ro_bind; [apply ro_plot_pointer|]. intros. ro_tac. all: apply ro_plot_pointer. Qed.
Lemma ro_plot_vertices vs : ro (plot_vertices A vs).
Proof. unfold plot_vertices. ro_tac. apply ro_mmap. intros. unfold vertex_xy. ro_tac. Qed.
Lemma ro_plot_arrow e sc : ro (plot_arrow A cv e sc).
Proof. unfold plot_arrow. apply ro_bind; [apply ro_origins|]. intros. ro_tac. Qed.
Lemma ro_plot_outgoing_edges vs sc : ro (plot_outgoing_edges A cv vs sc).
Proof. unfold plot_outgoing_edges. ro_tac. apply ro_mcat. intros. ro_tac. apply ro_mcat. intros. all: apply ro_plot_arrow. Qed.
Lemma ro_plot_sites ps lb c : ro (plot_sites A ps lb c).
Proof. unfold plot_sites. ro_tac; [apply ro_mmap; intros; ro_tac|]. apply ro_mcat. intros. ro_tac. Qed.
Lemma ro_plot_circle k tr : ro (plot_circle A k tr).
Proof. unfold plot_circle. apply ro_bind; [ro_tac|]. intros e. destruct (c_triple e) as [[? ?] ?]. ro_tac; apply ro_plot_sites. Qed.
Lemma ro_plot_event e tr : ro (plot_event A e tr).
Proof. unfold plot_event. apply ro_bind; [ro_tac|]. intros o. destruct (match e with ENone => _ | EEvent _ => _ | EBool _ => _ end) as [[]|]; ro_tac. all: apply ro_plot_circle. Qed.
Lemma ro_arc_lines arcs xs l show : ro (arc_lines A arcs xs l show).
Proof. induction arcs as [|a arcs IH]; cbn; [apply ro_ret|]. ro_tac. apply IH. Qed.
Lemma ro_plot_arc_labels xs lines bottom l arcs : ro (plot_arc_labels A cv xs lines bottom l arcs).
Proof. unfold plot_arc_labels. apply ro_mcat. intros. ro_tac. Qed.
Lemma ro_plot_arcs order arcs sl show lb : ro (plot_arcs A cv order arcs sl show lb).
Proof. unfold plot_arcs. ro_tac; [apply ro_arc_lines|]. all: apply ro_plot_arc_labels. Qed.
Lemma ro_plot_polygon : ro (plot_polygon A b).
Proof. unfold plot_polygon. ro_tac. Qed.
Lemma ro_plot_sweep_line sl : ro (plot_sweep_line A cv sl).
Proof. unfold plot_sweep_line. ro_tac. Qed.
Lemma ro_when c m : ro m -> ro (when A c m).
Proof. unfold when. destruct c; [done|]. intros _. all: apply ro_ret. Qed.
Lemma ro_plot_all order f : ro (plot_all A b cv order f).
Proof.
  unfold plot_all. repeat (apply ro_bind; [|intros ?]); try apply ro_when; auto using ro_plot_sweep_line, ro_plot_polygon, ro_plot_edges, ro_plot_border_to_site, ro_plot_vertices, ro_plot_sites, ro_plot_outgoing_edges, ro_plot_event, ro_plot_arcs, ro_ret.
Qed.
End Draw.
