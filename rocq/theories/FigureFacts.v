(* FigureFacts.v -- which calls the parts of plot_all make on the canvas. *)
From stdpp Require Import base list sets.
From Coq Require Import ZArith Reals Lra Lia.
From Verif Require Import Arith Geom Monad State Sweep RArith Circle Visual VisualFacts CleanUp Watch SpecFigure.
Local Open Scope monad_scope.

Section Gives.
Context {A : Arith}.
Notation St := (M (state A)).
Definition gives {X} (Q : X -> Prop) (m : St X) : Prop := forall s s' x, m s = Val (s', x) -> Q x.
Lemma gives_ret {X} (Q : X -> Prop) x : Q x -> gives Q (ret x). Proof. intros H s s' y [= _ <-]. done. Qed.
Lemma gives_any {X} (m : St X) : gives (fun _ => True) m. Proof. done. Qed.
Lemma gives_bind {X Y} (P : X -> Prop) (Q : Y -> Prop) (m : St X) (k : X -> St Y) : gives P m -> (forall x, P x -> gives Q (k x)) -> gives Q (bind m k).
Proof. intros H1 H2 s s' y H. apply bind_inv in H as (s1 & x & E1 & E2). eapply H2; [|exact E2]. by eapply H1. Qed.
Lemma gives_skip {X Y} (Q : Y -> Prop) (m : St X) (k : X -> St Y) : (forall x, gives Q (k x)) -> gives Q (bind m k).
Proof. intros H. apply (gives_bind (fun _ => True)); [done|auto]. Qed.
Lemma gives_mcat {X} (P : cmd A -> Prop) (f : X -> St (list (cmd A))) l : (forall x, gives (Forall P) (f x)) -> gives (Forall P) (mcat A f l).
Proof.
  intros H. induction l as [|x l IH]; cbn; [by apply gives_ret|]. eapply gives_bind; [apply H|]. intros a Ha. eapply gives_bind; [apply IH|]. intros b Hb. apply gives_ret. by apply Forall_app.
Qed.
Lemma gives_raise {X} (Q : X -> Prop) e : gives Q (raise e). Proof. done. Qed.

(* the calls of a part belong to keyword k, and to those of its details that are on *)
Definition fits (k : key) (yes : key -> bool) (c : cmd A) : Prop := keyword c = Some k /\ forall k', detail c = Some k' -> yes k' = true.
End Gives.

Section Parts.
Context (A : Arith) (b : bounds A) (cv : canvas A) (yes : key -> bool).
Notation St := (M (state A)).
Notation fits := (@fits A).
Ltac one := repeat constructor; cbn; try done; try (intros ? [= <-]; assumption).
Lemma fit_edge e sl c : c = EDGE -> gives (Forall (fits KEdges yes)) (plot_edge A cv e sl (yes KEdgeLabels) c).
Proof.
  intros ->. unfold plot_edge. apply gives_skip. intros [[p|] [q|]]; try (apply gives_ret; done). destruct (yes KEdgeLabels) eqn:E; [|apply gives_ret; one]. do 6 (apply gives_skip; intros ?). apply gives_ret. one.
Qed.
Lemma fit_edge' e sl : gives (Forall (fits KEdges yes)) (plot_edge A cv e sl false EDGE).
Proof. unfold plot_edge. apply gives_skip. intros [[p|] [q|]]; apply gives_ret; one. Qed.
Lemma fit_edges : gives (Forall (fits KEdges yes)) (plot_edges A cv None None (yes KEdgeLabels) EDGE).
Proof.
  unfold plot_edges. do 2 (apply gives_skip; intros ?). apply gives_mcat. intros e. eapply gives_bind; [by apply fit_edge|]. intros c Hc. apply gives_skip. intros t. eapply gives_bind; [apply fit_edge'|].
  intros c' Hc'. apply gives_ret. by apply Forall_app.
Qed.
Lemma fit_pointer e sl : gives (Forall (fits KBorderToSite yes)) (plot_pointer A cv e sl).
Proof. unfold plot_pointer. apply gives_skip. intros [o1 o2]. apply gives_skip. intros h. destruct (h_inc h) as [p|]; [|by apply gives_ret]. apply gives_skip. intros x. destruct o1 as [a|], o2 as [b'|]; try (by apply gives_ret). apply gives_skip. intros y. apply gives_ret. one. Qed.
Lemma fit_pointers : gives (Forall (fits KBorderToSite yes)) (plot_border_to_site A cv None None).
Proof.
  unfold plot_border_to_site. do 2 (apply gives_skip; intros ?). apply gives_mcat. intros e. eapply gives_bind; [by apply fit_pointer|]. intros c Hc. apply gives_skip. intros t. eapply gives_bind; [apply fit_pointer|].
  intros c' Hc'. apply gives_ret. by apply Forall_app.
Qed.
Lemma fit_vertices : gives (Forall (fits KVertices yes)) (plot_vertices A None).
Proof. unfold plot_vertices. do 2 (apply gives_skip; intros ?). apply gives_ret. one. Qed.
Lemma fit_sites : gives (Forall (fits KSites yes)) (plot_sites A None (yes KSiteLabels) CELL_POINTS).
Proof.
  unfold plot_sites. do 2 (apply gives_skip; intros ?). eapply (gives_bind (Forall (fits KSites yes))).
  - destruct (yes KSiteLabels) eqn:E; [|by apply gives_ret]. apply gives_mcat. intros p. apply gives_skip. intros y. apply gives_ret. one.
  - intros l Hl. apply gives_ret. constructor; [one|done].
Qed.
Lemma fit_event k : gives (Forall (fits KEvents yes)) (plot_circle A k false).
Proof.
  unfold plot_circle. apply gives_skip. intros e. destruct (c_triple e) as [[p q] r]. do 3 (apply gives_skip; intros ?). eapply (gives_bind (Forall (fits KEvents yes))).
  - unfold plot_sites. do 2 (apply gives_skip; intros ?). eapply (gives_bind (fun l => l = [])); [by apply gives_ret|]. intros l ->. apply gives_ret. one.
  - intros l Hl. apply gives_ret. cbn [app]. constructor; [|done]. destruct (c_valid e); one.
Qed.
Lemma fit_events arg : gives (Forall (fits KEvents yes)) (plot_event A arg false).
Proof. unfold plot_event. apply gives_skip. intros o. destruct (match arg with ENone => _ | EEvent _ => _ | EBool _ => _ end) as [[p|k]|]; [by apply gives_ret|apply fit_event|by apply gives_ret]. Qed.
Lemma fit_outgoing scale : gives (Forall (fits KOutgoing yes)) (plot_outgoing_edges A cv None scale).
Proof.
  unfold plot_outgoing_edges. apply gives_skip. intros l. apply gives_mcat. intros v. apply gives_skip. intros w. apply gives_mcat. intros e. unfold plot_arrow. apply gives_skip. intros [[[x1 [y1|]]|] [[x2 [y2|]]|]]; try (by apply gives_ret).
  cbv zeta. apply gives_skip. intros len. destruct (deqb A len (dZ A 0)); [by apply gives_ret|]. do 2 (apply gives_skip; intros ?). apply gives_ret. one.
Qed.
Lemma fit_sweep : gives (Forall (fits KSweepLine yes)) (plot_sweep_line A cv None).
Proof. unfold plot_sweep_line. apply gives_skip. intros l. apply gives_ret. one. Qed.
Lemma fit_polygon : gives (Forall (fits KPolygon yes)) (plot_polygon A b).
Proof. unfold plot_polygon. destruct b; apply gives_ret; one. Qed.
Lemma fit_lines arcs xs l : gives (fun r => Forall (fits KBeachLine yes) (fst r)) (arc_lines A arcs xs l (yes KArcs)).
Proof.
  induction arcs as [|a arcs IH]; cbn [arc_lines]; [apply gives_ret; constructor|]. do 2 (apply gives_skip; intros ?). eapply gives_bind; [exact IH|]. intros r Hr. cbv beta in Hr.
  destruct (arc_line A _ xs l); apply gives_ret; cbn [fst]; (destruct (yes KArcs) eqn:E; [|done]); (cbn [app]; constructor; [|done]); one.
Qed.
Lemma fit_arcs order : gives (Forall (fits KBeachLine yes)) (plot_arcs A cv order None None (yes KArcs) (yes KArcLabels)).
Proof.
  unfold plot_arcs. cbv zeta. apply gives_skip. intros sl. generalize (linspace A (toF A (cv_min_x A cv)) (toF A (cv_max_x A cv)) 1000). intros xs. eapply gives_bind; [apply fit_lines|]. intros r Hr. cbv beta in Hr.
  destruct (snd r) as [|ys lines]; [by apply gives_ret|]. eapply (gives_bind (Forall (fits KBeachLine yes))).
  - destruct (yes KArcLabels) eqn:E; [|by apply gives_ret]. unfold plot_arc_labels. apply gives_mcat. intros k. cbv zeta. do 3 (apply gives_skip; intros ?). apply gives_ret. one.
  - intros l Hl. apply gives_ret. apply Forall_app. split; [done|]. constructor; [one|done].
Qed.
Lemma fit_drawn order scale k : gives (Forall (fits k yes)) (drawn_by b cv order yes scale k).
Proof.
  destruct k; cbn [drawn_by]; first [by apply gives_ret|apply fit_edges|apply fit_pointers|apply fit_vertices|apply fit_sites|apply fit_events|apply fit_outgoing|apply fit_sweep|apply fit_polygon|apply fit_arcs].
Qed.
Lemma ro_drawn order scale k : ro A (drawn_by b cv order yes scale k).
Proof.
  destruct k; cbn [drawn_by]; auto using ro_ret, ro_plot_sweep_line, ro_plot_polygon, ro_plot_edges, ro_plot_border_to_site, ro_plot_vertices, ro_plot_sites, ro_plot_outgoing_edges, ro_plot_event, ro_plot_arcs.
Qed.

(* plot_all makes the calls of the parts that are on *)
Definition flags_yes (scale : D A) : flags A :=
  mkFlags A (yes KPolygon) (yes KEdges) (yes KVertices) (yes KSites) (yes KOutgoing) (yes KBorderToSite) scale (yes KEdgeLabels) (yes KSiteLabels) (yes KTriangles) (yes KArcs)
    (yes KSweepLine) (yes KEvents) (yes KArcLabels) (yes KBeachLine).
Lemma when_inv c (m : St (list (cmd A))) s s' l : ro A m -> when A c m s = Val (s', l) -> s' = s /\ ((c = true /\ m s = Val (s, l)) \/ (c = false /\ l = [])).
Proof. intros HR. destruct c; cbn; intros H; [pose proof (HR _ _ _ H) as ->; auto|]. injection H as <- <-. auto. Qed.
Definition all_parts : list key := [KSweepLine; KPolygon; KEdges; KBorderToSite; KVertices; KSites; KOutgoing; KEvents; KBeachLine].
Lemma parts_seq order scale s s' cmds : plot_all A b cv order (flags_yes scale) s = Val (s', cmds) ->
  s' = s /\ exists ls, cmds = concat ls /\ Forall2 (fun k l => (yes k = true /\ drawn_by b cv order yes scale k s = Val (s, l)) \/ (yes k = false /\ l = [])) all_parts ls.
Proof.
  intros H. unfold plot_all in H.
  apply bind_inv in H as (s1 & l1 & H1 & H). apply when_inv in H1 as [-> H1]; [|apply (ro_drawn order scale KSweepLine)].
  apply bind_inv in H as (s1 & l2 & H2 & H). apply when_inv in H2 as [-> H2]; [|apply (ro_drawn order scale KPolygon)].
  apply bind_inv in H as (s1 & l3 & H3 & H). apply when_inv in H3 as [-> H3]; [|apply (ro_drawn order scale KEdges)].
  apply bind_inv in H as (s1 & l4 & H4 & H). apply when_inv in H4 as [-> H4]; [|apply (ro_drawn order scale KBorderToSite)].
  apply bind_inv in H as (s1 & l5 & H5 & H). apply when_inv in H5 as [-> H5]; [|apply (ro_drawn order scale KVertices)].
  apply bind_inv in H as (s1 & l6 & H6 & H). apply when_inv in H6 as [-> H6]; [|apply (ro_drawn order scale KSites)].
  apply bind_inv in H as (s1 & l7 & H7 & H). apply when_inv in H7 as [-> H7]; [|apply (ro_drawn order scale KOutgoing)].
  apply bind_inv in H as (s1 & l8 & H8 & H). apply when_inv in H8 as [-> H8]; [|apply (ro_drawn order scale KEvents)].
  apply bind_inv in H as (s1 & l9 & H9 & H). apply when_inv in H9 as [-> H9]; [|apply (ro_drawn order scale KBeachLine)].
  apply (f_equal (fun r => match r with Val x => (fst x, snd x) | Raise _ => (s, cmds) end)) in H. cbn [ret fst snd] in H. injection H as <- <-.
  split; [done|]. exists [l1; l2; l3; l4; l5; l6; l7; l8; l9]. split; [cbn [concat]; by rewrite app_nil_r|]. unfold all_parts. repeat (apply Forall2_cons; split; [assumption|]). by apply Forall2_nil.
Qed.
Lemma part_of order scale s l c k : drawn_by b cv order yes scale k s = Val (s, l) -> c ∈ l -> keyword c = Some k /\ In k all_parts /\ forall k', detail c = Some k' -> yes k' = true.
Proof.
  intros E Hc. pose proof (fit_drawn order scale k s s l E) as HF. rewrite Forall_forall in HF. destruct (HF c Hc) as [HK HD]. split; [done|]. split; [|done].
  destruct k; cbn; try tauto; exfalso; cbn in E; injection E as <-; by apply elem_of_nil in Hc.
Qed.
Lemma parts_iff order scale s s' cmds : plot_all A b cv order (flags_yes scale) s = Val (s', cmds) ->
  forall c, c ∈ cmds <-> exists k, keyword c = Some k /\ yes k = true /\ exists l, drawn_by b cv order yes scale k s = Val (s, l) /\ c ∈ l.
Proof.
  intros H c. destruct (parts_seq order scale s s' cmds H) as (_ & ls & -> & HF). split.
  - intros Hc. apply elem_of_list_In, in_concat in Hc as (l & Hl & Hc). apply elem_of_list_In in Hl, Hc. apply elem_of_list_lookup in Hl as [i Hi].
    destruct (Forall2_lookup_r _ _ _ _ _ HF Hi) as (k & Hk & [[Y E]|[_ ->]]); [|by apply elem_of_nil in Hc]. exists k. split; [by eapply part_of|]. split; [done|]. by exists l.
  - intros (k & Hk & Y & l & E & Hc). destruct (part_of order scale s l c k E Hc) as (_ & Hin & _). apply elem_of_list_In, elem_of_list_lookup in Hin as [i Hi].
    destruct (Forall2_lookup_l _ _ _ _ _ HF Hi) as (l' & Hl & [[_ E']|[N _]]); [|congruence]. assert (l' = l) as -> by congruence. apply elem_of_list_In, in_concat. exists l. split; apply elem_of_list_In; [by eapply elem_of_list_lookup_2|done].
Qed.
Lemma parts_detail order scale s s' cmds : plot_all A b cv order (flags_yes scale) s = Val (s', cmds) -> forall c k, c ∈ cmds -> detail c = Some k -> yes k = true.
Proof. intros H c k Hc HD. apply (parts_iff order scale s s' cmds H) in Hc as (k0 & _ & _ & l & E & Hc). by eapply part_of. Qed.
End Parts.
