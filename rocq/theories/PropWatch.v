(* PropWatch.v -- C61: observers that draw the diagram (VoronoiObserver).  C62: observers that show the
   status tree (TreeObserver), Node.visualize and TreeVisualizer.  C63: settings of several observers. *)
From stdpp Require Import base list sets.
From Coq Require Import ZArith String Reals Lra Lia.
From Verif Require Import Arith Geom Monad Tree State Sweep Finish SweepBase Spec RArith PolyReal Visual Watch SpecWatch WatchTree WatchFacts WatchDraw WatchVoronoi WatchLog
  CellDraw DrawAll EnvelopeFacts SpecVoronoi PropSweep PropEnvelope PropReal PropClip PropClean.
Local Open Scope nat_scope.

(* ---------- the notifications ---------- *)
(* the notifications of a run are determined by its input, and their messages are those that
   create_diagram sends, in this order (DEBUG messages aside) *)
Theorem C61_notifications (A : Arith) (xys corners : list (pt A)) poly flag fuel s' : lawful A xys -> 1 <= List.length xys -> 2 <= List.length corners ->
  create_diagram A poly flag fuel xys (init_state A corners) = Val (s', tt) ->
  exists s idx seen, notified A xys corners s idx seen /\ s_queue s = [] /\
    (forall s2 idx2 seen2, notified A xys corners s2 idx2 seen2 -> s_queue s2 = [] -> s2 = s /\ seen2 = seen) /\
    List.filter (fun m => match m with DEBUG => false | _ => true end) (map (fun x => snd (fst x)) (s_log s')) = map fst (notifications A seen s s').
Proof. exact (notifications_log A xys corners poly flag fuel s'). Qed.
Print Assumptions C61_notifications.

(* ---------- C61 ---------- *)
(* observers os attend a run: no update raises; each keeps and counts exactly the messages that it
   wants, and shows at each of them a drawing of the state *)
Theorem C61_figures (xys corners : list (pt RArith)) poly flag fuel s' s idx seen b order os p : NoDup xys -> 1 <= List.length xys -> 2 <= List.length corners ->
  create_diagram RArith poly flag fuel xys (init_state RArith corners) = Val (s', tt) -> notified RArith xys corners s idx seen -> s_queue s = [] ->
  (forall s, order s ≡ₚ s_arcset s) ->
  let l := notifications RArith seen s s' in
  exists p' out, attend RArith (fun x m => notify_all RArith b order (fst x) (snd x) m) (os, p) l = Val (map (fun o : voronoi_observer RArith => vor_after o (map fst l)) os, p', out) /\
    List.length out = List.length l /\
    forall j m sj figs, l !! j = Some (m, sj) -> out !! j = Some figs ->
      Forall2 (fun o fig => shows_figure b order os p o (vo_count RArith o + List.length (List.filter (vor_wants o) (map fst (take j l)))) m sj fig) os figs.
Proof.
  intros ND Hn Hk HD HNo HQ HO l. destruct (notifications_drawable xys corners ND poly flag fuel s' Hn Hk HD) as (s2 & idx2 & seen2 & HNo2 & HQ2 & H).
  destruct (notified_unique RArith xys corners s idx seen s2 idx2 seen2 HNo HQ HNo2 HQ2) as [-> ->].
  apply (attend_vor xys b order HO p os l H).
  - intros m k. by left.
  - intros o Ho m k v Hw Hv. by exists o.
Qed.
Print Assumptions C61_figures.
(* in every step, the sweep line is at the event (the assertion in update) *)
Theorem C61_assertion (xys corners : list (pt RArith)) s idx hist : runs RArith xys corners s idx hist -> hist <> [] ->
  check_line RArith STEP_FINISHED s = Val (s, tt).
Proof. exact (run_line xys corners s idx hist). Qed.
Print Assumptions C61_assertion.
(* drawing never raises: in any step, and for any finished diagram *)
Theorem C61_step_drawn (xys corners : list (pt RArith)) s idx hist b cv order flags : NoDup xys -> runs RArith xys corners s idx hist -> hist <> [] -> order ≡ₚ s_arcset s ->
  exists cmds, plot_all RArith b cv order flags s = Val (s, cmds).
Proof. intros ND HR HN HO. eapply draw_total; [by eapply run_drawable|done]. Qed.
Print Assumptions C61_step_drawn.
Theorem C61_result_drawn (xys corners : list (pt RArith)) poly flag fuel s b cv order flags : NoDup xys -> 1 <= List.length xys -> 2 <= List.length corners ->
  create_diagram RArith poly flag fuel xys (init_state RArith corners) = Val (s, tt) -> order ≡ₚ s_arcset s ->
  exists cmds, plot_all RArith b cv order flags s = Val (s, cmds).
Proof. intros ND Hn Hk HD HO. eapply draw_total; [by eapply final_drawable|done]. Qed.
Print Assumptions C61_result_drawn.

(* ---------- C62 ---------- *)
(* Node.visualize: the nodes of the beach line from right (top line) to left, indented by their level *)
Theorem C62_text (A : Arith) (xys corners : list (pt A)) s idx hist : lawful A xys -> runs A xys corners s idx hist -> hist <> [] ->
  exists n L t, s_root s = Some n /\ beach A s L /\ alternating A s L /\ visualize A n s = Val (s, t) /\ text_of A s L t.
Proof.
  intros (TO & MO & CC) HR HN. destruct (runs_showable A xys corners TO MO CC s idx hist HR HN) as (L & HB & HS). destruct (show_text A s L _ HS) as (n & t & H1 & H2 & H3).
  exists n, L, t. destruct HS as (_ & t' & _ & _ & _ & _ & HA & _). done.
Qed.
Print Assumptions C62_text.
(* TreeVisualizer.plot *)
Theorem C62_graph (A : Arith) (xys corners : list (pt A)) s idx hist : lawful A xys -> runs A xys corners s idx hist -> hist <> [] ->
  exists n L g, s_root s = Some n /\ beach A s L /\ alternating A s L /\ graph A n s = Val (s, g) /\ graph_of A s L g.
Proof.
  intros (TO & MO & CC) HR HN. destruct (runs_showable A xys corners TO MO CC s idx hist HR HN) as (L & HB & HS). destruct (show_graph A s L _ HS) as (n & t & H1 & H2 & H3).
  exists n, L, t. destruct HS as (_ & t' & _ & _ & _ & _ & HA & _). done.
Qed.
Print Assumptions C62_graph.
(* the labels: an arc shows the number of its site, a breakpoint the numbers of its two sites; the
   number of a site is its place among the sites handled so far, so different sites show different numbers *)
Theorem C62_labels (A : Arith) (xys corners : list (pt A)) s idx hist L n : lawful A xys -> runs A xys corners s idx hist -> beach A s L -> n ∈ L ->
  (exists p i, site A s n = Some p /\ handled_sites A hist !! i = Some p /\ shown_at A s n = str_name (Some i)) \/
  (exists p q i j, label A s n = Some (p, q) /\ handled_sites A hist !! i = Some p /\ handled_sites A hist !! j = Some q /\
     shown_at A s n = (str_name (Some i) ++ "," ++ str_name (Some j))%string).
Proof.
  intros (TO & MO & CC) HR HB Hn. assert (HN : hist <> []).
  { intros ->. destruct (C11_beach_line A xys corners s idx [] (conj TO (conj MO CC)) HR) as (L' & HB' & [[E _]|[_ E]]); [|done]. rewrite (beach_det A s L L' HB HB'), E in Hn. by apply elem_of_nil in Hn. }
  destruct (runs_showable A xys corners TO MO CC s idx hist HR HN) as (L' & HB' & HS). rewrite (beach_det A s L L' HB HB') in Hn. clear HB.
  pose proof HS as (_ & _ & _ & _ & _ & _ & _ & HL & _). destruct (HL n Hn) as [(p & Hp & [i Hi]%elem_of_list_lookup)|(p & q & Hl & [i Hi]%elem_of_list_lookup & [j Hj]%elem_of_list_lookup)].
  - left. exists p, i. split; [done|]. split; [done|]. unfold shown_at. rewrite Hp. by eapply show_name.
  - right. exists p, q, i, j. do 3 (split; [done|]). unfold shown_at. rewrite Hl. assert (site A s n = None) as ->.
    { unfold site, label, arcid, bpid in *. destruct (s_nodes s !! n) as [x|]; [|done]. cbn in *. by destruct (n_data x). }
    by rewrite (show_name A s L' _ i p HS Hi), (show_name A s L' _ j q HS Hj).
Qed.
Print Assumptions C62_labels.
Theorem C62_numbers i j : str_name (Some i) = str_name (Some j) -> i = j.
Proof. exact (str_name_inj i j). Qed.
Print Assumptions C62_numbers.
(* a TreeObserver attends a run: no update raises; it keeps and counts exactly the messages that it
   wants, and shows at each of them the status tree of that state *)
Theorem C62_observer (A : Arith) (xys corners : list (pt A)) poly flag fuel s' s idx seen text steps result : lawful A xys -> 1 <= List.length xys ->
  create_diagram A poly flag fuel xys (init_state A corners) = Val (s', tt) -> notified A xys corners s idx seen -> s_queue s = [] ->
  let l := notifications A seen s s' in
  exists o out, attend A (tree_update A) (mkTreeObs text steps result 0 []) l = Val (o, out) /\ List.length out = List.length l /\
    to_messages o = List.filter (tree_wants steps result) (map fst l) /\ to_count o = List.length (to_messages o) /\
    forall j m sj, l !! j = Some (m, sj) -> exists x, out !! j = Some x /\
      if tree_wants steps result m then exists y, x = Some y /\ tree_shows A text (List.length (List.filter (tree_wants steps result) (map fst (take j l)))) sj y else x = None.
Proof.
  intros (TO & MO & CC) Hn HD HNo HQ l. destruct (notifications_showable A xys corners TO MO CC poly flag fuel s') as (s2 & idx2 & seen2 & HNo2 & HQ2 & _ & H); [intros E; rewrite E in Hn; cbn in Hn; lia|done|].
  destruct (notified_unique A xys corners s idx seen s2 idx2 seen2 HNo HQ HNo2 HQ2) as [-> ->].
  destruct (attend_tree A text steps result l H 0 []) as (o & out & E1 & E2 & E3 & E4 & E5). exists o, out. split; [done|]. split; [done|]. split; [done|]. split; [by rewrite E4, E3|]. exact E5.
Qed.
Print Assumptions C62_observer.

(* ---------- C63 ---------- *)
(* The property: what an observer shows depends on its own settings only, not on other observers. *)
(* It holds as long as no other observer that draws at the same message sets another key: *)
Theorem C63_isolated_partial (A : Arith) (os : list (voronoi_observer A)) (p : presets A) (o : voronoi_observer A) (m : message) (d : dict A) (k : key) :
  settings_for os p o m d -> (forall o', o' ∈ os -> vor_wants o' m = true -> vo_settings A o' k <> None -> vo_settings A o' k = vo_settings A o k) ->
  d k = dict_update A (preset_for p m) (vo_settings A o) k.
Proof.
  intros H HA. specialize (H k). unfold dict_update. destruct (vo_settings A o k) as [v|]; [done|]. destruct H as [H|(o' & H1 & H2 & H3 & H4)]; [done|]. specialize (HA o' H1 H2 H3). congruence.
Qed.
Print Assumptions C63_isolated_partial.
Theorem C63_alone (xys corners : list (pt RArith)) poly flag fuel s b order o p m : NoDup xys -> 1 <= List.length xys -> 2 <= List.length corners ->
  create_diagram RArith poly flag fuel xys (init_state RArith corners) = Val (s, tt) -> (forall s, order s ≡ₚ s_arcset s) ->
  m = SWEEP_FINISHED \/ m = VORONOI_FINISHED -> vor_wants o m = true ->
  exists p' cmds, voronoi_update RArith b order o p m s = Val (s, (vor_after o [m], p', Some (mkFigure RArith (vo_count RArith o) cmds))) /\
    plot_all RArith b (canvas_size RArith b (vo_offset RArith o)) (order s) (flags_of RArith (dict_update RArith (preset_for p m) (vo_settings RArith o))) s = Val (s, cmds).
Proof.
  intros ND Hn Hk HD HO Hm Hw. destruct (draw_total xys s b (canvas_size RArith b (vo_offset RArith o)) (order s) (flags_of RArith (dict_update RArith (preset_for p m) (vo_settings RArith o)))) as [cmds E]; [by eapply final_drawable|done|].
  destruct Hm as [-> | ->]; eexists _, cmds; (split; [|done]); unfold voronoi_update; rewrite use_val, Hw; unfold bind at 1, check_line, ret; unfold bind at 1, read; unfold bind at 1; rewrite E;
    unfold vor_after; cbn [List.filter]; rewrite Hw; cbn [List.length]; rewrite Nat.add_1_r; reflexivity.
Qed.
Print Assumptions C63_alone.

(* an observer that shows nothing, and one with no settings *)
Definition blank : voronoi_observer RArith := mkVorObs RArith false false true 1%R
  (fun k => match k with KEdges | KVertices | KSites => Some (VBool RArith false) | _ => None end) 0 [].
Definition plain : voronoi_observer RArith := mkVorObs RArith false false true 1%R (empty_dict RArith) 0 [].

Definition by_default : flags RArith := flags_of RArith (dict_update RArith (preset_for (presets0 RArith) VORONOI_FINISHED) (empty_dict RArith)).
Lemma sites_shown xys s b cv order cmds : drawable xys s -> plot_all RArith b cv order by_default s = Val (s, cmds) -> CScatter RArith CELL_POINTS xys ∈ cmds.
Proof.
  intros (HS & HE & HV & H1 & H2 & HEv & HA) E. destruct (edges_total cv s false EDGE (HE _)) as [c1 C1].
  destruct (vertices_val s HV) as (c3 & C3 & _). pose proof (sites_val s xys false CELL_POINTS H1 H2) as C4.
  unfold plot_all in E. cbn [fl_sweep_line fl_polygon fl_edges fl_border_to_site fl_vertices fl_sites fl_outgoing_edges fl_events fl_beach_line fl_edge_labels fl_site_labels by_default flags_of truth dict_update
    preset_for pr_final presets0 empty_dict when] in E.
  unfold bind at 1, ret at 1 in E. unfold bind at 1, ret at 1 in E. unfold bind at 1 in E. rewrite C1 in E. unfold bind at 1, ret at 1 in E. unfold bind at 1 in E. rewrite C3 in E. unfold bind at 1 in E. rewrite C4 in E.
  unfold bind, ret in E. injection E as <-. cbn [app]. repeat (rewrite ?elem_of_app, ?elem_of_cons). tauto.
Qed.

Example C61_C62_case : exists box s' s idx seen, bounding_box RArith (-5)%R 5%R (-3)%R 8%R = Val box /\ NoDup (quad : list (pt RArith)) /\
  create_diagram RArith box true 30 quad (init_state RArith (pg_points RArith box)) = Val (s', tt) /\ 2 <= List.length (pg_points RArith box) /\
  notified RArith quad (pg_points RArith box) s idx seen /\ s_queue s = [] /\ 4 <= List.length seen.
Proof.
  destruct C60_case as (box & s' & HB & HG & _ & HD & _). exists box, s'.
  assert (Hk : 2 <= List.length (pg_points RArith box)) by (destruct (bounding_box_R (-5)%R 5%R (-3)%R 8%R) as (box' & HB' & HL & _); [lra..|]; rewrite HB in HB'; injection HB' as <-; rewrite HL; cbn; lia).
  destruct (C61_notifications RArith quad (pg_points RArith box) box true 30 s' (lawful_real quad)) as (s & idx & seen & HNo & HQ & _ & _); [cbn; lia|done|done|].
  exists s, idx, seen. split; [done|]. split; [exact quad_nodup|]. do 4 (split; [done|]).
  destruct (notified_runs RArith quad (pg_points RArith box) s idx seen HNo) as (hist & HR & EL & _).
  destruct (C03_site_order RArith quad (pg_points RArith box) s idx hist (lawful_real quad) (conj HR HQ)) as (order & EO & HP & _). apply Permutation_length in HP. rewrite seq_length in HP. change (List.length (quad : list (pt RArith))) with 4 in HP.
  rewrite EL, <- HP, EO. unfold handled_sites. clear. induction hist as [|x l IH]; [done|]. cbn [omap list_omap List.length]. destruct (i_ev x); cbn [List.length]; lia.
Qed.

(* the second observer alone shows the sites; after the first one it shows nothing, and the shared
   settings stay changed *)
Theorem C63_isolation_refuted : exists box s cmds p1 fig p2,
  bounding_box RArith (-5)%R 5%R (-3)%R 8%R = Val box /\ create_diagram RArith box true 30 quad (init_state RArith (pg_points RArith box)) = Val (s, tt) /\
  voronoi_update RArith (BPoly RArith box) s_arcset plain (presets0 RArith) VORONOI_FINISHED s = Val (s, (vor_after plain [VORONOI_FINISHED], p1, Some (mkFigure RArith 0 cmds))) /\
  CScatter RArith CELL_POINTS quad ∈ cmds /\
  notify_all RArith (BPoly RArith box) s_arcset [blank; plain] (presets0 RArith) VORONOI_FINISHED s =
    Val (s, ([vor_after blank [VORONOI_FINISHED]; vor_after plain [VORONOI_FINISHED]], p2, [fig; Some (mkFigure RArith 0 [])])) /\
  preset_for (presets0 RArith) VORONOI_FINISHED KSites = None /\ preset_for p2 VORONOI_FINISHED KSites = Some (VBool RArith false).
Proof.
  destruct C61_C62_case as (box & s & _ & _ & _ & HB & ND & HD & Hk & _).
  destruct (C63_alone quad (pg_points RArith box) box true 30 s (BPoly RArith box) s_arcset plain (presets0 RArith) VORONOI_FINISHED ND) as (p1 & cmds & E & EP); [cbn; lia|done|done|done|by right|done|].
  exists box, s, cmds, p1. eexists _, _. split; [done|]. split; [done|]. split; [exact E|]. split; [|split; [reflexivity|split; reflexivity]].
  eapply sites_shown; [|exact EP]. eapply final_drawable; [exact ND|cbn; lia|exact Hk|exact HD].
Qed.
Print Assumptions C63_isolation_refuted.
