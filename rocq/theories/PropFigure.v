(* PropFigure.v -- C66: what a figure of a VoronoiObserver contains, by its settings; DebugObserver. *)
From stdpp Require Import base list sets.
From Coq Require Import ZArith Reals Lra Lia.
From Verif Require Import Arith Geom Monad Tree Heapq State Sweep Finish HeapqProofs SweepBase SweepLoop Spec SpecFinish SweepFacts RArith GeomReal AreaReal PolyReal ConvexReal CircleReal FinishReal EdgeReal Circle Visual VisualReal SpecVisual Watch SpecWatch WatchFacts WatchSound WatchDraw WatchVoronoi WatchLog
  CellDraw DrawAll EnvelopeFacts SpecVoronoi SpecClip FinishFacts PropSweep PropFinish PropEnvelope PropReal PropGeom PropVoronoi PropVisual VisualEdges PropClip PropCells PropDrawing PropEvents PropClean PropWatch SpecFigure FigureFacts.
Local Open Scope R_scope.

(* the keywords that are on, as booleans *)
Definition always (k : key) : bool := match k with KEdges | KVertices | KSites => true | _ => false end.
Definition yes_at (m : message) (d : dict RArith) (k : key) : bool := truth RArith (dict_update RArith (preset_for (presets0 RArith) m) d) k (always k).
Lemma yes_on m (d : dict RArith) k : yes_at m d k = true <-> on m d k.
Proof.
  unfold yes_at, truth, dict_update, on. destruct (d k) as [[v|x]|].
  - done.
  - cbn [deqb dZ RArith]. unfold Reqb. destruct (Req_EM_T x 0) as [E|E]; cbn; split; intros H; done.
  - destruct m, k; cbn; (split; intros H; [try done; auto 10|]); try done; repeat (destruct H as [H|H]; [discriminate H|]); done.
Qed.
Lemma flags_at m (d : dict RArith) : flags_of RArith (dict_update RArith (preset_for (presets0 RArith) m) d) = flags_yes RArith (yes_at m d) (arrow_length d).
Proof.
  unfold flags_of, flags_yes, yes_at. f_equal. unfold dict_update, arrow_length. destruct (d KScale) as [[[]|x]|]; [done..|]. by destruct m.
Qed.
Lemma figure_val xys s m b order (o : voronoi_observer RArith) : drawable xys s -> check_line RArith m s = Val (s, tt) -> order s ≡ₚ s_arcset s -> vor_wants o m = true ->
  exists p' cmds, voronoi_update RArith b order o (presets0 RArith) m s = Val (s, (vor_after o [m], p', Some (mkFigure RArith (vo_count RArith o) cmds))) /\
    plot_all RArith b (canvas_size RArith b (vo_offset RArith o)) (order s) (flags_yes RArith (yes_at m (vo_settings RArith o)) (arrow_length (vo_settings RArith o))) s = Val (s, cmds).
Proof.
  intros HD HC HO Hw. rewrite <- flags_at.
  destruct (draw_total xys s b (canvas_size RArith b (vo_offset RArith o)) (order s) (flags_of RArith (dict_update RArith (preset_for (presets0 RArith) m) (vo_settings RArith o))) HD HO) as [cmds E].
  eexists _, cmds. split; [|exact E]. unfold voronoi_update. rewrite use_val, Hw. unfold bind at 1. rewrite HC. unfold bind at 1, read. unfold bind at 1. rewrite E.
  unfold vor_after. cbn [List.filter]. rewrite Hw. cbn [List.length]. rewrite Nat.add_1_r. reflexivity.
Qed.

Lemma drawn_total xys s b cv order yes scale k : drawable xys s -> order ≡ₚ s_arcset s -> exists l, drawn_by b cv order yes scale k s = Val (s, l).
Proof.
  intros (HS & HE & HV & H1 & H2 & HEv & HA) HO. destruct k; cbn [drawn_by]; try (by eexists).
  - unfold plot_polygon. destruct b; by eexists.
  - apply edges_total. apply HE.
  - destruct (vertices_val s HV) as (c & C & _). eauto.
  - rewrite (sites_val s xys _ _ H1 H2). eauto.
  - apply outgoing_total; [done|]. intros v w e Hw He. apply sound_fit; [done|]. by eapply so_conn.
  - apply pointers_total. apply HE.
  - apply event_val; [done|]. intros k. done.
  - apply arcs_total. intros a Ha. apply HA. by rewrite <- HO.
Qed.

(* ---------- C66 ---------- *)
(* An observer attends a run, and nobody has changed the shared settings.  Its figure at a notification
   consists of the calls of the methods whose keyword is on, and a label, an arc or an arc label is in it
   only if the keyword for this detail is on. *)
Theorem C66_figure (xys corners : list (pt RArith)) poly flag fuel s' s idx seen b order o m sj : NoDup xys -> (1 <= length xys)%nat -> (2 <= length corners)%nat ->
  create_diagram RArith poly flag fuel xys (init_state RArith corners) = Val (s', tt) -> notified RArith xys corners s idx seen -> s_queue s = [] ->
  (forall s, order s ≡ₚ s_arcset s) -> (m, sj) ∈ notifications RArith seen s s' -> vor_wants o m = true ->
  let d := vo_settings RArith o in let cv := canvas_size RArith b (vo_offset RArith o) in
  exists p' cmds yes, voronoi_update RArith b order o (presets0 RArith) m sj = Val (sj, (vor_after o [m], p', Some (mkFigure RArith (vo_count RArith o) cmds))) /\
    (forall k, yes k = true <-> on m d k) /\
    (forall k, exists l, drawn_by b cv (order sj) yes (arrow_length d) k sj = Val (sj, l) /\ forall c, (c ∈ cmds /\ keyword c = Some k) <-> (c ∈ l /\ on m d k)) /\
    forall c, c ∈ cmds -> (exists k, keyword c = Some k /\ on m d k) /\ forall k, detail c = Some k -> on m d k.
Proof.
  intros ND Hn Hk HD HNo HQ HO Hm Hw d cv. destruct (notifications_drawable xys corners ND poly flag fuel s' Hn Hk HD) as (s2 & idx2 & seen2 & HNo2 & HQ2 & H).
  destruct (notified_unique RArith xys corners s idx seen s2 idx2 seen2 HNo HQ HNo2 HQ2) as [-> ->]. destruct (H m sj Hm) as [HDr HC].
  destruct (figure_val xys sj m b order o HDr HC (HO sj) Hw) as (p' & cmds & EV & EP). fold d cv in EP. exists p', cmds, (yes_at m d). split; [exact EV|].
  pose proof (yes_on m d) as HY. split; [exact HY|]. pose proof (parts_iff RArith b cv (yes_at m d) _ _ _ _ _ EP) as HI. split.
  - intros k. destruct (drawn_total xys sj b cv (order sj) (yes_at m d) (arrow_length d) k HDr (HO sj)) as [l El]. exists l. split; [done|]. intros c. rewrite HI. split.
    + intros [(k' & K1 & K2 & l' & K3 & K4) K5]. assert (k' = k) as -> by congruence. assert (l' = l) as -> by congruence. split; [done|]. by apply HY.
    + intros [Hc Hon]. assert (keyword c = Some k) by (by eapply part_of). split; [|done]. exists k. split; [done|]. split; [by apply HY|]. by exists l.
  - intros c Hc. split; [apply HI in Hc as (k & K1 & K2 & _); exists k; split; [done|by apply HY]|]. intros k Hk'. apply HY. by eapply parts_detail.
Qed.
Print Assumptions C66_figure.

Lemma part_val (b : bounds RArith) cv yes order scale s cmds k l c : plot_all RArith b cv order (flags_yes RArith yes scale) s = Val (s, cmds) -> drawn_by b cv order yes scale k s = Val (s, l) ->
  keyword c = Some k -> c ∈ cmds <-> yes k = true /\ c ∈ l.
Proof.
  intros EP E HK. rewrite (parts_iff RArith b cv yes _ _ _ _ _ EP). split.
  - intros (k' & K1 & K2 & l' & K3 & K4). assert (k' = k) as -> by congruence. assert (l' = l) as -> by congruence. done.
  - intros [K1 K2]. exists k. split; [done|]. split; [done|]. by exists l.
Qed.
Lemma line_val (b : bounds RArith) cv yes order scale s cmds l : plot_all RArith b cv order (flags_yes RArith yes scale) s = Val (s, cmds) -> drawn_by b cv order yes scale KEdges s = Val (s, l) ->
  forall z, on_line cmds EDGE z <-> yes KEdges = true /\ on_line l EDGE z.
Proof.
  intros EP E z. unfold on_line. split.
  - intros (p & q & H & HU). rewrite (part_val b cv yes order scale s cmds KEdges l _ EP E) in H by done; destruct H as [H1 H2]. split; [done|]. by exists p, q.
  - intros [HY (p & q & H & HU)]. exists p, q. split; [|done]. by rewrite (part_val b cv yes order scale s cmds KEdges l _ EP E).
Qed.

(* the figure of the result: the outline and the Voronoi edges in it, the vertices and the sites, unless
   they are switched off; arrows along the half-edges if they are switched on *)
Theorem C66_result (xys : list (pt RArith)) (poly : polygon RArith) fuel s order o : regular xys poly ->
  create_diagram RArith poly false fuel xys (init_state RArith (pg_points RArith poly)) = Val (s, tt) -> (forall s, order s ≡ₚ s_arcset s) -> vor_wants o VORONOI_FINISHED = true ->
  let d := vo_settings RArith o in let is_on := on VORONOI_FINISHED d in
  exists p' cmds, voronoi_update RArith (BPoly RArith poly) order o (presets0 RArith) VORONOI_FINISHED s = Val (s, (vor_after o [VORONOI_FINISHED], p', Some (mkFigure RArith (vo_count RArith o) cmds))) /\
    (forall z : rpt, on_line cmds EDGE z <-> is_on KEdges /\ (on_boundary (pg_points RArith poly) z \/
       (~ exterior (pg_points RArith poly) z /\ exists p q, p <> q /\ nearest xys p z /\ nearest xys q z))) /\
    (forall l, CScatter RArith CELL_POINTS l ∈ cmds <-> is_on KSites /\ l = xys) /\
    (exists lv, (forall z : rpt, z ∈ lv <-> In z (pg_points RArith poly) \/
       (on_boundary (pg_points RArith poly) z /\ exists p q, p <> q /\ nearest xys p z /\ nearest xys q z) \/ (interior (pg_points RArith poly) z /\ voronoi_vertex xys z)) /\
       forall l, CScatter RArith VERTICES l ∈ cmds <-> is_on KVertices /\ l = lv) /\
    (forall l, CPolygon RArith BOUNDING_BOX l ∈ cmds <-> is_on KPolygon /\ l = pg_points RArith poly) /\
    forall a t, CArrow RArith a t ∈ cmds <-> is_on KOutgoing /\ exists e b, side_of s e /\ runs_to s e a b /\ a <> b /\ t = ahead_by a b (arrow_length d).
Proof.
  intros HG HD HO Hw d is_on. pose proof (r_corners _ _ HG) as H3. pose proof (proj1 (reg_top xys poly HG)) as Ht. assert (1 <= length xys)%nat as L1 by (destruct xys; [done|simpl; lia]).
  destruct (figure_val xys s VORONOI_FINISHED (BPoly RArith poly) order o) as (p' & cmds & EV & EP); [eapply final_drawable; [exact (r_distinct _ _ HG)|exact L1| |exact HD]; lia|done|done|done|].
  fold d in EP. set (cv := canvas_size RArith (BPoly RArith poly) (vo_offset RArith o)) in EP. clearbody cv. exists p', cmds. split; [exact EV|]. clear EV. pose proof (yes_on VORONOI_FINISHED d) as HY. fold is_on in HY.
  pose proof (fun k l c => part_val (BPoly RArith poly) cv (yes_at VORONOI_FINISHED d) (order s) (arrow_length d) s cmds k l c EP) as PV. split; [|split; [|split; [|split]]].
  - intros z. destruct (C59_edge_lines xys poly fuel s cv None (yes_at VORONOI_FINISHED d KEdgeLabels) EDGE HG HD) as (c1 & E1 & H1).
    rewrite (line_val _ cv _ _ _ s cmds c1 EP E1 z), HY, H1. done.
  - intros l. pose proof (C59_sites xys poly fuel s (yes_at VORONOI_FINISHED d KSiteLabels) CELL_POINTS HG HD) as E1. rewrite (PV KSites _ _ E1) by done; rewrite HY. apply and_iff_compat_l. rewrite elem_of_cons. split; [|intros ->; by left].
    intros [H|H]; [by injection H|]. destruct (yes_at VORONOI_FINISHED d KSiteLabels); [|by apply elem_of_nil in H]. apply elem_of_lookup_imap in H as (i & P & X & _). discriminate X.
  - destruct (C59_vertices xys poly fuel s HG HD) as (lv & E1 & H1). exists lv. split; [exact H1|]. intros l. rewrite (PV KVertices _ _ E1) by done; rewrite HY, elem_of_list_singleton. apply and_iff_compat_l. split; [intros H; by injection H|by intros ->].
  - intros l. rewrite (PV KPolygon [CPolygon RArith BOUNDING_BOX (pg_points RArith poly)] _ eq_refl) by done; rewrite HY, elem_of_list_singleton. apply and_iff_compat_l. split; [intros H; by injection H|by intros ->].
  - intros a t. destruct (C59_arrows xys poly fuel s cv (arrow_length d) HG HD) as (c1 & E1 & H1). rewrite (PV KOutgoing _ _ E1) by done; rewrite HY, H1. done.
Qed.
Print Assumptions C66_result.

(* the figure of a step: the sweep line across the canvas at the height of the event, the outline, all
   sites, the edges found so far up to the sweep line, the beach line, and the circle of a circle event *)
Theorem C66_step (xys corners : list (pt RArith)) s idx hist i poly order o : NoDup xys -> runs RArith xys corners s idx hist -> last hist = Some i ->
  (forall s, order s ≡ₚ s_arcset s) -> vor_wants o STEP_FINISHED = true ->
  let d := vo_settings RArith o in let is_on := on STEP_FINISHED d in let cv := canvas_size RArith (BPoly RArith poly) (vo_offset RArith o) in let l := i_y i in
  exists p' cmds, voronoi_update RArith (BPoly RArith poly) order o (presets0 RArith) STEP_FINISHED s = Val (s, (vor_after o [STEP_FINISHED], p', Some (mkFigure RArith (vo_count RArith o) cmds))) /\
    (forall c x1 x2 y, CHorizontal RArith c x1 x2 y ∈ cmds <-> is_on KSweepLine /\ c = SWEEP_LINE /\ x1 = cv_min_x RArith cv /\ x2 = cv_max_x RArith cv /\ y = Some l) /\
    (forall c, CPolygon RArith BOUNDING_BOX c ∈ cmds <-> is_on KPolygon /\ c = pg_points RArith poly) /\
    (forall c, CScatter RArith CELL_POINTS c ∈ cmds <-> is_on KSites /\ c = xys) /\
    (forall z, on_line cmds EDGE z -> is_on KEdges /\ (snd z < cv_max_y RArith cv -> exists p q, p <> q /\ nearest xys p z /\ nearest xys q z)) /\
    (is_on KEdges -> forall p q z, p <> q -> nearest xys p z -> nearest xys q z -> passed hist p -> passed hist q -> above_arc xys l p z ->
       snd z <= cv_max_y RArith cv -> cv_max_y RArith cv <> 0 -> on_line cmds EDGE z) /\
    (forall dashed curve, CCurve RArith BEACH_LINE dashed curve ∈ cmds -> is_on KBeachLine) /\
    (is_on KBeachLine -> (exists p (P : rpt), passed hist p /\ xys !! p = Some P /\ l < snd P) -> exists curve, beach_curve cmds curve /\ length curve = 1000%nat /\
       forall j x y, curve !! j = Some (x, y) -> l < y /\ (forall q (Q : rpt), passed hist q -> xys !! q = Some Q -> (y - l) * (y - l) <= dist2 Q (x, y)) /\
         exists q (Q : rpt), passed hist q /\ xys !! q = Some Q /\ dist2 Q (x, y) = (y - l) * (y - l)) /\
    (forall c z r, CCircle RArith c z r ∈ cmds -> is_on KEvents /\ exists k, i_ev i = ECircle k) /\
    (is_on KEvents -> ~ is_on KTriangles -> forall k, i_ev i = ECircle k -> exists a b c (pa pb pc : rpt) x y r, NoDup [a; b; c] /\ xys !! a = Some pa /\ xys !! b = Some pb /\ xys !! c = Some pc /\
       CCircle RArith VALID_CIRCLE (x, y) r ∈ cmds /\ CScatter RArith VALID_CIRCLE [pa; pb; pc] ∈ cmds /\ 0 < r /\ dist2 pa (x, y) = r * r /\ dist2 pb (x, y) = r * r /\ dist2 pc (x, y) = r * r /\ y - r = l).
Proof.
  intros ND HR HL HO Hw d is_on cv l. assert (HN : hist <> []) by (by intros ->).
  assert (HSW : s_sweep s = Some l).
  { destruct (runs_reach RArith xys corners RArith_order (RArith_mid _) RArith_circle _ _ _ HR) as [(_ & _ & ->)|(t & dn & HR' & _)]; [done|].
    destruct (f_sweep _ _ _ _ _ _ _ (reach_facts RArith xys corners RArith_order _ _ _ _ HR')) as (it & E1 & E2 & _). rewrite HL in E1. injection E1 as <-. exact E2. }
  pose proof (run_drawable xys corners ND s idx hist HR HN) as HDr.
  destruct (figure_val xys s STEP_FINISHED (BPoly RArith poly) order o HDr (run_line xys corners s idx hist HR HN) (HO s) Hw) as (p' & cmds & EV & EP).
  fold d cv in EP. clearbody cv. exists p', cmds. split; [exact EV|]. clear EV. pose proof (yes_on STEP_FINISHED d) as HY. fold is_on in HY.
  pose proof (fun k l c => part_val (BPoly RArith poly) cv (yes_at STEP_FINISHED d) (order s) (arrow_length d) s cmds k l c EP) as PV.
  destruct (C52_edges xys corners s idx hist l None cv (yes_at STEP_FINISHED d KEdgeLabels) EDGE ND HR (C52_now xys corners s idx hist l ND HR HN HSW) (or_introl (conj eq_refl HSW))) as (c1 & E1 & ED1 & ED2).
  pose proof (line_val _ cv _ _ _ s cmds c1 EP E1) as LV.
  assert (PA : forall yes, exists la, drawn_by (BPoly RArith poly) cv (order s) yes (arrow_length d) KBeachLine s = Val (s, la)) by (intros yes; by eapply drawn_total).
  split; [|split; [|split; [|split; [|split; [|split; [|split; [|split]]]]]]].
  - intros c x1 x2 y. assert (E : drawn_by (BPoly RArith poly) cv (order s) (yes_at STEP_FINISHED d) (arrow_length d) KSweepLine s = Val (s, [CHorizontal RArith SWEEP_LINE (cv_min_x RArith cv) (cv_max_x RArith cv) (Some l)])).
    { cbn [drawn_by]. unfold plot_sweep_line, bind, read, ret. cbn [or_sweep]. by rewrite HSW. }
    split.
    + intros H. destruct c; try (exfalso; apply (parts_iff RArith _ _ _ _ _ _ _ _ EP) in H as (k & K & _); discriminate K). rewrite (PV KSweepLine _ _ E) in H by done; destruct H as [H1 H2]. split; [by apply HY|]. apply elem_of_list_singleton in H2. by injection H2 as -> -> ->.
    + intros (H1 & -> & -> & -> & ->). rewrite (PV KSweepLine _ _ E) by done. split; [by apply HY|]. by left.
  - intros c. rewrite (PV KPolygon [CPolygon RArith BOUNDING_BOX (pg_points RArith poly)] _ eq_refl) by done; rewrite HY, elem_of_list_singleton. apply and_iff_compat_l. split; [intros H; by injection H|by intros ->].
  - intros c. destruct HDr as (_ & _ & _ & S1 & S2 & _). pose proof (sites_val s xys (yes_at STEP_FINISHED d KSiteLabels) CELL_POINTS S1 S2) as ES. rewrite (PV KSites _ _ ES) by done; rewrite HY. apply and_iff_compat_l. rewrite elem_of_cons. split; [|intros ->; by left].
    intros [H|H]; [by injection H|]. destruct (yes_at STEP_FINISHED d KSiteLabels); [|by apply elem_of_nil in H]. apply elem_of_lookup_imap in H as (j & P & X & _). discriminate X.
  - intros z [H1 H2]%LV. split; [by apply HY|]. by apply ED1.
  - intros H p q z N1 N2 N3 N4 N5 N6 N7 N8. apply LV. split; [by apply HY|]. by apply (ED2 p q).
  - intros ds curve H. apply (parts_iff RArith _ _ _ _ _ _ _ _ EP) in H as (k & K & Y & _). injection K as <-. by apply HY.
  - intros H HP. destruct (C51_beach_line xys corners s idx hist l None cv (order s) (yes_at STEP_FINISHED d KArcs) (yes_at STEP_FINISHED d KArcLabels) ND HR) as (la & curve & EA & HB & HLn & HX); [exact (proj1 (C52_now xys corners s idx hist l ND HR HN HSW))|left; done|done|done|].
    exists curve. split; [|split; [done|intros j x y Hj; by apply HX in Hj as (_ & Hj)]].
    intros ds c. rewrite (PV KBeachLine la _ EA) by done; rewrite <- (HB ds c). split; [by intros [_ ?]|]. intros ?. split; [by apply HY|done].
  - intros c z r H. apply (parts_iff RArith _ _ _ _ _ _ _ _ EP) in H as (k & K & Y & lc & EC & Hc). assert (k = KEvents) as ->.
    { destruct c; try discriminate K; injection K as <-; try done. exfalso. injection EC as <-. by apply elem_of_list_singleton in Hc. }
    split; [by apply HY|]. destruct (i_ev i) as [p|k] eqn:Ei; [|eauto]. exfalso. cbn [drawn_by] in EC. destruct (yes_at STEP_FINISHED d KTriangles).
    + unfold plot_event, bind, read in EC. injection EC as <-. by apply elem_of_nil in Hc.
    + rewrite (C64_site_event xys corners s idx hist (EBool false) false p HR) in EC; [|rewrite HL; done|auto]. injection EC as <-. by apply elem_of_nil in Hc.
  - intros H1 H2 k Hk. assert (yes_at STEP_FINISHED d KTriangles = false) as HT by (destruct (yes_at STEP_FINISHED d KTriangles) eqn:E; [exfalso; apply H2; by apply HY|done]).
    destruct (C64_current_event xys corners s idx hist i k (EBool false) false ND HR HL Hk (or_intror eq_refl)) as (a & b & c & pa & pb & pc & x & y & r & v & N1 & N2 & N3 & N4 & N5 & N6 & N7 & N8 & N9 & N10 & _).
    assert (EC : drawn_by (BPoly RArith poly) cv (order s) (yes_at STEP_FINISHED d) (arrow_length d) KEvents s = Val (s, circle_drawn false (x, y) r [pa; pb; pc])) by (cbn [drawn_by]; by rewrite HT).
    exists a, b, c, pa, pb, pc, x, y, r. do 4 (split; [done|]). split; [rewrite (PV KEvents _ _ EC) by done; split; [by apply HY|]; left|]. split; [rewrite (PV KEvents _ _ EC) by done; split; [by apply HY|]; right; left|]. do 4 (split; [done|]).
    rewrite HSW in N10. injection N10 as <-. done.
Qed.
Print Assumptions C66_step.

(* DebugObserver: in a run its callback is called for the DEBUG messages, and these are all the messages
   but the notifications that the other observers can show something for *)
Theorem C66_debug (A : Arith) (xys corners : list (pt A)) poly flag fuel s' s idx seen : lawful A xys -> (1 <= length xys)%nat -> (2 <= length corners)%nat ->
  create_diagram A poly flag fuel xys (init_state A corners) = Val (s', tt) -> notified A xys corners s idx seen -> s_queue s = [] ->
  let ms := map (fun x => snd (fst x)) (s_log s') in
  (length (List.filter debug_update ms) + length (notifications A seen s s') = length ms)%nat /\
  forall m, debug_update m = true <-> (forall o : voronoi_observer A, vor_wants o m = false) /\ forall steps result, tree_wants steps result m = false.
Proof.
  intros HLa Hn Hk HD HNo HQ ms. destruct (C61_notifications A xys corners poly flag fuel s' HLa Hn Hk HD) as (s2 & idx2 & seen2 & _ & _ & HU & HM).
  destruct (HU s idx seen HNo HQ) as [-> ->]. fold ms in HM. split.
  - apply (f_equal (@List.length message)) in HM. rewrite map_length in HM. rewrite <- HM. clear. induction ms as [|[] l IH]; [done|..]; cbn [List.filter debug_update is_msg List.length]; lia.
  - intros m. split.
    + destruct m; try discriminate. done.
    + intros [H1 H2]. destruct m; try done; exfalso.
      * by specialize (H2 true false).
      * by specialize (H1 (mkVorObs A false true false (dZ A 0) (empty_dict A) 0 [])).
      * by specialize (H2 false true).
Qed.
Print Assumptions C66_debug.

(* three sites in a box: the result is drawn with the line at (1, 0) by default, and without it if the
   edges are switched off by a number; a step of four sites shows the sweep line by default *)
Example C66_case : exists box s, bounding_box RArith (-1) 3 (-1) 4 = Val box /\ regular tri box /\
  create_diagram RArith box false 22 tri (init_state RArith (pg_points RArith box)) = Val (s, tt) /\
  forall d, let o := mkVorObs RArith false false true 1 d 0 [] in
    exists p' cmds, voronoi_update RArith (BPoly RArith box) s_arcset o (presets0 RArith) VORONOI_FINISHED s = Val (s, (vor_after o [VORONOI_FINISHED], p', Some (mkFigure RArith 0 cmds))) /\
      (d = empty_dict RArith -> on_line cmds EDGE (1, 0) /\ ~ exists l, CPolygon RArith BOUNDING_BOX l ∈ cmds) /\ (d KEdges = Some (VNum RArith 0) -> ~ on_line cmds EDGE (1, 0)).
Proof.
  destruct C59_case as (box & s & HB & HG & HD & H). exists box, s. do 3 (split; [done|]). intros d o.
  destruct (C66_result tri box 22 s s_arcset o HG HD (fun s => reflexivity _) eq_refl) as (p' & cmds & EV & HE & _ & _ & HPo & _). exists p', cmds. split; [exact EV|]. split.
  - intros ->. split.
    + apply HE. split; [by left|]. destruct (H (mkCanvas RArith 0 0 0 0)) as [(c1 & E1 & L1 & _) _]. destruct (C59_edge_lines tri box 22 s (mkCanvas RArith 0 0 0 0) None true EDGE HG HD) as (c2 & E2 & L2).
      assert (c2 = c1) as -> by congruence. by apply L2.
    + intros [l Hl]. apply HPo in Hl as [Hl _]. cbn in Hl. repeat (destruct Hl as [Hl|Hl]; [discriminate Hl|]). done.
  - intros Ed HL. apply HE in HL as [HL _]. unfold on in HL. cbn [vo_settings o] in HL. rewrite Ed in HL. by apply HL.
Qed.
Example C66_step_case : exists box s idx hist i, NoDup (quad : list (pt RArith)) /\ runs RArith quad (pg_points RArith box) s idx hist /\ last hist = Some i /\
  let o := mkVorObs RArith true false false 1 (empty_dict RArith) 0 [] in
  exists p' cmds x1 x2, voronoi_update RArith (BPoly RArith box) s_arcset o (presets0 RArith) STEP_FINISHED s = Val (s, (vor_after o [STEP_FINISHED], p', Some (mkFigure RArith 0 cmds))) /\
    CHorizontal RArith SWEEP_LINE x1 x2 (Some (i_y i)) ∈ cmds.
Proof.
  destruct C61_C62_case as (box & s' & s & idx & seen & HB & ND & HD & Hk & HNo & HQ & HLen). destruct (notified_runs RArith quad (pg_points RArith box) s idx seen HNo) as (hist & HR & EL & _).
  destruct (last hist) as [i|] eqn:Ei; [|apply last_None in Ei; rewrite Ei in EL; cbn in EL; lia]. exists box, s, idx, hist, i. do 3 (split; [done|]). intros o.
  destruct (C66_step quad (pg_points RArith box) s idx hist i box s_arcset o ND HR Ei (fun s => reflexivity _) eq_refl) as (p' & cmds & EV & HS & _). eexists p', cmds, _, _. split; [exact EV|].
  apply HS. split; [right; right; right; right; right; right; left; done|]. done.
Qed.
