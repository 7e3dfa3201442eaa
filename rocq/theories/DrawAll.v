(* DrawAll.v -- plot_all never fails on a finished diagram: the event that is shown and the arcs
   are still there after the sweep.  Then: what each part shows. *)
From stdpp Require Import base list sets.
From Coq Require Import ZArith Reals Lra Lia Psatz Classical.
From Verif Require Import Arith Geom Monad Tree Heapq State Sweep Finish HeapqProofs EventOrder TreeProofs TreeOps TreeSearch Beach
  SweepBase Dcel SweepInv SweepTrans SweepSite SweepCircle SweepLoop Spec SpecFinish SweepFacts RArith GeomReal AreaReal PolyReal ConvexReal AngleReal EdgeReal Envelope EnvelopeEvents EnvelopeRow FinishFacts
  FinishEdges FinishBorder CleanUp FinishDiagram FinishLinks FinishMain CircleReal FinishReal ChoiceFacts DiagramFacts
  SweepReal SweepRealStep SweepRealLoop SweepRealFacts VoronoiGeom VoronoiStep Voronoi SpecVoronoi VoronoiFacts ClipGeom ClipBeach ClipVoronoi ClipFinal SpecClip CellGeom CellTrail CellBorder CellFirst CellArea
  Circle Visual VisualReal SpecVisual VisualEdges PropClip CellDraw.

(* ---------- the last circle event and its three sites ---------- *)
Section Event.
Context (A : Arith) (pts corners : list (pt A)).
Notation reach := (reach A pts corners).
Definition event_known (s : state A) : Prop := forall k, s_event s = Some (ECircle k) ->
  exists e a b c pa pb pc, s_cevs s !! k = Some e /\ c_triple e = (a, b, c) /\ pxy A s a = Some pa /\ pxy A s b = Some pb /\ pxy A s c = Some pc.
Lemma event_reach s t done hist : reach s t done hist -> event_known s.
Proof.
  induction 1 as [s it q p m s' Hok Hpop Hev|s t done hist it q k e HR IH Hpop Hev He Hv HI|s t done hist it q k e s' t' HR IH Hpop Hev Eit He Hv HL HI HT HF HI'|s t done hist it q p pi s' t' HR IH Hpop Hev].
  - intros k Hk. cbn in Hk. congruence.
  - exact IH.
  - intros k' Hk'. cbn in Hk'. assert (k' = k) as -> by congruence.
    destruct HT as (L1 & l & b1 & b2 & m & L2 & u & a & b & c & ev & HT). assert (HC : forall k e, s_cevs s !! k = Some e -> exists e', s_cevs s' !! k = Some e' /\ cev_item A k e' = cev_item A k e /\ c_triple e' = c_triple e) by (repeat (apply proj2 in HT); intros k0' e0 H0; destruct (HT k0' e0 H0) as (e1 & X1 & X2 & X3 & _); eauto).
    destruct (HC k e He) as (e' & E1 & _ & E2). destruct HL as (K1 & l' & b1' & b2' & m' & K2 & pa & pb & pc & ar & x & _ & _ & _ & _ & _ & _ & Kt & (xa & xb & xc & HP3 & _) & _).
    destruct HF as (_ & _ & _ & _ & HF & _). assert (HX : forall p, pxy A s' p = pxy A s p). { intros p. unfold pxy. rewrite <- !list_lookup_fmap. change (s_points s) with (s_points (started A it (set_queue q s))). by rewrite HF. }
    unfold points3 in HP3. destruct (pxy A s pa) as [ya|] eqn:Ea; [|done]. destruct (pxy A s pb) as [yb|] eqn:Eb; [|done]. destruct (pxy A s pc) as [yc|] eqn:Ec; [|done].
    exists e', pa, pb, pc, ya, yb, yc. split; [exact E1|]. split; [congruence|]. split; [|split]; (etransitivity; [apply HX|done]).
  - intros k Hk. cbn in Hk. congruence.
Qed.
End Event.

Section Draw.
Notation A := RArith.
Implicit Types s : state A.
Lemma circle_val s k e a b c pa pb pc tr : s_cevs s !! k = Some e -> c_triple e = (a, b, c) -> pxy A s a = Some pa -> pxy A s b = Some pb -> pxy A s c = Some pc ->
  exists cmds, plot_circle A k tr s = Val (s, cmds).
Proof.
  intros He Ht Ha Hb Hc. unfold plot_circle, bind at 1.
  assert (cevs_do (get_at k) s = Val (s, e)) as -> by (unfold cevs_do, zoom, get_at; rewrite He; by destruct s).
  rewrite Ht. unfold bind at 1. rewrite (point_xy_get s a pa Ha). unfold bind at 1. rewrite (point_xy_get s b pb Hb). unfold bind at 1. rewrite (point_xy_get s c pc Hc).
  unfold plot_sites, bind, read. cbn [or_list mmap]. unfold bind. rewrite (point_xy_get s a pa Ha), (point_xy_get s b pb Hb), (point_xy_get s c pc Hc). cbn. eauto.
Qed.
Lemma event_val s arg tr : event_known A s -> (forall k, arg <> EEvent (ECircle k)) -> exists cmds, plot_event A arg tr s = Val (s, cmds).
Proof.
  intros HE HN. unfold plot_event, bind, read. destruct arg as [|e|[]].
  - destruct (s_event s) as [[p|k]|] eqn:Ee; [by eexists| |by eexists]. destruct (HE k Ee) as (e & a & b & c & pa & pb & pc & H1 & H2 & H3' & H4 & H5). by eapply circle_val.
  - destruct e as [p|k]; [by eexists|by destruct (HN k)].
  - by eexists.
  - destruct (s_event s) as [[p|k]|] eqn:Ee; [by eexists| |by eexists]. destruct (HE k Ee) as (e & a & b & c & pa & pb & pc & H1 & H2 & H3' & H4 & H5). by eapply circle_val.
Qed.
Lemma arcs_total s cv order given show labels : (forall a, a ∈ order -> is_Some (arc_site A s a)) -> exists cmds, plot_arcs A cv order None given show labels s = Val (s, cmds).
Proof.
  intros HA. unfold plot_arcs. cbn [or_list]. set (xs := linspace A _ _ 1000). unfold bind at 1. cbn [read]. set (l := toF A _). clearbody l.
  assert (LX : length xs = 1000%nat) by (apply linspace_length; lia). assert (NX : xs <> []) by (intros E; rewrite E in LX; done).
  destruct (arc_lines_real s order xs l show NX HA) as (c1 & E1 & _). unfold bind at 1. rewrite E1. cbn [fst snd]. pose proof (omap_length_le (arc_ys s xs l) order) as LL. set (lines := omap (arc_ys s xs l) order) in *. clearbody lines.
  assert (HL : exists c, (if labels then plot_arc_labels A cv xs lines (bottom_of A lines (length xs)) l order else ret []) s = Val (s, c)).
  { destruct labels; [|by eexists]. unfold plot_arc_labels.
    match goal with |- exists c, mcat A ?f ?ls s = _ => destruct (mcat_val f (fun _ => True) ls s) as (c & E & _) end; [|by exists c].
    intros k Hk. apply elem_of_list_In, filter_In in Hk as [Hk _]. apply in_seq in Hk.
    destruct (lookup_lt_is_Some_2 order k (Nat.lt_le_trans _ _ _ (proj2 Hk) LL)) as [a Ha]. rewrite Ha. destruct (HA a ltac:(by eapply elem_of_list_lookup_2)) as [P HP].
    unfold arc_site in HP. destruct (s_arcs s !! a) as [ar|] eqn:Ear; [|done]. cbn in HP. unfold pxy in HP. destruct (s_points s !! a_origin ar) as [pp|] eqn:Ep; [|done].
    eexists. split; [unfold bind at 1; cbn [deref ret]; unfold bind at 1; rewrite (arcs_get s a ar Ear); unfold bind at 1; rewrite (points_get' s _ pp Ep); reflexivity|by repeat constructor]. }
  destruct HL as [c2 HL]. destruct lines; [by eexists|]. unfold bind at 1. rewrite HL. by eexists.
Qed.
Lemma all_total s b cv order f c1 c2 c3 c4 c5 :
  plot_edges A cv None None (fl_edge_labels A f) EDGE s = Val (s, c1) -> plot_border_to_site A cv None None s = Val (s, c2) ->
  plot_vertices A None s = Val (s, c3) -> plot_sites A None (fl_site_labels A f) CELL_POINTS s = Val (s, c4) -> plot_outgoing_edges A cv None (fl_scale A f) s = Val (s, c5) ->
  event_known A s -> (forall a, a ∈ order -> is_Some (arc_site A s a)) -> exists cmds, plot_all A b cv order f s = Val (s, cmds).
Proof.
  intros H1 H2 H3 H4 H5 HE HA. destruct (event_val s (EBool (fl_triangles A f)) false HE ltac:(done)) as [c6 H6]. destruct (arcs_total s cv order None (fl_arcs A f) (fl_arc_labels A f) HA) as [c7 H7].
  assert (HP : exists c, plot_polygon A b s = Val (s, c)) by (destruct b; by eexists). destruct HP as [c8 H8].
  assert (HW : forall (bb : bool) m c, m s = Val (s, c) -> exists c', when A bb m s = Val (s, c')) by (intros [] m c Hm; by eexists).
  unfold plot_all. destruct (HW (fl_sweep_line A f) (plot_sweep_line A cv None) _ eq_refl) as [d1 D1]. destruct (HW (fl_polygon A f) _ _ H8) as [d2 D2]. destruct (HW (fl_edges A f) _ _ H1) as [d3 D3].
  destruct (HW (fl_border_to_site A f) _ _ H2) as [d4 D4]. destruct (HW (fl_vertices A f) _ _ H3) as [d5 D5]. destruct (HW (fl_sites A f) _ _ H4) as [d6 D6].
  destruct (HW (fl_outgoing_edges A f) _ _ H5) as [d7 D7]. destruct (HW (fl_events A f) _ _ H6) as [d8 D8]. destruct (HW (fl_beach_line A f) _ _ H7) as [d9 D9].
  unfold bind at 1. rewrite D1. unfold bind at 1. rewrite D2. unfold bind at 1. rewrite D3. unfold bind at 1. rewrite D4. unfold bind at 1. rewrite D5. unfold bind at 1. rewrite D6.
  unfold bind at 1. rewrite D7. unfold bind at 1. rewrite D8. unfold bind at 1. rewrite D9. by eexists.
Qed.
End Draw.

Section DA.
Local Open Scope R_scope.
Context (xys : list (pt RArith)) (poly : polygon RArith) (HG : regular xys poly).
Notation A := RArith.
Notation corners := (pg_points A poly).
Let ND := r_distinct _ _ HG. Let HC := r_convex _ _ HG. Let H3 := r_corners _ _ HG.
Let LL := r_low _ _ HG. Let GP := r_generic _ _ HG. Let TP := reg_top xys poly HG. Let SI := r_inside _ _ HG. Let CI := r_center _ _ HG.
Local Notation PT p := (@lookup nat (pt RArith) (list (pt RArith)) (@list_lookup (pt RArith)) p xys) (only parsing).
Lemma corner_one c p q : In c corners -> nearest xys p c -> nearest xys q c -> p = q.
Proof. intros Hc. apply (r_corner _ _ HG). by apply elem_of_list_In. Qed.
Context fuel s (HD : create_diagram A poly false fuel xys (init_state A corners) = Val (s, tt)).
Notation low := (ll_sites xys poly LL).

Lemma da_edges cv given lb c : exists cmds, plot_edges A cv None given lb c s = Val (s, cmds) /\
  (forall z, on_line cmds c z <-> on_boundary corners z \/ ~ exterior corners z /\ exists p q, p <> q /\ nearest xys p z /\ nearest xys q z) /\
  forall m n1 n2, CLabel A (xpt_of A m) (TEdge n1 n2) ∈ cmds <-> lb = true /\ exists e f a b, e ∈ s_edges s /\ joins s e f a b /\ m = middle a b /\ n1 = edge_name s e /\ n2 = edge_name s f.
Proof. exact (final_edges xys poly ND HC H3 low (ll_inside xys poly LL) (ll_vertex xys poly LL) (gp_vertex xys poly GP) TP SI corner_one CI fuel s HD cv given lb c). Qed.
Lemma da_joined : joined s.
Proof. exact (proj1 (final_joined xys poly ND HC H3 low (ll_inside xys poly LL) (ll_vertex xys poly LL) (gp_vertex xys poly GP) TP SI corner_one CI fuel s HD)). Qed.
Lemma da_sides e f a b : e ∈ s_edges s -> joins s e f a b -> exists p, borders_site A s e = Some p /\
  ((borders_site A s f = None /\ forall z, on_segment a b z -> on_boundary corners z) \/ exists q, borders_site A s f = Some q /\ p <> q).
Proof. exact (final_sides xys poly ND HC H3 low (ll_inside xys poly LL) (ll_vertex xys poly LL) (gp_vertex xys poly GP) TP SI corner_one CI fuel s HD e f a b). Qed.
Lemma da_near e f a b p z : side_of s e -> joins s e f a b -> borders_site A s e = Some p -> on_segment a b z -> nearest xys p z /\ ~ exterior corners z.
Proof. exact (final_near xys poly ND HC H3 low (ll_inside xys poly LL) (ll_vertex xys poly LL) (gp_vertex xys poly GP) TP SI corner_one CI fuel s HD e f a b p z). Qed.
Lemma da_first p (P : rpt) : PT p = Some P -> exists y e f a b, s_points s !! p = Some y /\ p_first y = Some e /\ borders_site A s e = Some p /\ side_of s e /\ joins s e f a b.
Proof. exact (final_first xys poly ND HC H3 low (ll_inside xys poly LL) (ll_vertex xys poly LL) (gp_vertex xys poly GP) TP SI corner_one CI fuel s HD p P). Qed.
Lemma da_vset : (forall v, v ∈ s_vset s -> exists xy, located A s v xy) /\
  forall z, (exists v, v ∈ s_vset s /\ located A s v z) <-> In z corners \/ (on_boundary corners z /\ exists p q, p <> q /\ nearest xys p z /\ nearest xys q z) \/ (interior corners z /\ voronoi_vertex xys z).
Proof. exact (final_vset xys poly ND HC H3 low (ll_inside xys poly LL) (ll_vertex xys poly LL) (gp_vertex xys poly GP) TP SI corner_one fuel s HD). Qed.
Lemma da_outgoing v w e : v ∈ s_vset s -> s_verts s !! v = Some w -> e ∈ v_conn w -> (exists f a b, joins s e f a b /\ located A s v a) /\ side_of s e.
Proof. exact (final_outgoing xys poly ND HC H3 low (ll_inside xys poly LL) (ll_vertex xys poly LL) (gp_vertex xys poly GP) TP SI corner_one CI fuel s HD v w e). Qed.
Lemma da_swept : exists s0 idx hist, swept A xys corners s0 idx hist /\ s_sites s = seq 0 (length xys) /\ s_arcs s = s_arcs s0 /\ s_arcset s = s_arcset s0 /\ s_event s = s_event s0 /\ s_cevs s = s_cevs s0 /\ length (s_points s) = length (s_points s0) /\
    forall p x, s_points s0 !! p = Some x -> exists x', s_points s !! p = Some x' /\ p_xy x' = p_xy x /\ p_name x' = p_name x.
Proof.
  destruct (final_parts xys poly ND H3 low (ll_inside xys poly LL) (ll_vertex xys poly LL) (gp_vertex xys poly GP) TP fuel s HD) as (s0 & idx & hist & s1 & r & dead & p0 & s2 & ex & HSw & _ & _ & _ & _ & _ & _ & _ & _ & _ & _ & Hsi & X1 & X2 & X3 & X4 & _ & X5 & X6).
  exists s0, idx, hist. auto 12.
Qed.
Lemma da_points : p_xy <$> s_points s = xys.
Proof.
  destruct da_swept as (s0 & idx & hist & [HSw _] & _ & _ & _ & _ & _ & HL & HX). destruct (runs_corners A xys corners RArith_order (RArith_mid (fst <$> xys)) RArith_circle _ _ _ HSw) as (_ & _ & _ & HP & _).
  rewrite <- HP. apply list_eq. intros i. rewrite !list_lookup_fmap. destruct (s_points s0 !! i) as [x|] eqn:Ex.
  - destruct (HX i x Ex) as (x' & -> & E & _). simpl. by rewrite E.
  - apply lookup_ge_None in Ex. rewrite lookup_ge_None_2 by lia. done.
Qed.
Lemma da_place p (P : rpt) y : PT p = Some P -> s_points s !! p = Some y -> p_xy y = P.
Proof. intros HP Hy. rewrite <- da_points in HP. rewrite list_lookup_fmap, Hy in HP. by injection HP. Qed.
Lemma da_joins e a b : side_of s e -> runs_to s e a b -> exists f, joins s e f a b.
Proof.
  intros [He|(f & He & Ht)] Hr.
  - destruct (da_joined e He) as (f & a' & b' & T & _). destruct (runs_to_fun s e _ _ _ _ Hr (joins_runs _ _ _ _ _ T)) as [-> ->]. by exists f.
  - destruct (da_joined f He) as (g & a' & b' & T & _). assert (g = e) as -> by (destruct T as (T & _); congruence). apply joins_sym in T. destruct (runs_to_fun s e _ _ _ _ Hr (joins_runs _ _ _ _ _ T)) as [-> ->]. by exists f.
Qed.
End DA.
