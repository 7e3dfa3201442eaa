(* PropVisual.v -- what the Visualizer draws: the beach line (C51) and the edges during the sweep
   (C52); drawing changes nothing (C53); the arguments of the plot functions (C54). *)
From stdpp Require Import base list sets.
From Coq Require Import ZArith Reals Lra Lia.
From Verif Require Import Arith Geom Monad State Sweep TreeProofs Finish Circle SweepBase Spec Heapq Tree Beach Dcel SweepInv SweepLoop SweepFacts FinishFacts RArith GeomReal SweepReal SweepRealLoop SweepRealFacts SweepTotal SpecVoronoi
  EnvelopeFacts PropSweep PropFinish PropVoronoi PropEnvelope Visual VisualReal SpecVisual VisualEdges VisualFacts.
Local Open Scope R_scope.

(* ---------- C51 ---------- *)
(* Between two events, when some site seen so far is above the sweep line: plot_arcs draws one
   curve in the color of the beach line, with 1000 points spread over the width of the canvas,
   and each of them is as far from the sweep line as from the nearest site seen so far. *)
Theorem C51_beach_line (xys corners : list (pt RArith)) s index hist l given cv order show_arcs show_labels : NoDup xys ->
  runs RArith xys corners s index hist -> between_events s l -> uses_line s given l -> order ≡ₚ s_arcset s ->
  (exists p (P : rpt), passed hist p /\ xys !! p = Some P /\ l < snd P) ->
  exists cmds curve, plot_arcs RArith cv order None given show_arcs show_labels s = Val (s, cmds) /\ beach_curve cmds curve /\ length curve = 1000%nat /\
    forall i x y, curve !! i = Some (x, y) -> x = cv_min_x RArith cv + INR i * (cv_max_x RArith cv - cv_min_x RArith cv) / 999 /\ l < y /\
      (forall q (Q : rpt), passed hist q -> xys !! q = Some Q -> (y - l) * (y - l) <= dist2 Q (x, y)) /\
      exists q (Q : rpt), passed hist q /\ xys !! q = Some Q /\ dist2 Q (x, y) = (y - l) * (y - l).
Proof.
  intros ND HR HB HU HO Hab. destruct (runs_reach RArith xys corners RArith_order (RArith_mid _) RArith_circle _ _ _ HR) as [(_ & _ & ->)|(t & dn & HR' & _)].
  { destruct Hab as (p & P & Hp & _). by apply elem_of_nil in Hp. }
  assert (EH : forall p, p ∈ dn <-> passed hist p) by (intros p; unfold passed; by rewrite (f_hist _ _ _ _ _ _ _ (reach_facts RArith xys corners RArith_order _ _ _ _ HR'))).
  destruct (drawn_arcs xys corners ND s t dn hist l given cv order show_arcs show_labels HR' HB HU HO) as (c1 & c2 & curve & E & HC & HL & HX).
  { destruct Hab as (p & P & Hp & X). exists p, P. split; [by apply EH|done]. }
  eexists _, curve. split; [exact E|]. split.
  { intros d c. split.
    - intros [H|[H|H]%elem_of_cons]%elem_of_app; [|by injection H as -> ->|]; exfalso; apply (HC (CCurve RArith BEACH_LINE d c)); rewrite ?elem_of_app; eauto; unfold beach_cmd; eauto.
    - intros [-> ->]. apply elem_of_app. right. left. }
  split; [done|]. intros i x y Hi. destruct (HX i x y Hi) as (H1 & H2 & H3 & q & Q & H4 & H5 & H6). split; [done|]. split; [done|]. split.
  - intros q' Q' Hq'. apply H3. by apply EH.
  - exists q, Q. split; [by apply EH|done].
Qed.
Print Assumptions C51_beach_line.

(* ---------- C52 ---------- *)
(* plot_edges during the sweep, with nothing left to happen above the line: it draws only points
   with two nearest sites (below the top of the canvas), and all of those that lie behind the
   beach line between sites already seen -- unless the top of the canvas is at y = 0. *)
Theorem C52_edges (xys corners : list (pt RArith)) s index hist l given cv show_labels c : NoDup xys ->
  runs RArith xys corners s index hist -> quiet xys s hist l -> uses_line s given l ->
  exists cmds, plot_edges RArith cv None given show_labels c s = Val (s, cmds) /\
    (forall z, on_line cmds c z -> snd z < cv_max_y RArith cv -> exists p q, p <> q /\ nearest xys p z /\ nearest xys q z) /\
    (forall p q z, p <> q -> nearest xys p z -> nearest xys q z -> passed hist p -> passed hist q -> above_arc xys l p z ->
       snd z <= cv_max_y RArith cv -> cv_max_y RArith cv <> 0 -> on_line cmds c z).
Proof. intros ND. exact (drawn_edges xys corners ND s index hist l given cv show_labels c). Qed.
Print Assumptions C52_edges.
(* right after an event, the sweep line is such a line *)
Theorem C52_now (xys corners : list (pt RArith)) s index hist l : NoDup xys -> runs RArith xys corners s index hist ->
  hist <> [] -> s_sweep s = Some l -> quiet xys s hist l.
Proof.
  intros ND HR HN Hl. split; [exact (between_now xys corners ND s index hist l HR HN Hl)|]. intros q Q HQ Hn.
  destruct (runs_reach RArith xys corners RArith_order (RArith_mid _) RArith_circle _ _ _ HR) as [(_ & _ & ->)|(t & dn & HR' & _)]; [done|].
  pose proof (reach_facts RArith xys corners RArith_order _ _ _ _ HR') as F.
  destruct (reach_geo xys corners ND _ _ _ _ HR') as (l' & Hsw & HB & _). assert (l' = l) as -> by congruence.
  destruct (f_all _ _ _ _ _ _ _ F q) as [Hd|(i & Hi & Ei)]; [by eapply lookup_lt_Some|exfalso; apply Hn; unfold passed; by rewrite (f_hist _ _ _ _ _ _ _ F) in Hd|].
  pose proof (HB _ Hi) as HY. pose proof (i_queue _ _ _ _ _ (f_inv _ _ _ _ _ _ _ F) i Hi) as HQi. rewrite Ei in HQi. destruct HQi as (_ & [_ HX] & _).
  rewrite (pxy_pts RArith xys s _ (f_pts _ _ _ _ _ _ _ F)) in HX. assert (E : Q = (i_x i, i_y i)) by (eapply pt_eq; eassumption). rewrite E. exact HY.
Qed.
Print Assumptions C52_now.

(* two sites, right after the second event: both drawings have something to show *)
Example C51_C52_case : exists s index hist l, runs RArith duo [] s index hist /\ quiet duo s hist l /\ uses_line s None l /\
  passed hist 0 /\ passed hist 1 /\ l < snd (0, 2) /\ nearest duo 0 (0, 1) /\ nearest duo 1 (0, 1) /\ above_arc duo l 0 (0, 1).
Proof.
  destruct C42_C48_case as (s & index & hist & L & n1 & b1 & n2 & b2 & n3 & l0 & HR & _ & _ & _ & _ & _ & _ & _ & _ & _ & P0 & P1).
  assert (HN : hist <> []) by (intros ->; by apply elem_of_nil in P0).
  destruct (runs_reach RArith duo [] RArith_order (RArith_mid _) RArith_circle _ _ _ HR) as [(_ & _ & ->)|(t & dn & HR' & _)]; [done|].
  destruct (reach_geo duo [] duo_nodup _ _ _ _ HR') as (l & Hsw & _). pose proof (C52_now duo [] s index hist l duo_nodup HR HN Hsw) as HQ.
  pose proof (passed_above duo [] duo_nodup s index hist l 0 (0, 0) HR (proj1 HQ) P0 eq_refl) as Hl. cbn [snd] in Hl. change (D RArith) with R in *.
  exists s, index, hist, l. split; [done|]. split; [done|]. split; [by left|]. split; [done|]. split; [done|]. split; [cbn; lra|].
  split; [|split].
  - exists (0, 0). split; [done|]. intros r Hr. unfold duo in Hr. rewrite !elem_of_cons, elem_of_nil in Hr. destruct Hr as [-> |[-> |[]]]; unfold dist2; cbn; lra.
  - exists (0, 2). split; [done|]. intros r Hr. unfold duo in Hr. rewrite !elem_of_cons, elem_of_nil in Hr. destruct Hr as [-> |[-> |[]]]; unfold dist2; cbn; lra.
  - exists (0, 0). split; [done|]. unfold dist2; cbn. split; [lra|]. nra.
Qed.

(* ---------- C53 ---------- *)
(* drawing changes no object: it leaves the whole state as it was *)
Theorem C53_drawing_changes_nothing (A : Arith) b cv order f s s' cmds : plot_all A b cv order f s = Val (s', cmds) -> s' = s.
Proof. exact (ro_plot_all A b cv order f s s' cmds). Qed.
Print Assumptions C53_drawing_changes_nothing.

Example C53_case : exists s index hist cmds, runs RArith duo [] s index hist /\
  plot_all RArith (BPoly RArith square) (canvas_size RArith (BPoly RArith square) 1) [] (mkFlags RArith true true false false false false 1 true false false false true false false false) s = Val (s, cmds).
Proof.
  destruct C51_C52_case as (s & index & hist & l & HR & HQ & HU & _).
  destruct (C52_edges duo [] s index hist l None (canvas_size RArith (BPoly RArith square) 1) true EDGE duo_nodup HR HQ HU) as (cmds & E & _).
  eexists s, index, hist, _. split; [done|]. unfold plot_all, when. cbn [fl_polygon fl_edges fl_vertices fl_sites fl_outgoing_edges fl_border_to_site fl_scale fl_edge_labels fl_site_labels fl_triangles fl_arcs fl_sweep_line fl_events fl_arc_labels fl_beach_line].
  do 2 (erewrite bind_val by reflexivity). erewrite bind_val by exact E. reflexivity.
Qed.

(* ---------- C54 ---------- *)
Definition without_events (A : Arith) (f : flags A) : flags A :=
  mkFlags A (fl_polygon A f) (fl_edges A f) (fl_vertices A f) (fl_sites A f) (fl_outgoing_edges A f) (fl_border_to_site A f) (fl_scale A f) (fl_edge_labels A f)
    (fl_site_labels A f) (fl_triangles A f) (fl_arcs A f) (fl_sweep_line A f) false (fl_arc_labels A f) (fl_beach_line A f).
Lemma bind_ext {S X Y} (m : M S X) (k1 k2 : X -> M S Y) s : (forall s' x, k1 x s' = k2 x s') -> bind m k1 s = bind m k2 s.
Proof. intros H. unfold bind. destruct (m s) as [[s' x]|]; [apply H|done]. Qed.
(* plot_all(events=True, triangles=True) draws no event at all: neither the circle nor its triangle *)
Theorem C54_triangles_refuted (A : Arith) b cv order f s : fl_triangles A f = true -> plot_all A b cv order f s = plot_all A b cv order (without_events A f) s.
Proof.
  intros HT. unfold plot_all. cbn. rewrite HT. do 7 (apply bind_ext; intros ? ?). unfold when. destruct (fl_events A f); [|done].
  done.
Qed.
Print Assumptions C54_triangles_refuted.
(* the value 0 for sweep_line is ignored *)
Theorem C54_sweep_line_zero_refuted (cv : canvas RArith) s order arcs edges show labels c :
  plot_sweep_line RArith cv (Some 0) s = plot_sweep_line RArith cv None s /\
  plot_edges RArith cv edges (Some 0) labels c s = plot_edges RArith cv edges None labels c s /\
  plot_border_to_site RArith cv edges (Some 0) s = plot_border_to_site RArith cv edges None s /\
  plot_arcs RArith cv order arcs (Some 0) show labels s = plot_arcs RArith cv order arcs None show labels s.
Proof.
  assert (E : or_sweep RArith (Some 0) = or_sweep RArith None) by (assert (X : deqb RArith 0 (dZ RArith 0) = true) by (by apply Reqb_true); unfold or_sweep; by rewrite X).
  unfold plot_sweep_line, plot_edges, plot_border_to_site, plot_arcs. rewrite E. auto.
Qed.
Print Assumptions C54_sweep_line_zero_refuted.
(* any other value is used *)
Theorem C54_sweep_line (cv : canvas RArith) s l : l <> 0 -> plot_sweep_line RArith cv (Some l) s = Val (s, [CHorizontal RArith SWEEP_LINE (cv_min_x RArith cv) (cv_max_x RArith cv) (Some l)]).
Proof. intros H. assert (X : deqb RArith l (dZ RArith 0) = false) by (destruct (deqb RArith l (dZ RArith 0)) eqn:X; [apply Reqb_true in X; done|done]). unfold plot_sweep_line, or_sweep. by rewrite X. Qed.
(* a BoundingCircle is drawn around (x, x) instead of its centre (x, y) *)
Theorem C54_circle_outline_refuted : exists (c : circle RArith), forall s : state RArith, exists z r,
  plot_polygon RArith (BCircle RArith c) s = Val (s, [CCircle RArith BOUNDING_BOX z r]) /\ z <> (ci_x c, ci_y c).
Proof. exists (mkCircle (A:=RArith) 0 1 2). intros s. exists (0, 0), 2. split; [done|]. cbn. intros [= E]. lra. Qed.
Print Assumptions C54_circle_outline_refuted.
Theorem C54_polygon_outline (A : Arith) p s : plot_polygon A (BPoly A p) s = Val (s, [CPolygon A BOUNDING_BOX (pg_points A p)]).
Proof. done. Qed.
