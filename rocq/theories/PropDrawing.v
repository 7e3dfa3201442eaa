(* PropDrawing.v -- C59: what the Visualizer shows of a finished diagram.  Exact arithmetic. *)
From stdpp Require Import base list sets.
From Coq Require Import ZArith Reals Lra Lia Psatz.
From Verif Require Import Arith Geom Monad Tree Heapq State Sweep Finish SweepBase SweepLoop Spec SpecFinish SweepFacts RArith GeomReal AreaReal PolyReal ConvexReal CircleReal FinishReal EdgeReal VoronoiGeom
  VoronoiStep SpecVoronoi VoronoiFacts SpecClip FinishFacts FinishMain DiagramFacts PropSweep PropFinish PropEnvelope PropReal PropGeom PropVoronoi PropClip PropCells Visual VisualReal SpecVisual VisualEdges CellBorder CellDraw DrawAll.
Local Open Scope R_scope.

(* ---------- C59 ---------- *)
(* the lines of plot_edges: the outline of the polygon, and the Voronoi edges in it *)
Theorem C59_edge_lines (xys : list (pt RArith)) (poly : polygon RArith) fuel s cv given labels c : regular xys poly ->
  create_diagram RArith poly false fuel xys (init_state RArith (pg_points RArith poly)) = Val (s, tt) ->
  exists cmds, plot_edges RArith cv None given labels c s = Val (s, cmds) /\
    forall z : rpt, on_line cmds c z <-> on_boundary (pg_points RArith poly) z \/
      (~ exterior (pg_points RArith poly) z /\ exists p q, p <> q /\ nearest xys p z /\ nearest xys q z).
Proof. intros HG HD. destruct (da_edges xys poly HG fuel s HD cv given labels c) as (cmds & E & H & _). eauto. Qed.
Print Assumptions C59_edge_lines.

(* its labels: one at the middle of each edge, with the names of two sites nearest to that point, or
   of one if the edge is on the outline *)
Theorem C59_edge_labels (xys : list (pt RArith)) (poly : polygon RArith) fuel s cv given c : regular xys poly ->
  create_diagram RArith poly false fuel xys (init_state RArith (pg_points RArith poly)) = Val (s, tt) ->
  exists cmds, plot_edges RArith cv None given true c s = Val (s, cmds) /\
    (forall e a b, e ∈ s_edges s -> runs_to s e a b -> exists n1 n2, CLabel RArith (xpt_of RArith (middle a b)) (TEdge n1 n2) ∈ cmds) /\
    forall z n1 n2, CLabel RArith (xpt_of RArith z) (TEdge n1 n2) ∈ cmds ->
      (exists e a b, e ∈ s_edges s /\ runs_to s e a b /\ z = middle a b) /\
      exists p, n1 = site_name s p /\ nearest xys p z /\
        ((n2 = None /\ on_boundary (pg_points RArith poly) z) \/ exists q, q <> p /\ n2 = site_name s q /\ nearest xys q z).
Proof.
  intros HG HD. destruct (da_edges xys poly HG fuel s HD cv given true c) as (cmds & E & _ & H). exists cmds. split; [done|]. split.
  - intros e a b He Hr. destruct (da_joined xys poly HG fuel s HD e He) as (f & a' & b' & T & _). destruct (runs_to_fun s e _ _ _ _ Hr (joins_runs _ _ _ _ _ T)) as [-> ->].
    exists (edge_name s e), (edge_name s f). apply H. split; [done|]. by exists e, f, a', b'.
  - intros z n1 n2 Hin. apply H in Hin as (_ & e & f & a & b & He & T & -> & -> & ->). split; [exists e, a, b; split; [done|]; split; [by eapply joins_runs|done]|].
    assert (HM : on_segment a b (middle a b)). { exists (1 / 2). split; [lra|]. unfold middle. f_equal; lra. }
    destruct (da_sides xys poly HG fuel s HD e f a b He T) as (p & Hp & HX). exists p. split; [unfold edge_name; by rewrite Hp|].
    split; [exact (proj1 (da_near xys poly HG fuel s HD e f a b p _ (or_introl He) T Hp HM))|].
    destruct HX as [[Hf HX]|(q & Hf & N)]; [left; split; [unfold edge_name; by rewrite Hf|by apply HX]|right; exists q]. split; [done|]. split; [unfold edge_name; by rewrite Hf|].
    apply (da_near xys poly HG fuel s HD f e b a q _); [right; exists e; split; [done|apply T]|by apply joins_sym|done|by apply segment_sym].
Qed.
Print Assumptions C59_edge_labels.

(* plot_sites: a dot at every site, in the order given, and its name *)
Theorem C59_sites (xys : list (pt RArith)) (poly : polygon RArith) fuel s labels c : regular xys poly ->
  create_diagram RArith poly false fuel xys (init_state RArith (pg_points RArith poly)) = Val (s, tt) ->
  plot_sites RArith None labels c s = Val (s, CScatter RArith c xys ::
    if labels then imap (fun p P => CLabel RArith (xpt_of RArith P) (TSite (site_name s p))) xys else []).
Proof.
  intros HG HD. destruct (da_swept xys poly HG fuel s HD) as (s0 & idx & hist & _ & Hsi & _). apply sites_val; [done|exact (da_points xys poly HG fuel s HD)].
Qed.
Print Assumptions C59_sites.
(* the name of a site is its place in reading order: from top to bottom, then from left to right *)
Theorem C59_names (xys : list (pt RArith)) (poly : polygon RArith) fuel s : regular xys poly ->
  create_diagram RArith poly false fuel xys (init_state RArith (pg_points RArith poly)) = Val (s, tt) ->
  (forall p, (p < length xys)%nat -> exists i, (i < length xys)%nat /\ site_name s p = Some i) /\
  forall p q i j (P Q : rpt), xys !! p = Some P -> xys !! q = Some Q -> site_name s p = Some i -> site_name s q = Some j ->
    (i < j)%nat <-> snd Q < snd P \/ (snd Q = snd P /\ fst P < fst Q).
Proof.
  intros HG HD. destruct (da_swept xys poly HG fuel s HD) as (s0 & idx & hist & HSw & _ & _ & _ & _ & _ & _ & HX).
  destruct (C03_site_order RArith xys (pg_points RArith poly) s0 idx hist (lawful_real xys) HSw) as (order & _ & HPm & _ & _ & HO & HN).
  assert (HL : length order = length xys) by (by rewrite HPm, seq_length).
  assert (HI : forall p, (p < length xys)%nat -> exists i, order !! i = Some p /\ site_name s p = Some i).
  { intros p Hp. assert (Hin : p ∈ order) by (rewrite HPm; apply elem_of_seq; lia). apply elem_of_list_lookup in Hin as [i Hi]. exists i. split; [done|].
    destruct (HN i p Hi) as (x & X1 & X2). destruct (HX p x X1) as (x' & Y1 & _ & Y2). unfold site_name. rewrite Y1. simpl. congruence. }
  split.
  - intros p Hp. destruct (HI p Hp) as (i & H1 & H2). exists i. split; [|done]. rewrite <- HL. by eapply lookup_lt_Some.
  - intros p q i j P Q HP HQ Hi Hj.
    destruct (HI p (lookup_lt_Some xys p P HP)) as (i' & I1 & I2). destruct (HI q (lookup_lt_Some xys q Q HQ)) as (j' & J1 & J2). rewrite Hi in I2. injection I2 as <-. rewrite Hj in J2. injection J2 as <-.
    assert (K : forall p q i j (P Q : rpt), xys !! p = Some P -> xys !! q = Some Q -> order !! i = Some p -> order !! j = Some q -> (i < j)%nat -> snd Q < snd P \/ (snd Q = snd P /\ fst P < fst Q)).
    { clear - HG HO HPm. intros p q i j P Q HP HQ Hi Hj L. destruct (HO i j p q P Q L Hi Hj HP HQ) as [X|[X Y]]; [left; by apply Rltb_true in X|]. apply Reqb_true in X.
      destruct (Rlt_le_dec (snd Q) (snd P)) as [Z|Z]; [by left|right]. split; [done|]. apply Rltb_false in Y.
      assert (N : P <> Q). { intros ->. assert (p = q) as -> by (apply (NoDup_lookup xys p q Q (r_distinct _ _ HG) HP HQ)). assert (NDo : NoDup order) by (rewrite HPm; apply NoDup_seq). pose proof (NoDup_lookup order i j q NDo Hi Hj). lia. }
      destruct (Rle_lt_or_eq_dec _ _ Y) as [E|E]; [exact E|]. exfalso. apply N. destruct P, Q. cbn in *. congruence. }
    split; [by apply (K p q)|]. intros HPQ. destruct (lt_eq_lt_dec i j) as [[?| ->]|L]; [done| |].
    + assert (p = q) as -> by congruence. pose proof (eq_trans (eq_sym HP) HQ) as X. injection X as ->. lra.
    + pose proof (K q p j i Q P HQ HP J1 I1 L). lra.
Qed.
Print Assumptions C59_names.

(* plot_vertices: the corners of the polygon, the points of the outline with two nearest sites, and
   the Voronoi vertices inside *)
Theorem C59_vertices (xys : list (pt RArith)) (poly : polygon RArith) fuel s : regular xys poly ->
  create_diagram RArith poly false fuel xys (init_state RArith (pg_points RArith poly)) = Val (s, tt) ->
  exists l, plot_vertices RArith None s = Val (s, [CScatter RArith VERTICES l]) /\
    forall z : rpt, z ∈ l <-> In z (pg_points RArith poly) \/
      (on_boundary (pg_points RArith poly) z /\ exists p q, p <> q /\ nearest xys p z /\ nearest xys q z) \/
      (interior (pg_points RArith poly) z /\ voronoi_vertex xys z).
Proof.
  intros HG HD. destruct (da_vset xys poly HG fuel s HD) as [H1 H2]. destruct (vertices_val s H1) as (l & E & _ & HL). exists l. split; [done|]. intros z. rewrite HL. apply H2.
Qed.
Print Assumptions C59_vertices.

(* plot_border_to_site: from the middle of each half-edge a line to the site on its side, which is a
   nearest site of that middle; one of the lines to each site has the color of its first edge *)
Theorem C59_pointers (xys : list (pt RArith)) (poly : polygon RArith) fuel s cv given : regular xys poly ->
  create_diagram RArith poly false fuel xys (init_state RArith (pg_points RArith poly)) = Val (s, tt) ->
  exists cmds, plot_border_to_site RArith cv None given s = Val (s, cmds) /\
    (forall e a b p (P : rpt), side_of s e -> runs_to s e a b -> borders_site RArith s e = Some p -> xys !! p = Some P ->
       exists c, CPointer RArith c (xpt_of RArith (middle a b)) P ∈ cmds) /\
    (forall c m P, CPointer RArith c m P ∈ cmds -> exists e a b p, side_of s e /\ runs_to s e a b /\ borders_site RArith s e = Some p /\
       m = xpt_of RArith (middle a b) /\ xys !! p = Some P /\ nearest xys p (middle a b) /\ ~ exterior (pg_points RArith poly) (middle a b)) /\
    forall p (P : rpt), xys !! p = Some P -> exists! z : rpt, CPointer RArith FIRST_EDGE (xpt_of RArith z) P ∈ cmds.
Proof.
  intros HG HD. destruct (pointers_val s cv given (da_joined xys poly HG fuel s HD)) as (cmds & E & H). exists cmds. split; [done|].
  pose proof (da_points xys poly HG fuel s HD) as HPT.
  assert (HY : forall p y, s_points s !! p = Some y -> xys !! p = Some (p_xy y)) by (intros p y Hy; rewrite <- HPT, list_lookup_fmap, Hy; done).
  split; [|split].
  - intros e a b p P He Hr Hs' HP. destruct (da_joins xys poly HG fuel s HD e a b He Hr) as [f T].
    destruct (da_first xys poly HG fuel s HD p P HP) as (y & _ & _ & _ & _ & Hy & _). eexists. apply H. exists e, f, a, b, p, y. do 4 (split; [done|]). unfold pointer_cmd. rewrite (da_place xys poly HG fuel s HD p P y HP Hy). done.
  - intros c m P Hin. apply H in Hin as (e & f & a & b & p & y & He & T & Hp & Hy & X). unfold pointer_cmd in X.
    assert (X1 : m = xpt_of RArith (middle a b)) by (exact (f_equal (fun x : cmd RArith => match x with CPointer _ _ m _ => m | _ => m end) X)). assert (X2 : P = p_xy y) by (exact (f_equal (fun x : cmd RArith => match x with CPointer _ _ _ P' => (P' : pt RArith) | _ => P end) X)).
    exists e, a, b, p. split; [done|]. split; [by eapply joins_runs|]. split; [done|]. split; [done|]. split; [rewrite X2; by apply HY|].
    apply (da_near xys poly HG fuel s HD e f a b p _ He T Hp). exists (1 / 2). split; [lra|]. unfold middle. f_equal; lra.
  - intros p P HP. destruct (da_first xys poly HG fuel s HD p P HP) as (y & e & f & a & b & Hy & Hf & Hs' & He & T). exists (middle a b). split.
    + apply H. exists e, f, a, b, p, y. do 4 (split; [done|]). unfold pointer_cmd. rewrite (da_place xys poly HG fuel s HD p P y HP Hy). rewrite bool_decide_true by done. done.
    + intros z Hz. apply H in Hz as (e' & f' & a' & b' & p' & y' & He' & T' & Hp' & Hy' & X). unfold pointer_cmd in X.
      assert (X1 : xpt_of RArith z = xpt_of RArith (middle a' b')) by (exact (f_equal (fun x : cmd RArith => match x with CPointer _ _ m _ => m | _ => xpt_of RArith z end) X)). assert (X2 : P = p_xy y') by (exact (f_equal (fun x : cmd RArith => match x with CPointer _ _ _ P' => (P' : pt RArith) | _ => P end) X)).
      assert (X3 : FIRST_EDGE = if bool_decide (p_first y' = Some e') then FIRST_EDGE else INCIDENT_POINT_POINTER) by (exact (f_equal (fun x : cmd RArith => match x with CPointer _ c _ _ => c | _ => FIRST_EDGE end) X)).
      case_bool_decide as HF; [|done]. assert (p' = p) as ->. { pose proof (HY p' y' Hy') as K. rewrite <- X2 in K. exact (NoDup_lookup xys p' p P (r_distinct _ _ HG) K HP). }
      assert (y' = y) as -> by congruence. assert (e' = e) as -> by congruence. destruct (joins_fun _ _ _ _ _ _ _ _ T T') as (_ & -> & ->). symmetry. by apply xpt_inj.
Qed.
Print Assumptions C59_pointers.

(* plot_outgoing_edges: one arrow of length scale along each half-edge, from where it starts *)
Theorem C59_arrows (xys : list (pt RArith)) (poly : polygon RArith) fuel s cv scale : regular xys poly ->
  create_diagram RArith poly false fuel xys (init_state RArith (pg_points RArith poly)) = Val (s, tt) ->
  exists cmds, plot_outgoing_edges RArith cv None scale s = Val (s, cmds) /\
    forall a t, CArrow RArith a t ∈ cmds <-> exists e b, side_of s e /\ runs_to s e a b /\ a <> b /\ t = ahead_by a b scale.
Proof.
  intros HG HD. assert (HO : outgoing s).
  { intros v Hv. destruct (proj1 (da_vset xys poly HG fuel s HD) v Hv) as (z & w & Hw & _). exists w. split; [done|]. intros e He. destruct (da_outgoing xys poly HG fuel s HD v w e Hv Hw He) as [(f & a & b & T & _) _]. by exists f, a, b. }
  destruct (arrows_val s cv scale HO) as (cmds & E & H). exists cmds. split; [done|]. intros a t. rewrite H. split.
  - intros (v & e & f & a' & b & Hv & He & T & N & X). injection X as X1 X2. assert (a = a') as <- by (destruct a, a'; cbn in *; congruence). exists e, b. split; [|split; [by eapply joins_runs|split; [done|by destruct t]]].
    unfold connected in He. destruct (s_verts s !! v) as [w|] eqn:Ew; [|by apply elem_of_nil in He]. exact (proj2 (da_outgoing xys poly HG fuel s HD v w e Hv Ew He)).
  - intros (e & b & He & Hr & N & ->). destruct (da_joins xys poly HG fuel s HD e a b He Hr) as [f T].
    assert (exists v, v ∈ s_vset s /\ e ∈ connected RArith s v) as (v & Hv & Hc).
    { destruct (da_swept xys poly HG fuel s HD) as (s0 & idx & hist & HSw & _). pose proof (r_corners _ _ HG) as H3. pose proof (proj1 (reg_top xys poly HG)) as Ht. assert (1 <= length xys)%nat as L1 by (destruct xys; [done|simpl; lia]).
      destruct (C43_finished RArith xys (pg_points RArith poly) poly fuel s (lawful_real xys) L1 ltac:(lia) HD) as [_ HA].
      destruct He as [He|(g & Hg & Htw)].
      - destruct (HA e He) as (t & v & u & xy & xy' & _ & (_ & _ & A1) & A2 & _). by exists v.
      - destruct (HA g Hg) as (t & v & u & xy & xy' & T1 & _ & _ & (_ & _ & A1) & A2). assert (t = e) as -> by congruence. by exists u. }
    exists v, e, f, a, b. done.
Qed.
Print Assumptions C59_arrows.
Lemma ahead_length (a b : rpt) d : a <> b -> dist2 a (ahead_by a b d) = d * d /\ (0 <= d -> exists k, 0 <= k /\ ahead_by a b d = SpecVoronoi.walk a k (fst b - fst a, snd b - snd a)).
Proof.
  intros N. pose proof (dist2_pos _ _ N) as HP. pose proof (sqrt_lt_R0 _ HP) as HS. split.
  - pose proof (sqrt_sqrt (dist2 a b) (Rlt_le _ _ HP)) as HQ. unfold ahead_by. set (r := sqrt (dist2 a b)) in *. clearbody r. destruct a as [x y], b as [x' y']. unfold dist2, SpecVoronoi.walk in *. cbn [fst snd] in *.
    assert (E : d = d / r * r) by (field; lra). set (k := d / r) in *. clearbody k. rewrite E. replace (k * r * (k * r)) with (k * k * (r * r)) by ring. rewrite HQ. ring.
  - intros Hd. exists (d / sqrt (dist2 a b)). split; [|done]. apply Rmult_le_pos; [done|]. apply Rlt_le, Rinv_0_lt_compat. done.
Qed.

(* plot_all with any flags: it returns, whatever the order in which the set of arcs is listed *)
Theorem C59_plot_all (xys : list (pt RArith)) (poly : polygon RArith) fuel s b cv order flags : regular xys poly ->
  create_diagram RArith poly false fuel xys (init_state RArith (pg_points RArith poly)) = Val (s, tt) ->
  order ≡ₚ s_arcset s -> exists cmds, plot_all RArith b cv order flags s = Val (s, cmds).
Proof.
  intros HG HD HO. destruct (da_swept xys poly HG fuel s HD) as (s0 & idx & hist & HSw & _ & E1 & E2 & E3 & E4 & _ & HX).
  destruct (C59_edge_lines xys poly fuel s cv None (fl_edge_labels RArith flags) EDGE HG HD) as (c1 & H1 & _). destruct (C59_pointers xys poly fuel s cv None HG HD) as (c2 & H2 & _).
  destruct (C59_vertices xys poly fuel s HG HD) as (c3 & H3 & _). pose proof (C59_sites xys poly fuel s (fl_site_labels RArith flags) CELL_POINTS HG HD) as H4. destruct (C59_arrows xys poly fuel s cv (fl_scale RArith flags) HG HD) as (c5 & H5 & _).
  assert (HP : forall p z, pxy RArith s0 p = Some z -> pxy RArith s p = Some z).
  { intros p z. unfold pxy. destruct (s_points s0 !! p) as [x|] eqn:Ex; [|done]. destruct (HX p x Ex) as (x' & -> & X & _). simpl. congruence. }
  destruct (runs_reach RArith xys (pg_points RArith poly) RArith_order (RArith_mid (fst <$> xys)) RArith_circle _ _ _ (proj1 HSw)) as [((q & Hq & HQ & _) & _ & ->)|(t & dn & HR & _)].
  { assert (EA : s_arcset s0 = []) by (by rewrite Hq). assert (EV : s_event s0 = None) by (by rewrite Hq). eapply all_total; eauto.
    - intros k Hk. congruence.
    - intros a. rewrite HO, E2, EA. by intros ?%elem_of_nil. }
  eapply all_total; eauto.
  - intros k Hk. rewrite E3 in Hk. destruct (event_reach RArith xys (pg_points RArith poly) s0 t dn hist HR k Hk) as (e & a & b0 & c & pa & pb & pc & K1 & K2 & K3 & K4 & K5). exists e, a, b0, c, pa, pb, pc. rewrite E4. auto 10.
  - intros a. rewrite HO, E2. intros Ha. destruct (arc_site_reach xys (pg_points RArith poly) s0 t dn hist a HR Ha) as (p & P & _ & _ & K). exists P.
    unfold arc_site in *. rewrite E1. destruct (s_arcs s0 !! a) as [ar|]; [|done]. cbn in *. by apply HP.
Qed.
Print Assumptions C59_plot_all.

(* three sites in a box: the line at (1, 0) between sites 0 and 1 and the outline are drawn, (0, 0) is
   not on a line; site 2 is called 0; the Voronoi vertex (1, 1) is shown; everything can be drawn *)
Example C59_case : exists box s, bounding_box RArith (-1) 3 (-1) 4 = Val box /\ regular tri box /\
  create_diagram RArith box false 22 tri (init_state RArith (pg_points RArith box)) = Val (s, tt) /\
  forall cv, (exists cmds, plot_edges RArith cv None None true EDGE s = Val (s, cmds) /\ on_line cmds EDGE (1, 0) /\ on_line cmds EDGE (3, 0) /\ ~ on_line cmds EDGE (0, 0)) /\
  site_name s 2 = Some 0%nat /\ (exists l, plot_vertices RArith None s = Val (s, [CScatter RArith VERTICES l]) /\ (1, 1) ∈ l) /\
  exists cmds, plot_all RArith (BPoly RArith box) cv (s_arcset s) (mkFlags RArith true true true true true true 1 true true true true true true true true) s = Val (s, cmds).
Proof.
  destruct (bounding_box_R (-1) 3 (-1) 4) as (box & HB & HL & _); [lra..|]. pose proof (tri_regular box HB) as HG. destruct (tri_runs box HB) as [s HD]. exists box, s. do 3 (split; [done|]). intros cv.
  split; [|split; [|split]].
  - destruct (C59_edge_lines tri box 22 s cv None true EDGE HG HD) as (cmds & E & H). exists cmds. split; [done|]. split; [|split].
    + apply H. right. split; [rewrite HL; apply box_exterior; [lra..|]; unfold in_box; cbn [fst snd]; lra|]. exists 0%nat, 1%nat. split; [done|].
      split; [apply (tri_nearest 0 (0, 0))|apply (tri_nearest 1 (2, 0))]; try done; unfold dist2; cbn [fst snd]; lra.
    + apply H. left. rewrite HL. exists ((3, 4), (3, -1)). split; [simpl; auto|]. exists (4 / 5). split; [lra|]. cbn [fst snd]. f_equal; lra.
    + intros HX. apply H in HX as [HX|(_ & p & q & N & Hp & Hq)].
      * rewrite HL in HX. destruct HX as ([c d] & Hin & u & Hu & E'). cbn in Hin. repeat (destruct Hin as [Hin|Hin]; [injection Hin as <- <-; cbn [fst snd] in E'; injection E' as E1 E2; lra|]). done.
      * apply N. apply (tri_one p q 0 (0, 0)); [|done..]. intros j P HP Nj. exists (0, 0). split; [unfold tri; left|]. destruct j as [|[|[|j]]]; [done| | |done]; injection HP as <-; unfold dist2; cbn [fst snd]; lra.
  - destruct (C59_names tri box 22 s HG HD) as [H1 H2]. destruct (H1 2%nat ltac:(simpl; lia)) as (i & L & Hi). destruct (H1 0%nat ltac:(simpl; lia)) as (i0 & L0 & Hi0). destruct (H1 1%nat ltac:(simpl; lia)) as (i1 & L1 & Hi1).
    pose proof (proj2 (H2 2%nat 0%nat i i0 (0, 2) (0, 0) eq_refl eq_refl Hi Hi0)) as K1. pose proof (proj2 (H2 0%nat 1%nat i0 i1 (0, 0) (2, 0) eq_refl eq_refl Hi0 Hi1)) as K2. cbn [fst snd] in *.
    specialize (K1 ltac:(left; lra)). specialize (K2 ltac:(right; lra)). cbn in L, L0, L1. rewrite Hi. f_equal. lia.
  - destruct (C59_vertices tri box 22 s HG HD) as (l & E & H). exists l. split; [done|]. apply H. right. right. split; [rewrite HL; apply box_interior; [lra..|]; unfold inside_box; cbn [fst snd]; lra|].
    exists 0%nat, 1%nat, 2%nat. split; [repeat constructor; set_solver|]. split; [apply (tri_nearest 0 (0, 0))|split; [apply (tri_nearest 1 (2, 0))|apply (tri_nearest 2 (0, 2))]]; try done; unfold dist2; cbn [fst snd]; lra.
  - by eapply C59_plot_all.
Qed.
