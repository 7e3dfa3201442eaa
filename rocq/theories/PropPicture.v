(* PropPicture.v -- C80: nothing of the finished diagram is outside of the picture. *)
From stdpp Require Import base list sets.
From Coq Require Import ZArith Reals Lra Lia Psatz Classical.
From Verif Require Import Arith DecArith DecLaws Geom Monad Tree Heapq State Sweep Finish SweepBase Dcel SweepInv Spec SpecFinish RArith GeomReal AreaReal PolyReal ConvexReal EdgeReal CircleReal FinishReal VoronoiGeom Envelope
  SpecVoronoi VoronoiFacts ClipGeom SpecClip CellBorder CellFirst CellArea SpecMove CellSides Circle Visual SpecVisual CellDraw DrawAll FinishFacts PropSweep PropFinish PropVoronoi PropEnvelope PropReal PropGeom PropClip PropCells CellClean DiagramFacts SideFacts SpecNeighbours NeighbourFacts PropDrawing Watch SpecFigure FigureFacts PropFigure PropEvents PropClean Picture SpecPicture.
Local Open Scope R_scope.

(* ---------- a convex polygon and a direction ---------- *)
(* no point of the polygon is lower than all corners, in any direction *)
Lemma some_corner (ps : list rpt) u v z : convex ps -> (3 <= length ps)%nat -> ~ exterior ps z -> exists c, In c ps /\ u * fst c + v * snd c <= u * fst z + v * snd z.
Proof.
  intros HC H3 Hz. apply inner_exterior in Hz. apply NNPP. intros N.
  set (d := fun c : rpt => u * (fst c - fst z) + v * (snd c - snd z)). set (w := fun c : rpt => u * (snd c - snd z) - v * (fst c - fst z)).
  assert (HP : forall c, In c ps -> 0 < d c). { intros c Hc. apply Rnot_le_lt. intros L. apply N. exists c. split; [done|]. unfold d in L. lra. }
  assert (exists c, In c ps) as [c0 H0]. { destruct ps as [|c0 r]; [simpl in H3; lia|]. exists c0. by left. }
  destruct (least (fun c => w c / d c) (fun _ => True) ps) as (c & Hc & _ & HM); [exists c0; split; [by apply elem_of_list_In|done]|]. apply elem_of_list_In in Hc.
  destruct (sides_next ps c Hc) as [q Hs]. destruct (sides_in _ _ _ Hs) as [_ Hq]. pose proof (HP c Hc) as Dc. pose proof (HP q Hq) as Dq.
  specialize (HM q (proj2 (elem_of_list_In _ _) Hq) I). pose proof (Hz c q Hs) as X.
  assert (K : w c * d q <= w q * d c). { apply (Rmult_le_compat_r (d c * d q)) in HM; [|nra]. replace (w c / d c * (d c * d q)) with (w c * d q) in HM by (field; lra). replace (w q / d q * (d c * d q)) with (w q * d c) in HM by (field; lra). lra. }
  assert (ID : w q * d c - w c * d q = (u * u + v * v) * cross3 c q z) by (unfold w, d, cross3; ring).
  assert (UV : 0 < u * u + v * v). { destruct (Req_dec u 0) as [->|Nu]; [|nra]. destruct (Req_dec v 0) as [->|Nv]; [|nra]. unfold d in Dc. lra. }
  assert (E : cross3 c q z = 0) by nra. pose proof (on_side ps HC H3 c q z Hs Hz E) as (t & Ht & Ez).
  assert (Z : d z = (1 - t) * d c + t * d q). { unfold d. rewrite Ez at 1 3. cbn [fst snd]. ring. }
  unfold d in Z at 1. nra.
Qed.
Lemma within_extremes (ps : list rpt) x0 x1 y0 y1 z : convex ps -> (3 <= length ps)%nat -> extremes ps x0 x1 y0 y1 -> ~ exterior ps z -> x0 <= fst z <= x1 /\ y0 <= snd z <= y1.
Proof.
  intros HC H3 [HE _] Hz. destruct (some_corner ps 1 0 z HC H3 Hz) as (a & Ha & A). destruct (some_corner ps (-1) 0 z HC H3 Hz) as (b & Hb & B). destruct (some_corner ps 0 1 z HC H3 Hz) as (c & Hc & C). destruct (some_corner ps 0 (-1) z HC H3 Hz) as (e & He & E).
  apply HE in Ha, Hb, Hc, He. lra.
Qed.

(* ---------- C80 ---------- *)
Lemma xpt_same (y z : rpt) : xpt_of RArith y = xpt_of RArith z -> y = z.
Proof. destruct y, z. unfold xpt_of. cbn. intros E. congruence. Qed.
Definition opens (cv : canvas RArith) (calls : list (display RArith)) : Prop := calls = get_canvas RArith cv \/ exists block, calls = show RArith cv block.
Lemma opens_in cv calls z : opens cv calls -> in_picture calls z <-> cv_min_x RArith cv <= fst z <= cv_max_x RArith cv /\ cv_min_y RArith cv <= snd z <= cv_max_y RArith cv.
Proof.
  intros HO. assert (HX : forall lo hi, DXlim RArith lo hi ∈ calls <-> lo = cv_min_x RArith cv /\ hi = cv_max_x RArith cv).
  { intros lo hi. destruct HO as [-> |[bl ->]]; unfold show, get_canvas, set_limits; cbn [app]; rewrite !elem_of_cons, elem_of_nil; (split; [intros H; repeat (destruct H as [H|H]; [by simplify_eq|]); done|intros [-> ->]; auto]). }
  assert (HY : forall lo hi, DYlim RArith lo hi ∈ calls <-> lo = cv_min_y RArith cv /\ hi = cv_max_y RArith cv).
  { intros lo hi. destruct HO as [-> |[bl ->]]; unfold show, get_canvas, set_limits; cbn [app]; rewrite !elem_of_cons, elem_of_nil; (split; [intros H; repeat (destruct H as [H|H]; [by simplify_eq|]); done|intros [-> ->]; auto]). }
  split.
  - intros (_ & _ & H1 & H2). split; [by apply H1, HX|by apply H2, HY].
  - intros [H1 H2]. split; [eexists _, _; by apply HX|]. split; [eexists _, _; by apply HY|]. split; intros lo hi H; [apply HX in H as [-> ->]|apply HY in H as [-> ->]]; done.
Qed.
(* the figure that get_canvas returns or show displays: around every point of the polygon there is a
   margin of `offset` in each direction that is in the picture *)
Theorem C80_margin (ts : list rpt) poly offset calls (z : rpt) u v : polygon_init RArith ts = Val poly -> convex (pg_points RArith poly) -> (3 <= length (pg_points RArith poly))%nat ->
  (calls = get_canvas RArith (canvas_size RArith (BPoly RArith poly) offset) \/ exists block, calls = show RArith (canvas_size RArith (BPoly RArith poly) offset) block) ->
  ~ exterior (pg_points RArith poly) z -> Rabs u <= offset -> Rabs v <= offset -> in_picture calls (fst z + u, snd z + v).
Proof.
  intros HP HC H3 HO Hz Hu Hv. apply (opens_in _ _ _ HO). pose proof (C64_canvas_polygon ts poly offset HP) as HE. cbv zeta in HE.
  assert (NE : ts <> []) by (by intros ->). destruct (C31_corner_order ts ts NE (Permutation_refl ts)) as (P' & HP' & _ & _ & PM & _). rewrite HP in HP'. injection HP' as <-.
  assert (HE' : forall p, In p (pg_points RArith poly) -> In p ts) by (intros p Hp; by eapply Permutation_in).
  assert (W : forall p : rpt, ~ exterior (pg_points RArith poly) p -> exists a b c e, In a ts /\ In b ts /\ In c ts /\ In e ts /\ fst a <= fst p <= fst b /\ snd c <= snd p <= snd e).
  { intros p Np. destruct (some_corner _ 1 0 p HC H3 Np) as (a & Ha & A1). destruct (some_corner _ (-1) 0 p HC H3 Np) as (b & Hb & B1). destruct (some_corner _ 0 1 p HC H3 Np) as (c & Hc & C1). destruct (some_corner _ 0 (-1) p HC H3 Np) as (e & He & E1).
    exists a, b, c, e. do 4 (split; [auto|]). lra. }
  destruct (W z Hz) as (a & b & c & e & Ha & Hb & Hc & He & B1 & B2). destruct HE as [HE _]. apply HE in Ha, Hb, Hc, He. change (D RArith) with R in *. cbn [fst snd].
  assert (- offset <= u <= offset) by (split; [|pose proof (Rle_abs u); lra]; pose proof (Rle_abs (- u)); rewrite Rabs_Ropp in *; lra).
  assert (- offset <= v <= offset) by (split; [|pose proof (Rle_abs v); lra]; pose proof (Rle_abs (- v)); rewrite Rabs_Ropp in *; lra). lra.
Qed.
Print Assumptions C80_margin.
(* and no more than that: with a negative offset a corner is cut off *)
Theorem C80_offset (ts : list rpt) poly offset block : polygon_init RArith ts = Val poly -> convex (pg_points RArith poly) -> (3 <= length (pg_points RArith poly))%nat ->
  (forall z : rpt, In z (pg_points RArith poly) -> in_picture (show RArith (canvas_size RArith (BPoly RArith poly) offset) block) z) <-> 0 <= offset.
Proof.
  intros HP HC H3. split.
  - intros H. pose proof (C64_canvas_polygon ts poly offset HP) as HE. cbv zeta in HE. destruct HE as (_ & HX & _). apply in_map_iff in HX as (c & Ec & Hc).
    assert (NE : ts <> []) by (by intros ->). destruct (C31_corner_order ts ts NE (Permutation_refl ts)) as (P' & HP' & _ & _ & PM & _). rewrite HP in HP'. injection HP' as <-.
    assert (Hc' : In c (pg_points RArith poly)) by (eapply Permutation_in; [by symmetry|done]). specialize (H c Hc'). apply (opens_in (canvas_size RArith (BPoly RArith poly) offset)) in H; [|right; eauto]. change (D RArith) with R in *. lra.
  - intros Ho z Hz. assert (Nz : ~ exterior (pg_points RArith poly) z) by (by apply corner_inner). pose proof (C80_margin ts poly offset _ z 0 0 HP HC H3 (or_intror (ex_intro _ block eq_refl)) Nz) as X. rewrite Rabs_R0 in X. specialize (X Ho Ho). rewrite !Rplus_0_r in X. by destruct z.
Qed.
Print Assumptions C80_offset.
(* plot_all with any arguments, and then show or get_canvas: all lines, labels, dots and pointers of the
   finished diagram and the outline of the polygon are in the picture *)
Theorem C80_figure (ts : list rpt) (xys : list (pt RArith)) (poly : polygon RArith) fuel s offset order flags calls : polygon_init RArith ts = Val poly -> regular xys poly ->
  create_diagram RArith poly false fuel xys (init_state RArith (pg_points RArith poly)) = Val (s, tt) -> order ≡ₚ s_arcset s -> 0 <= offset ->
  let cv := canvas_size RArith (BPoly RArith poly) offset in (calls = get_canvas RArith cv \/ exists block, calls = show RArith cv block) ->
  exists cmds, plot_all RArith (BPoly RArith poly) cv order flags s = Val (s, cmds) /\
    (forall z : rpt, on_line cmds EDGE z -> in_picture calls z) /\
    (forall (z : rpt) t, CLabel RArith (xpt_of RArith z) t ∈ cmds -> in_picture calls z) /\
    (forall (z : rpt) l, CScatter RArith VERTICES l ∈ cmds \/ CScatter RArith CELL_POINTS l ∈ cmds -> z ∈ l -> in_picture calls z) /\
    (forall (z P : rpt) c, CPointer RArith c (xpt_of RArith z) P ∈ cmds -> in_picture calls z /\ in_picture calls P) /\
    (forall (z : rpt) c l, CPolygon RArith c l ∈ cmds -> z ∈ l -> in_picture calls z).
Proof.
  intros HP HG HD HO Ho cv HC. destruct (C59_plot_all xys poly fuel s (BPoly RArith poly) cv order flags HG HD HO) as [cmds EP]. exists cmds. split; [done|].
  set (yes := fun k => match k with KPolygon => fl_polygon RArith flags | KEdges => fl_edges RArith flags | KVertices => fl_vertices RArith flags | KSites => fl_sites RArith flags | KOutgoing => fl_outgoing_edges RArith flags
    | KBorderToSite => fl_border_to_site RArith flags | KScale => false | KEdgeLabels => fl_edge_labels RArith flags | KSiteLabels => fl_site_labels RArith flags | KTriangles => fl_triangles RArith flags | KArcs => fl_arcs RArith flags
    | KSweepLine => fl_sweep_line RArith flags | KEvents => fl_events RArith flags | KArcLabels => fl_arc_labels RArith flags | KBeachLine => fl_beach_line RArith flags end).
  assert (EF : flags = flags_yes RArith yes (fl_scale RArith flags)) by (by destruct flags). rewrite EF in EP. set (scale := fl_scale RArith flags) in EP. clearbody yes scale. clear EF.
  assert (IN : forall z : rpt, ~ exterior (pg_points RArith poly) z -> in_picture calls z).
  { intros z Hz. pose proof (C80_margin ts poly offset calls z 0 0 HP (r_convex _ _ HG) (r_corners _ _ HG) HC Hz) as X. rewrite Rabs_R0 in X. specialize (X Ho Ho). rewrite !Rplus_0_r in X. by destruct z. }
  assert (BD : forall z : rpt, on_boundary (pg_points RArith poly) z -> ~ exterior (pg_points RArith poly) z).
  { intros z ([a b] & Hs & Hz). apply inner_exterior. exact (side_inner _ (r_convex _ _ HG) a b z Hs Hz). }
  assert (ST : forall (p : nat) (P : rpt), xys !! p = Some P -> ~ exterior (pg_points RArith poly) P).
  { intros p P EPt X. apply (exterior_interior _ _ X). apply (r_inside _ _ HG). by eapply elem_of_list_lookup_2. }
  assert (PV : forall k c l, drawn_by (BPoly RArith poly) cv order yes scale k s = Val (s, l) -> c ∈ cmds -> keyword c = Some k -> c ∈ l).
  { intros k c l El Hc Hk. exact (proj2 (proj1 (part_val (BPoly RArith poly) cv yes order scale s cmds k l c EP El Hk) Hc)). }
  destruct (da_edges xys poly HG fuel s HD cv None (yes KEdgeLabels) EDGE) as (le & Ee & LE1 & LE2). pose proof (C59_sites xys poly fuel s (yes KSiteLabels) CELL_POINTS HG HD) as Es.
  destruct (C59_vertices xys poly fuel s HG HD) as (lv & Ev & LV). destruct (C59_pointers xys poly fuel s cv None HG HD) as (lp & Ep & _ & LP & _).
  split; [|split; [|split; [|split]]].
  - intros z (a & b & Hc & Hz). apply IN. assert (Hl : on_line le EDGE z) by (exists a, b; split; [exact (PV KEdges _ le Ee Hc eq_refl)|done]). apply LE1 in Hl as [Hl|[Hl _]]; auto.
  - intros z t Hc. destruct t as [n|n1 n2|n]; swap 1 2.
    + pose proof (PV KEdges _ le Ee Hc eq_refl) as Hl. apply LE2 in Hl as (_ & e & g & a & b & He & HJ & -> & _). apply IN. destruct (da_sides xys poly HG fuel s HD e g a b He HJ) as (p & Hp & _).
      apply (da_near xys poly HG fuel s HD e g a b p (middle a b) (or_introl He) HJ Hp). exists (/ 2). split; [lra|]. unfold middle. f_equal; field.
    + pose proof (PV KSites _ _ Es Hc eq_refl) as Hl. apply elem_of_cons in Hl as [Hl|Hl]; [done|]. destruct (yes KSiteLabels); [|by apply elem_of_nil in Hl].
      apply elem_of_lookup_imap in Hl as (p & P & Hl & HPt). assert (P = z) as -> by (injection Hl; intros; destruct P, z; cbn in *; congruence). apply IN. by eapply ST.
    + apply (parts_iff RArith (BPoly RArith poly) cv yes _ _ _ _ _ EP) in Hc as (k & Hk & _). done.
  - intros z l [Hc|Hc] Hz; apply IN.
    + pose proof (PV KVertices _ _ Ev Hc eq_refl) as Hl. apply elem_of_list_singleton in Hl. injection Hl as ->. apply LV in Hz as [Hz|[[Hz _]|[Hz _]]]; [by apply (corner_inner poly (r_convex _ _ HG))|auto|intros X; by apply (exterior_interior _ _ X)].
    + pose proof (PV KSites _ _ Es Hc eq_refl) as Hl. apply elem_of_cons in Hl as [Hl|Hl]; [injection Hl as ->|].
      * apply elem_of_list_lookup in Hz as [p Hz]. by eapply ST.
      * destruct (yes KSiteLabels); [|by apply elem_of_nil in Hl]. by apply elem_of_lookup_imap in Hl as (p & P & Hl & _).
  - intros z P c Hc. pose proof (PV KBorderToSite _ _ Ep Hc eq_refl) as Hl. destruct (LP _ _ _ Hl) as (e & a & b & p & _ & _ & _ & Em & HPt & _ & Hz). assert (z = middle a b) as -> by (by apply xpt_same).
    split; apply IN; [done|by eapply ST].
  - intros z c l Hc Hz. apply IN. apply (parts_iff RArith (BPoly RArith poly) cv yes _ _ _ _ _ EP) in Hc as (k & Hk & _ & l' & El & Hl). destruct c; try done. injection Hk as <-. cbn in El. injection El as <-. apply elem_of_list_singleton in Hl. injection Hl as ->.
    apply (corner_inner poly (r_convex _ _ HG)). by apply elem_of_list_In.
Qed.
Print Assumptions C80_figure.
(* the default call of create_diagram, when at most three sites are nearest to any point *)
Theorem C80_default (ts : list rpt) (xys : list (pt RArith)) (poly : polygon RArith) fuel s offset order flags calls : polygon_init RArith ts = Val poly -> regular xys poly -> at_most_three xys (pg_points RArith poly) ->
  create_diagram RArith poly true fuel xys (init_state RArith (pg_points RArith poly)) = Val (s, tt) -> order ≡ₚ s_arcset s -> 0 <= offset ->
  let cv := canvas_size RArith (BPoly RArith poly) offset in (calls = get_canvas RArith cv \/ exists block, calls = show RArith cv block) ->
  exists cmds, plot_all RArith (BPoly RArith poly) cv order flags s = Val (s, cmds) /\
    (forall z : rpt, on_line cmds EDGE z -> in_picture calls z) /\
    (forall (z : rpt) t, CLabel RArith (xpt_of RArith z) t ∈ cmds -> in_picture calls z) /\
    (forall (z : rpt) l, CScatter RArith VERTICES l ∈ cmds \/ CScatter RArith CELL_POINTS l ∈ cmds -> z ∈ l -> in_picture calls z) /\
    (forall (z P : rpt) c, CPointer RArith c (xpt_of RArith z) P ∈ cmds -> in_picture calls z /\ in_picture calls P) /\
    (forall (z : rpt) c l, CPolygon RArith c l ∈ cmds -> z ∈ l -> in_picture calls z).
Proof. intros HP HG N4 HD. rewrite (C60_default_diagram xys poly fuel HG N4) in HD. exact (C80_figure ts xys poly fuel s offset order flags calls HP HG HD). Qed.
Print Assumptions C80_default.

(* three sites in a box, with a margin of 1: the corner (3, 4) and the point (4, -2) are in the picture, (5, 0) is not *)
Example C80_case : exists box s, bounding_box RArith (-1) 3 (-1) 4 = Val box /\ polygon_init RArith [(-1, 4); (3, 4); (3, -1); (-1, -1)] = Val box /\ regular tri box /\
  create_diagram RArith box false 22 tri (init_state RArith (pg_points RArith box)) = Val (s, tt) /\ In (3, 4) (pg_points RArith box) /\
  in_picture (show RArith (canvas_size RArith (BPoly RArith box) 1) true) (3, 4) /\ in_picture (get_canvas RArith (canvas_size RArith (BPoly RArith box) 1)) (4, -2) /\
  ~ in_picture (show RArith (canvas_size RArith (BPoly RArith box) 1) true) (5, 0).
Proof.
  destruct C59_case as (box & s & HB & HG & HD & _). exists box, s. split; [done|]. assert (HP : polygon_init RArith [(-1, 4); (3, 4); (3, -1); (-1, -1)] = Val box) by exact HB. split; [done|]. split; [done|]. split; [done|].
  assert (NE : [(-1, 4); (3, 4); (3, -1); (-1, -1)] <> []) by done.
  destruct (C31_corner_order _ _ NE (Permutation_refl [(-1, 4); (3, 4); (3, -1); (-1, -1)])) as (P' & HP' & _ & HE & PM & _). rewrite HP in HP'. injection HP' as <-.
  assert (IN : forall c, In c [(-1, 4); (3, 4); (3, -1); (-1, -1)] -> In c (pg_points RArith box)) by (intros c Hc; eapply Permutation_in; [by symmetry|done]).
  assert (HH : In (3, 4) (pg_points RArith box)) by (apply IN; cbn; auto). split; [done|]. split; [|split].
  - apply (proj2 (C80_offset _ box 1 true HP (r_convex _ _ HG) (r_corners _ _ HG))); [lra|done].
  - assert (HL : In (3, -1) (pg_points RArith box)) by (apply IN; cbn; auto).
    pose proof (C80_margin _ box 1 _ (3, -1) 1 (-1) HP (r_convex _ _ HG) (r_corners _ _ HG) (or_introl eq_refl) (corner_inner box (r_convex _ _ HG) _ HL)) as X. cbn [fst snd] in X.
    rewrite Rabs_R1, (Rabs_left (-1)) in X by lra. replace (3 + 1) with 4 in X by ring. replace (-1 + -1) with (-2) in X by ring. apply X; lra.
  - rewrite (opens_in _ _ _ (or_intror (ex_intro _ true eq_refl))). destruct HE as (_ & _ & H1 & _). cbn [canvas_size cv_max_x bd_max_x dadd RArith fst snd map] in *. change (D RArith) with R in *. intros [[_ L] _]. repeat (destruct H1 as [H1|H1]; [lra|]). done.
Qed.
