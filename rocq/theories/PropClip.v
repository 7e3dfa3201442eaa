(* PropClip.v -- C50: create_diagram draws the Voronoi diagram inside a convex polygon; C55: no
   two of its edges overlap; and what this gives for C24.  Exact arithmetic. *)
From stdpp Require Import base list sets.
From Coq Require Import ZArith Reals Lra Lia Psatz.
From Verif Require Import Arith Geom Monad Tree Heapq State Sweep Finish SweepBase Dcel SweepInv Spec RArith GeomReal AreaReal PolyReal ConvexReal EdgeReal VoronoiGeom
  VoronoiGeom VoronoiStep Envelope SpecVoronoi VoronoiFacts ClipGeom ClipBeach ClipVoronoi ClipFinal SpecClip PropVoronoi PropEnvelope.
Local Open Scope R_scope.

Section Hyp.
Context (xys : list (pt RArith)) (poly : polygon RArith).
Notation corners := (pg_points RArith poly).
Notation line := (pg_min_y RArith poly - Rabs (pg_max_y RArith poly)).
Context (ND : NoDup xys) (HC : convex corners) (H3 : (3 <= length corners)%nat).
Context (LL : low_line xys corners line) (GP : generic_polygon xys corners) (EX : extent poly) (TI : tops_inside xys (interior corners)).

Lemma clears_above z : clears xys line z -> above xys (finish_sweep_line RArith poly) z.
Proof.
  intros (H1 & P & H2 & H4). split; [exact H1|]. exists P. split; [done|]. change (finish_sweep_line RArith poly) with line. unfold out. lra.
Qed.
Lemma ll_sites P : P ∈ xys -> finish_sweep_line RArith poly < snd P.
Proof. intros HP. exact (proj1 (LL P (or_introl HP))). Qed.
Lemma ll_inside z : ~ exterior corners z -> above xys (finish_sweep_line RArith poly) z.
Proof. intros H. apply clears_above, LL. auto. Qed.
Lemma ll_vertex z a b c : NoDup [a; b; c] -> nearest xys a z -> nearest xys b z -> nearest xys c z -> above xys (finish_sweep_line RArith poly) z.
Proof. intros N Ha Hb Hc. apply clears_above, LL. right. right. by exists a, b, c. Qed.
Lemma gp_vertex z a b c : NoDup [a; b; c] -> nearest xys a z -> nearest xys b z -> nearest xys c z -> interior corners z \/ exterior corners z.
Proof. intros N Ha Hb Hc. apply GP. by exists a, b, c. Qed.
Lemma corner_inner c : In c corners -> ~ exterior corners c.
Proof. intros Hc (p & q & H & X). pose proof (le_all corners HC p q c H Hc). lra. Qed.
Lemma hyp_top : top_ok xys poly.
Proof.
  destruct EX as [(c & C1 & C2) C3]. apply elem_of_list_In in C1. destruct (LL c) as [L1 (P0 & L2 & _)]; [right; left; by apply corner_inner|].
  split; [intros ->; by apply elem_of_nil in L2|]. intros P Q HP HQ N E HH. destruct (TI P Q HP HQ N E HH) as [I1 I2]. split; [|split; [done|split; [done|]]].
  - intros X. rewrite X, Rabs_R0 in L1. lra.
  - intros d Hd. apply C3. by apply elem_of_list_In.
Qed.
Lemma hyp_sound flag fuel s e f p q z : create_diagram RArith poly flag fuel xys (init_state RArith corners) = Val (s, tt) ->
  e ∈ s_edges s -> edge_point xys s e f p q z -> nearest xys p z /\ nearest xys q z /\ ~ exterior corners z.
Proof.
  intros HD. exact (diagram_sound xys poly ND HC H3 ll_sites ll_inside ll_vertex gp_vertex hyp_top flag fuel s HD e f p q z).
Qed.
Lemma hyp_complete flag fuel s p q z : create_diagram RArith poly flag fuel xys (init_state RArith corners) = Val (s, tt) ->
  p <> q -> nearest xys p z -> nearest xys q z -> (forall k, nearest xys k z -> k = p \/ k = q) -> interior corners z ->
  exists e f, (e ∈ s_edges s \/ f ∈ s_edges s) /\ edge_point xys s e f p q z.
Proof.
  intros HD. exact (diagram_complete xys poly ND HC H3 ll_sites ll_inside ll_vertex gp_vertex hyp_top flag fuel s HD p q z).
Qed.
Lemma hyp_single flag fuel s e f e' f' p q p' q' z : create_diagram RArith poly flag fuel xys (init_state RArith (pg_points RArith poly)) = Val (s, tt) ->
  e ∈ s_edges s -> e' ∈ s_edges s -> edge_point xys s e f p q z -> edge_point xys s e' f' p' q' z -> (forall k, nearest xys k z -> k = p \/ k = q) -> e = e'.
Proof.
  intros HD. exact (diagram_single xys poly ND HC H3 ll_sites ll_inside ll_vertex gp_vertex hyp_top flag fuel s HD e f e' f' p q p' q' z).
Qed.
End Hyp.

Lemma made_extent ts poly : polygon_init RArith ts = Val poly -> extent poly.
Proof.
  intros H. destruct (polygon_extremes ts poly H) as (_ & _ & [M1 _] & [_ M2]). assert (NE : ts <> []) by (by intros ->).
  destruct (polygon_init_R ts NE) as (P & HP & PM & _). assert (P = poly) as -> by congruence. split.
  - apply in_map_iff in M1 as (c & E & Hc). exists c. split; [|done]. apply elem_of_list_In. by apply (Permutation_in c (Permutation_sym PM)).
  - intros c Hc. apply M2, in_map. apply (Permutation_in c PM). by apply elem_of_list_In.
Qed.
Lemma reg_top (xys : list (pt RArith)) (poly : polygon RArith) : regular xys poly -> top_ok xys poly.
Proof. intros HG. apply hyp_top; [apply HG..|]. intros P Q HP HQ _ _ _. split; by apply (r_inside _ _ HG). Qed.

(* ---------- C50 ---------- *)
(* every point of every edge between two sites is in the polygon and has these two sites nearest *)
Theorem C50_edges_are_voronoi (xys : list (pt RArith)) (poly : polygon RArith) flag fuel s e f p q z : NoDup xys ->
  convex (pg_points RArith poly) -> (3 <= length (pg_points RArith poly))%nat ->
  low_line xys (pg_points RArith poly) (pg_min_y RArith poly - Rabs (pg_max_y RArith poly)) ->
  generic_polygon xys (pg_points RArith poly) -> extent poly -> tops_inside xys (interior (pg_points RArith poly)) ->
  create_diagram RArith poly flag fuel xys (init_state RArith (pg_points RArith poly)) = Val (s, tt) ->
  e ∈ s_edges s -> edge_point xys s e f p q z ->
  nearest xys p z /\ nearest xys q z /\ ~ exterior (pg_points RArith poly) z.
Proof. intros H1 H2 H3 H4 H5 H6 H7. exact (hyp_sound xys poly H1 H2 H3 H4 H5 H6 H7 flag fuel s e f p q z). Qed.
Print Assumptions C50_edges_are_voronoi.
(* every point inside the polygon with two nearest sites is on an edge between them *)
Theorem C50_voronoi_has_edges (xys : list (pt RArith)) (poly : polygon RArith) flag fuel s p q z : NoDup xys ->
  convex (pg_points RArith poly) -> (3 <= length (pg_points RArith poly))%nat ->
  low_line xys (pg_points RArith poly) (pg_min_y RArith poly - Rabs (pg_max_y RArith poly)) ->
  generic_polygon xys (pg_points RArith poly) -> extent poly -> tops_inside xys (interior (pg_points RArith poly)) ->
  create_diagram RArith poly flag fuel xys (init_state RArith (pg_points RArith poly)) = Val (s, tt) ->
  p <> q -> nearest xys p z -> nearest xys q z -> (forall k, nearest xys k z -> k = p \/ k = q) -> interior (pg_points RArith poly) z ->
  exists e f, (e ∈ s_edges s \/ f ∈ s_edges s) /\ edge_point xys s e f p q z.
Proof. intros H1 H2 H3 H4 H5 H6 H7. exact (hyp_complete xys poly H1 H2 H3 H4 H5 H6 H7 flag fuel s p q z). Qed.
Print Assumptions C50_voronoi_has_edges.
(* a point inside the polygon is a vertex if and only if three sites are nearest to it *)
Theorem C50_vertices (xys : list (pt RArith)) (poly : polygon RArith) fuel s z : NoDup xys -> (1 <= length xys)%nat ->
  convex (pg_points RArith poly) -> (3 <= length (pg_points RArith poly))%nat ->
  create_diagram RArith poly false fuel xys (init_state RArith (pg_points RArith poly)) = Val (s, tt) ->
  interior (pg_points RArith poly) z ->
  ((exists v, v ∈ s_vset s /\ located RArith s v z) <-> voronoi_vertex xys z).
Proof. intros H1 H2 H3 H4 HD. exact (final_vertices xys poly fuel s z H1 H3 ltac:(lia) H2 HD). Qed.
Print Assumptions C50_vertices.

(* ---------- C55 ---------- *)
(* no two edges of the finished diagram overlap: through a point with exactly two nearest sites
   goes one edge only *)
Theorem C55_no_overlap (xys : list (pt RArith)) (poly : polygon RArith) flag fuel s e f e' f' p q p' q' z : NoDup xys ->
  convex (pg_points RArith poly) -> (3 <= length (pg_points RArith poly))%nat ->
  low_line xys (pg_points RArith poly) (pg_min_y RArith poly - Rabs (pg_max_y RArith poly)) ->
  generic_polygon xys (pg_points RArith poly) -> extent poly -> tops_inside xys (interior (pg_points RArith poly)) ->
  create_diagram RArith poly flag fuel xys (init_state RArith (pg_points RArith poly)) = Val (s, tt) ->
  e ∈ s_edges s -> e' ∈ s_edges s -> edge_point xys s e f p q z -> edge_point xys s e' f' p' q' z ->
  (forall k, nearest xys k z -> k = p \/ k = q) -> e = e'.
Proof. intros H1 H2 H3 H4 H5 H6 H7. exact (hyp_single xys poly H1 H2 H3 H4 H5 H6 H7 flag fuel s e f e' f' p q p' q' z). Qed.
Print Assumptions C55_no_overlap.

(* ---------- a BoundingBox ---------- *)
Section Box.
Context (l r b t : R) (Hlr : l < r) (Hbt : b < t).
Notation ps := [(l, t); (r, t); (r, b); (l, b)].
Lemma box_convex : convex ps.
Proof.
  split.
  - do 4 (apply List.NoDup_cons; [cbn [In]; intros HX; repeat (destruct HX as [HX|HX]; [injection HX; lra|]); exact HX|]). apply List.NoDup_nil.
  - intros p q z Hs Hz N1 N2. cbn [sides app combine In] in Hs, Hz. unfold cross3.
    destruct Hs as [E|[E|[E|[E|[]]]]]; injection E as <- <-; destruct Hz as [<-|[<-|[<-|[<-|[]]]]]; try done; cbn [fst snd]; nra.
Qed.
Lemma box_interior z : interior ps z <-> inside_box l r b t z.
Proof.
  unfold interior, inside_box. cbn [sides app combine In]. destruct z as [x y]. cbn [fst snd]. split.
  - intros H. pose proof (H (l, t) (r, t) ltac:(auto)) as H1. pose proof (H (r, t) (r, b) ltac:(auto)) as H2. pose proof (H (r, b) (l, b) ltac:(auto)) as H4. pose proof (H (l, b) (l, t) ltac:(auto)) as H5.
    unfold cross3 in *. cbn [fst snd] in *. split; split; nra.
  - intros H p q [E|[E|[E|[E|[]]]]]; injection E as <- <-; unfold cross3; cbn [fst snd]; nra.
Qed.
Lemma box_exterior z : ~ exterior ps z <-> in_box l r b t z.
Proof.
  unfold exterior, in_box. cbn [sides app combine In]. destruct z as [x y]. cbn [fst snd]. split.
  - intros H. repeat split; apply Rnot_lt_le; intros X; apply H;
      [exists (l, b), (l, t)|exists (r, t), (r, b)|exists (r, b), (l, b)|exists (l, t), (r, t)]; (split; [auto|]); unfold cross3; cbn [fst snd]; nra.
  - intros H (p & q & [E|[E|[E|[E|[]]]]] & X); injection E as <- <-; unfold cross3 in X; cbn [fst snd] in X; nra.
Qed.
End Box.

(* Sites in a box, every point of the box within distance |top_y| of a site, every Voronoi vertex
   inside the box. *)
Definition box_fits (xys : list (pt RArith)) (l r b t : R) : Prop :=
  (forall P : rpt, P ∈ xys -> in_box l r b t P) /\
  (forall z : rpt, in_box l r b t z -> exists P : rpt, P ∈ xys /\ dist2 P z < t * t) /\
  (forall z : rpt, voronoi_vertex xys z -> inside_box l r b t z).
Lemma fits_low xys l r b t : l < r -> b < t -> box_fits xys l r b t ->
  low_line xys [(l, t); (r, t); (r, b); (l, b)] (b - Rabs t) /\ generic_polygon xys [(l, t); (r, t); (r, b); (l, b)].
Proof.
  intros H1 H2 (F1 & F2 & F3). split.
  - assert (G : forall z, in_box l r b t z -> clears xys (b - Rabs t) z).
    { intros z Hz. destruct (F2 z Hz) as (P & HP & HD). pose proof (dist2_nonneg P z). destruct Hz as [_ [Hz _]].
      assert (T : t * t = Rabs t * Rabs t) by (rewrite <- Rabs_mult; symmetry; apply Rabs_pos_eq; nra). pose proof (Rabs_pos t).
      assert (0 < Rabs t) by (destruct (Rle_lt_dec (Rabs t) 0); [assert (Rabs t = 0) as E by lra; rewrite E in T; lra|done]).
      split; [lra|]. exists P. split; [done|]. nra. }
    intros z [Hz|[Hz|Hz]]; apply G; [by apply F1|by apply (box_exterior l r b t)|]. apply F3 in Hz. unfold in_box, inside_box in *. lra.
  - intros z Hz. left. apply (box_interior l r b t); auto.
Qed.
Theorem C50_box (xys : list (pt RArith)) (left_x right_x bottom_y top_y : R) box flag fuel s : NoDup xys ->
  left_x < right_x -> bottom_y < top_y -> box_fits xys left_x right_x bottom_y top_y -> tops_inside xys (inside_box left_x right_x bottom_y top_y) ->
  bounding_box RArith left_x right_x bottom_y top_y = Val box ->
  create_diagram RArith box flag fuel xys (init_state RArith (pg_points RArith box)) = Val (s, tt) ->
  (forall e f p q z, e ∈ s_edges s -> edge_point xys s e f p q z -> nearest xys p z /\ nearest xys q z /\ in_box left_x right_x bottom_y top_y z) /\
  (forall p q z, p <> q -> nearest xys p z -> nearest xys q z -> (forall k, nearest xys k z -> k = p \/ k = q) -> inside_box left_x right_x bottom_y top_y z ->
    exists e f, (e ∈ s_edges s \/ f ∈ s_edges s) /\ edge_point xys s e f p q z).
Proof.
  intros ND Hlr Hbt HF ST HB HD. destruct (bounding_box_R _ _ _ _ Hlr Hbt) as (P & HP & HL & _ & _ & E1 & E2). assert (P = box) as -> by congruence.
  destruct (fits_low xys _ _ _ _ Hlr Hbt HF) as [LL GP]. rewrite <- HL in LL, GP. pose proof (box_convex _ _ _ _ Hlr Hbt) as HC. rewrite <- HL in HC.
  assert (H3 : (3 <= length (pg_points RArith box))%nat) by (rewrite HL; simpl; lia).
  assert (LL' : low_line xys (pg_points RArith box) (pg_min_y RArith box - Rabs (pg_max_y RArith box))) by (rewrite E1, E2; exact LL).
  assert (EX : extent box) by exact (made_extent _ _ HB). assert (TI : tops_inside xys (interior (pg_points RArith box))).
  { intros P' Q HP' HQ N E HH. rewrite HL. destruct (ST P' Q HP' HQ N E HH). split; by apply box_interior. }
  split.
  - intros e f p q z He Hz. destruct (C50_edges_are_voronoi xys box flag fuel s e f p q z ND HC H3 LL' GP EX TI HD He Hz) as (X1 & X2 & X3). split; [done|]. split; [done|].
    rewrite HL in X3. by apply box_exterior in X3.
  - intros p q z N Np Nq HU Hz. apply (C50_voronoi_has_edges xys box flag fuel s p q z ND HC H3 LL' GP EX TI HD N Np Nq HU). rewrite HL. by apply box_interior.
Qed.
Print Assumptions C50_box.

(* ---------- C24 ---------- *)
(* with the finishing line below everything, every Voronoi edge with a point inside the polygon survives *)
Theorem C24_low_line_partial (xys : list (pt RArith)) (poly : polygon RArith) flag fuel s p q z : NoDup xys ->
  convex (pg_points RArith poly) -> (3 <= length (pg_points RArith poly))%nat ->
  low_line xys (pg_points RArith poly) (pg_min_y RArith poly - Rabs (pg_max_y RArith poly)) ->
  generic_polygon xys (pg_points RArith poly) -> extent poly -> tops_inside xys (interior (pg_points RArith poly)) ->
  create_diagram RArith poly flag fuel xys (init_state RArith (pg_points RArith poly)) = Val (s, tt) ->
  p <> q -> nearest xys p z -> nearest xys q z -> (forall k, nearest xys k z -> k = p \/ k = q) -> interior (pg_points RArith poly) z ->
  exists e f, (e ∈ s_edges s \/ f ∈ s_edges s) /\ twin RArith s e = Some f /\ borders_site RArith s e = Some p /\ borders_site RArith s f = Some q.
Proof.
  intros H1 H2 H3 H4 H5 H6 H7 HD N Hp Hq HU Hi. destruct (hyp_complete xys poly H1 H2 H3 H4 H5 H6 H7 flag fuel s p q z HD N Hp Hq HU Hi) as (e & f & HE & X1 & X2 & X3 & _).
  exists e, f. auto.
Qed.
Print Assumptions C24_low_line_partial.

(* ---------- a case: three sites in a box ---------- *)
Lemma tri_vertex z : voronoi_vertex tri z -> z = (1, 1).
Proof.
  intros (a & b & c & N & Ha & Hb & Hc). assert (L : forall k, nearest tri k z -> (k < 3)%nat). { intros k (P & HP & _). apply lookup_lt_Some in HP. exact HP. }
  pose proof (L a Ha). pose proof (L b Hb). pose proof (L c Hc). apply NoDup_cons in N as [N1 N]. apply NoDup_cons in N as [N2 _].
  rewrite !elem_of_cons in N1. rewrite elem_of_cons in N2.
  assert (ALL : nearest tri 0 z /\ nearest tri 1 z /\ nearest tri 2 z).
  { destruct a as [|[|[|a]]]; [..|lia]; destruct b as [|[|[|b]]]; try lia; destruct c as [|[|[|c]]]; try lia; tauto. }
  destruct ALL as ((P0 & E0 & M0) & (P1 & E1 & M1) & (P2 & E2 & M2)). injection E0 as <-. injection E1 as <-. injection E2 as <-.
  assert (I0 : ((0, 0) : rpt) ∈ tri) by left. assert (I1 : ((2, 0) : rpt) ∈ tri) by (right; left). assert (I2 : ((0, 2) : rpt) ∈ tri) by (right; right; left).
  pose proof (M0 _ I1) as A1. pose proof (M0 _ I2) as A2. pose proof (M1 _ I0) as A3. pose proof (M2 _ I0) as A4. destruct z as [x y]. unfold dist2 in *; cbn [fst snd] in *. f_equal; lra.
Qed.
Lemma tri_fits : box_fits tri (-1) 3 (-1) 4.
Proof.
  split; [|split].
  - intros P HP. unfold tri in HP. rewrite !elem_of_cons, elem_of_nil in HP. unfold in_box. destruct HP as [-> |[-> |[-> |[]]]]; cbn [fst snd]; lra.
  - intros [x y] [Hx Hy]. cbn [fst snd] in *. destruct (Rle_lt_dec y 2).
    + exists (2, 0). split; [right; left|]. unfold dist2; cbn [fst snd]. nra.
    + exists (0, 2). split; [right; right; left|]. unfold dist2; cbn [fst snd]. nra.
  - intros z Hz. apply tri_vertex in Hz as ->. unfold inside_box; cbn [fst snd]. lra.
Qed.
Lemma tri_top : tops_inside tri (inside_box (-1) 3 (-1) 4).
Proof.
  intros P Q HP HQ _ _ _. unfold tri in HP, HQ. rewrite !elem_of_cons, elem_of_nil in HP, HQ. unfold inside_box.
  destruct HP as [-> |[-> |[-> |[]]]], HQ as [-> |[-> |[-> |[]]]]; cbn [fst snd]; lra.
Qed.
(* the hypotheses hold, and the diagram has an edge between the sites 0 and 1 through (1, 0) *)
Example C50_case : exists box s, bounding_box RArith (-1) 3 (-1) 4 = Val box /\ create_diagram RArith box false 22 tri (init_state RArith (pg_points RArith box)) = Val (s, tt) /\
  NoDup tri /\ box_fits tri (-1) 3 (-1) 4 /\ tops_inside tri (inside_box (-1) 3 (-1) 4) /\
  (exists e f, (e ∈ s_edges s \/ f ∈ s_edges s) /\ edge_point tri s e f 0 1 (1, 0)) /\ exists v, v ∈ s_vset s /\ located RArith s v (1, 1).
Proof.
  destruct (bounding_box_R (-1) 3 (-1) 4) as (box & HB & HL & _ & _ & E1 & E2); [lra..|]. exists box.
  destruct (C13_create_diagram_returns tri box 22 tri_nodup) as [s HD]; [simpl; lia|rewrite HL; simpl; lia|simpl; lia| |].
  { change (finish_sweep_line RArith box) with (pg_min_y RArith box - Rabs (pg_max_y RArith box)). rewrite E1, E2. rewrite (Rabs_pos_eq 4) by lra. unfold tri. repeat constructor; cbn [snd]; lra. }
  exists s. split; [done|]. split; [exact HD|]. split; [exact tri_nodup|]. split; [exact tri_fits|]. split; [exact tri_top|]. split.
  - destruct (C50_box tri (-1) 3 (-1) 4 box false 22 s tri_nodup ltac:(lra) ltac:(lra) tri_fits tri_top HB HD) as [_ HX]. apply HX; [done| | | |unfold inside_box; cbn [fst snd]; lra].
    + apply (tri_nearest 0 (0, 0)); [done|unfold dist2; cbn [fst snd]; lra..].
    + apply (tri_nearest 1 (2, 0)); [done|unfold dist2; cbn [fst snd]; lra..].
    + intros r (P & HP & HM). destruct r as [|[|[|r]]]; [by left|by right| |done]. exfalso. injection HP as <-.
      specialize (HM (0, 0) ltac:(left)). unfold dist2 in HM; cbn [fst snd] in HM. lra.
  - apply (C50_vertices tri box 22 s (1, 1) tri_nodup); [simpl; lia|rewrite HL; apply box_convex; lra|rewrite HL; simpl; lia|exact HD| |].
    + rewrite HL. apply box_interior; [lra..|]. unfold inside_box; cbn [fst snd]. lra.
    + exists 0%nat, 1%nat, 2%nat. split; [repeat constructor; set_solver|]. split; [|split].
      * apply (tri_nearest 0 (0, 0)); [done|unfold dist2; cbn [fst snd]; lra..].
      * apply (tri_nearest 1 (2, 0)); [done|unfold dist2; cbn [fst snd]; lra..].
      * apply (tri_nearest 2 (0, 2)); [done|unfold dist2; cbn [fst snd]; lra..].
Qed.
