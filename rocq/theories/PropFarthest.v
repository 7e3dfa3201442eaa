(* PropFarthest.v -- C73: the places farthest from the sites are vertices of the diagram; C74: how many
   neighbours there are.  Exact arithmetic. *)
From stdpp Require Import base list sets.
From Coq Require Import ZArith Reals Lra Lia Psatz Relations Classical.
From Verif Require Import Arith Geom Monad Tree Heapq State Sweep Finish SweepBase Dcel SweepInv Spec SpecFinish RArith GeomReal AreaReal PolyReal ConvexReal EdgeReal CircleReal FinishReal VoronoiGeom Envelope
  SpecVoronoi VoronoiFacts ClipGeom SpecClip CellBorder CellFirst CellArea SpecMove CellSides SideFacts SpecNeighbours NeighbourFacts PropSweep PropFinish PropVoronoi PropEnvelope PropReal PropClip PropCells PropClean PropNeighbours FarthestFacts CountFacts.
Local Open Scope R_scope.

(* ---------- C73 ---------- *)
(* every point of a cell is one of the vertices of that cell, or some vertex of the cell is farther from its site *)
Theorem C73_farthest (xys : list (pt RArith)) (poly : polygon RArith) fuel s p (P z : rpt) l f : regular xys poly ->
  create_diagram RArith poly false fuel xys (init_state RArith (pg_points RArith poly)) = Val (s, tt) ->
  xys !! p = Some P -> borders RArith s f p = Val l -> nearest xys p z -> ~ exterior (pg_points RArith poly) z ->
  exists vs v y, cell_vertices RArith s f p = Val vs /\ v ∈ vs /\ v ∈ s_vset s /\ located RArith s v y /\
    nearest xys p y /\ ~ exterior (pg_points RArith poly) y /\ (y = z \/ dist2 P z < dist2 P y).
Proof. intros HG HD. exact (farthest xys poly HG fuel s HD p P z l f). Qed.
Print Assumptions C73_farthest.
(* some listed vertex is as far from its nearest site as any point of the polygon is from its own,
   and every point of the polygon as far as that is at a listed vertex *)
Theorem C73_largest (xys : list (pt RArith)) (poly : polygon RArith) fuel s : regular xys poly ->
  create_diagram RArith poly false fuel xys (init_state RArith (pg_points RArith poly)) = Val (s, tt) ->
  exists v y q (Q : rpt), v ∈ s_vset s /\ located RArith s v y /\ ~ exterior (pg_points RArith poly) y /\ nearest xys q y /\ xys !! q = Some Q /\
    forall z p (P : rpt), nearest xys p z -> xys !! p = Some P -> ~ exterior (pg_points RArith poly) z ->
      dist2 P z <= dist2 Q y /\ (dist2 P z = dist2 Q y -> exists w, w ∈ s_vset s /\ located RArith s w z).
Proof. intros HG HD. exact (largest xys poly HG fuel s HD). Qed.
Print Assumptions C73_largest.
(* the default call, when at most three sites are nearest to any point *)
Theorem C73_default (xys : list (pt RArith)) (poly : polygon RArith) fuel s : regular xys poly -> at_most_three xys (pg_points RArith poly) ->
  create_diagram RArith poly true fuel xys (init_state RArith (pg_points RArith poly)) = Val (s, tt) ->
  exists v y q (Q : rpt), v ∈ s_vset s /\ located RArith s v y /\ ~ exterior (pg_points RArith poly) y /\ nearest xys q y /\ xys !! q = Some Q /\
    forall z p (P : rpt), nearest xys p z -> xys !! p = Some P -> ~ exterior (pg_points RArith poly) z ->
      dist2 P z <= dist2 Q y /\ (dist2 P z = dist2 Q y -> exists w, w ∈ s_vset s /\ located RArith s w z).
Proof. intros HG N4 HD. rewrite (C60_default_diagram xys poly fuel HG N4) in HD. exact (largest xys poly HG fuel s HD). Qed.
Print Assumptions C73_default.

(* three sites in a box: the farthest place is the corner (3, 4), a vertex of the cell of (0, 2) *)
Example C73_case : exists box s f vs v, bounding_box RArith (-1) 3 (-1) 4 = Val box /\ regular tri box /\
  create_diagram RArith box false 22 tri (init_state RArith (pg_points RArith box)) = Val (s, tt) /\
  cell_vertices RArith s f 2 = Val vs /\ v ∈ vs /\ v ∈ s_vset s /\ located RArith s v (3, 4).
Proof.
  destruct (bounding_box_R (-1) 3 (-1) 4) as (box & HB & HL & _); [lra..|]. pose proof (tri_regular box HB) as HG. destruct (tri_runs box HB) as [s HD].
  destruct (C57_cells tri box 22 s 2 HG HD ltac:(simpl; lia)) as [(l & f & Hl) _].
  destruct (C73_farthest tri box 22 s 2 (0, 2) (3, 4) l f HG HD) as (vs & v & y & H1 & H2 & H3 & H4 & (U & EU & HN) & H6 & H7); [done|done| | |].
  - apply (tri_nearest 2 (0, 2)); [done|unfold dist2; cbn [fst snd]; lra..].
  - rewrite HL. apply box_exterior; [lra..|]. unfold in_box. cbn [fst snd]. lra.
  - exists box, s, f, vs, v. split; [done|]. split; [done|]. split; [done|]. split; [done|]. split; [done|]. split; [done|].
    destruct H7 as [<- |H7]; [done|]. exfalso. injection EU as <-. specialize (HN (2, 0) ltac:(unfold tri; right; left)). rewrite HL in H6. apply box_exterior in H6; [|lra..].
    destruct y as [x y]. unfold in_box, dist2 in *; cbn [fst snd] in *. destruct (Rle_lt_dec 2 y); nra.
Qed.

(* ---------- C74 ---------- *)
(* however the pairs of a site and a neighbour of it are listed, there are at most 6 n - 8 of them:
   a site has fewer than six neighbours on average *)
Theorem C74_pairs (xys : list (pt RArith)) (poly : polygon RArith) fuel s (l : list (nat * nat)) : regular xys poly -> (2 <= length xys)%nat ->
  create_diagram RArith poly false fuel xys (init_state RArith (pg_points RArith poly)) = Val (s, tt) ->
  NoDup l -> (forall p q, (p, q) ∈ l -> neighbour s p q) -> (length l + 8 <= 6 * length xys)%nat.
Proof. intros HG Hn HD. exact (pairs_count xys poly HG fuel s HD l Hn). Qed.
Print Assumptions C74_pairs.
(* so some site has at most five *)
Theorem C74_five (xys : list (pt RArith)) (poly : polygon RArith) fuel s : regular xys poly ->
  create_diagram RArith poly false fuel xys (init_state RArith (pg_points RArith poly)) = Val (s, tt) -> (1 <= length xys)%nat ->
  exists p, (p < length xys)%nat /\ forall l, NoDup l -> (forall q, q ∈ l -> neighbour s p q) -> (length l <= 5)%nat.
Proof. intros HG HD. exact (few_neighbours xys poly HG fuel s HD). Qed.
Print Assumptions C74_five.
(* the same of the cells in the plane, with no diagram in the statement: at most 6 n - 8 ordered pairs of
   cells have two points of the polygon in common *)
Theorem C74_touch (xys : list (pt RArith)) (poly : polygon RArith) fuel s (l : list (nat * nat)) : regular xys poly -> (2 <= length xys)%nat ->
  create_diagram RArith poly false fuel xys (init_state RArith (pg_points RArith poly)) = Val (s, tt) ->
  NoDup l -> (forall p q, (p, q) ∈ l -> touch xys (pg_points RArith poly) p q) -> (length l + 8 <= 6 * length xys)%nat.
Proof. intros HG Hn HD HN HT. apply (pairs_count xys poly HG fuel s HD l Hn HN). intros p q Hpq. apply (C71_neighbours xys poly fuel s p q HG HD). by apply HT. Qed.
Print Assumptions C74_touch.
(* the default call *)
Theorem C74_default (xys : list (pt RArith)) (poly : polygon RArith) fuel s (l : list (nat * nat)) : regular xys poly -> at_most_three xys (pg_points RArith poly) -> (2 <= length xys)%nat ->
  create_diagram RArith poly true fuel xys (init_state RArith (pg_points RArith poly)) = Val (s, tt) ->
  NoDup l -> (forall p q, (p, q) ∈ l -> neighbour s p q) -> (length l + 8 <= 6 * length xys)%nat.
Proof. intros HG N4 Hn HD. rewrite (C60_default_diagram xys poly fuel HG N4) in HD. exact (pairs_count xys poly HG fuel s HD l Hn). Qed.
Print Assumptions C74_default.

(* three sites, each two of them neighbours: six pairs *)
Example C74_case : exists box s, bounding_box RArith (-1) 3 (-1) 4 = Val box /\ regular tri box /\
  create_diagram RArith box false 22 tri (init_state RArith (pg_points RArith box)) = Val (s, tt) /\
  NoDup [(0, 1); (1, 0); (0, 2); (2, 0); (1, 2); (2, 1)]%nat /\
  forall p q, (p, q) ∈ [(0, 1); (1, 0); (0, 2); (2, 0); (1, 2); (2, 1)]%nat -> neighbour s p q.
Proof.
  destruct (bounding_box_R (-1) 3 (-1) 4) as (box & HB & HL & _); [lra..|]. pose proof (tri_regular box HB) as HG. destruct (tri_runs box HB) as [s HD].
  exists box, s. split; [done|]. split; [done|]. split; [done|]. split; [by apply (bool_decide_unpack _); vm_compute|].
  assert (SY : forall p q, touch tri (pg_points RArith box) p q -> touch tri (pg_points RArith box) q p). { intros p q (N & y & z & K). split; [congruence|]. exists y, z. tauto. }
  assert (T01 : touch tri (pg_points RArith box) 0 1).
  { split; [done|]. exists (1, 0), (1, 1). split; [intros [=]; lra|]. rewrite HL. split; [apply box_exterior; [lra..|]; unfold in_box; cbn [fst snd]; lra|]. split; [apply box_exterior; [lra..|]; unfold in_box; cbn [fst snd]; lra|].
    repeat split; [apply (tri_nearest 0 (0, 0))|apply (tri_nearest 1 (2, 0))|apply (tri_nearest 0 (0, 0))|apply (tri_nearest 1 (2, 0))]; try done; unfold dist2; cbn [fst snd]; lra. }
  assert (T02 : touch tri (pg_points RArith box) 0 2).
  { split; [done|]. exists (0, 1), (1, 1). split; [intros [=]; lra|]. rewrite HL. split; [apply box_exterior; [lra..|]; unfold in_box; cbn [fst snd]; lra|]. split; [apply box_exterior; [lra..|]; unfold in_box; cbn [fst snd]; lra|].
    repeat split; [apply (tri_nearest 0 (0, 0))|apply (tri_nearest 2 (0, 2))|apply (tri_nearest 0 (0, 0))|apply (tri_nearest 2 (0, 2))]; try done; unfold dist2; cbn [fst snd]; lra. }
  assert (T12 : touch tri (pg_points RArith box) 1 2).
  { split; [done|]. exists (2, 2), (1, 1). split; [intros [=]; lra|]. rewrite HL. split; [apply box_exterior; [lra..|]; unfold in_box; cbn [fst snd]; lra|]. split; [apply box_exterior; [lra..|]; unfold in_box; cbn [fst snd]; lra|].
    repeat split; [apply (tri_nearest 1 (2, 0))|apply (tri_nearest 2 (0, 2))|apply (tri_nearest 1 (2, 0))|apply (tri_nearest 2 (0, 2))]; try done; unfold dist2; cbn [fst snd]; lra. }
  intros p q H. apply (C71_neighbours tri box 22 s p q HG HD). rewrite !elem_of_cons, elem_of_nil in H. destruct H as [[= -> ->]|[[= -> ->]|[[= -> ->]|[[= -> ->]|[[= -> ->]|[[= -> ->]|[]]]]]]]; auto.
Qed.
