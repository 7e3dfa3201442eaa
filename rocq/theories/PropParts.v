(* PropParts.v -- C77: the cells divide the polygon; C78: the polygon does nothing but cut the cells.
   Exact arithmetic. *)
From stdpp Require Import base list sets.
From Coq Require Import ZArith Reals Lra Lia Psatz Classical.
From Verif Require Import Arith Geom Monad Tree Heapq State Sweep Finish SweepBase Dcel SweepInv Spec SpecFinish RArith GeomReal AreaReal PolyReal ConvexReal EdgeReal CircleReal FinishReal VoronoiGeom Envelope
  SpecVoronoi VoronoiFacts ClipGeom SpecClip CellBorder CellFirst CellArea SpecMove CellSides SideFacts SpecNeighbours NeighbourFacts SpecParts PropGeom PropSweep PropFinish PropVoronoi PropEnvelope PropReal PropClip PropCells PropClean MoveGeom PropMove PropNeighbours ShrinkFacts PartFacts.
Local Open Scope R_scope.


(* ---------- C77 ---------- *)
(* every point of the polygon is in some cell, and no point outside is *)
Theorem C77_cover (xys : list (pt RArith)) (poly : polygon RArith) fuel s (z : rpt) : regular xys poly -> (1 <= length xys)%nat ->
  create_diagram RArith poly false fuel xys (init_state RArith (pg_points RArith poly)) = Val (s, tt) ->
  ~ exterior (pg_points RArith poly) z <-> exists p l f, (p < length xys)%nat /\ borders RArith s f p = Val l /\ enclosed s l z.
Proof.
  intros HG H1 HD. split.
  - intros HE. destruct (least (fun Q : rpt => dist2 Q z) (fun _ => True) xys) as (P & HP & _ & M); [destruct xys as [|Q xs]; [cbn in H1; lia|]; exists Q; split; [left|done]|].
    apply elem_of_list_lookup in HP as [p EP]. pose proof (lookup_lt_Some _ _ _ EP) as Lp. destruct (C57_cells xys poly fuel s p HG HD Lp) as [(l & f & Hl) X]. exists p, l, f. split; [done|]. split; [done|]. apply (X l f Hl). split; [|done].
    exists P. split; [done|]. intros Q HQ. by apply M.
  - intros (p & l & f & Lp & Hl & HE). destruct (C57_cells xys poly fuel s p HG HD Lp) as [_ X]. by apply (X l f Hl).
Qed.
Print Assumptions C77_cover.
(* the points strictly inside of a cell are those strictly inside of the polygon with no other nearest site *)
Theorem C77_inside (xys : list (pt RArith)) (poly : polygon RArith) fuel s p l f (z : rpt) : regular xys poly ->
  create_diagram RArith poly false fuel xys (init_state RArith (pg_points RArith poly)) = Val (s, tt) ->
  (p < length xys)%nat -> borders RArith s f p = Val l ->
  enclosed_strictly s l z <-> nearest xys p z /\ (forall k, nearest xys k z -> k = p) /\ interior (pg_points RArith poly) z.
Proof. intros HG HD Hp Hl. destruct (lookup_lt_is_Some_2 xys p Hp) as [P EP]. exact (strict_iff xys poly HG fuel s HD p P EP l f Hl z). Qed.
Print Assumptions C77_inside.
(* the site is one of them *)
Theorem C77_own (xys : list (pt RArith)) (poly : polygon RArith) fuel s p (P : rpt) l f : regular xys poly ->
  create_diagram RArith poly false fuel xys (init_state RArith (pg_points RArith poly)) = Val (s, tt) ->
  xys !! p = Some P -> borders RArith s f p = Val l -> enclosed_strictly s l P.
Proof.
  intros HG HD EP Hl. apply (strict_iff xys poly HG fuel s HD p P EP l f Hl P). assert (Z : dist2 P P = 0) by (destruct P; unfold dist2; cbn [fst snd]; ring). split; [|split].
  - exists P. split; [done|]. intros Q _. rewrite Z. apply dist2_nonneg.
  - intros k (K & EK & M). specialize (M P ltac:(by eapply elem_of_list_lookup_2)). rewrite Z in M. assert (K = P). { apply NNPP. intros N. pose proof (dist2_pos K P N). change (D RArith) with R in *. lra. } subst K.
    eapply (NoDup_lookup xys); [apply (r_distinct _ _ HG)|exact EK|exact EP].
  - apply (r_inside _ _ HG). by eapply elem_of_list_lookup_2.
Qed.
Print Assumptions C77_own.
(* a point strictly inside of a cell is in no other *)
Theorem C77_apart (xys : list (pt RArith)) (poly : polygon RArith) fuel s p q l m f g (z : rpt) : regular xys poly ->
  create_diagram RArith poly false fuel xys (init_state RArith (pg_points RArith poly)) = Val (s, tt) ->
  (p < length xys)%nat -> (q < length xys)%nat -> p <> q -> borders RArith s f p = Val l -> borders RArith s g q = Val m ->
  enclosed_strictly s l z -> ~ enclosed s m z.
Proof.
  intros HG HD Hp Hq N Hl Hm HS HE. apply (C77_inside xys poly fuel s p l f z HG HD Hp Hl) in HS as (_ & ONLY & _). destruct (C57_cells xys poly fuel s q HG HD Hq) as [_ X]. apply N. symmetry. apply ONLY. by apply (X m g Hm).
Qed.
Print Assumptions C77_apart.
(* the default call, when at most three sites are nearest to any point *)
Theorem C77_default (xys : list (pt RArith)) (poly : polygon RArith) fuel s : regular xys poly -> at_most_three xys (pg_points RArith poly) -> (1 <= length xys)%nat ->
  create_diagram RArith poly true fuel xys (init_state RArith (pg_points RArith poly)) = Val (s, tt) ->
  (forall z, ~ exterior (pg_points RArith poly) z <-> exists p l f, (p < length xys)%nat /\ borders RArith s f p = Val l /\ enclosed s l z) /\
  (forall p q l m f g z, (p < length xys)%nat -> (q < length xys)%nat -> p <> q -> borders RArith s f p = Val l -> borders RArith s g q = Val m -> enclosed_strictly s l z -> ~ enclosed s m z).
Proof.
  intros HG N4 H1 HD. rewrite (C60_default_diagram xys poly fuel HG N4) in HD. split.
  - intros z. exact (C77_cover xys poly fuel s z HG H1 HD).
  - intros p q l m f g z. exact (C77_apart xys poly fuel s p q l m f g z HG HD).
Qed.
Print Assumptions C77_default.

(* ---------- C78 ---------- *)
(* in two polygons the cell of a site is the same, as far as both polygons go *)
Theorem C78_cells (xys : list (pt RArith)) (poly poly' : polygon RArith) fuel fuel' s s' p l l' f f' (z : rpt) : regular xys poly -> regular xys poly' ->
  create_diagram RArith poly false fuel xys (init_state RArith (pg_points RArith poly)) = Val (s, tt) ->
  create_diagram RArith poly' false fuel' xys (init_state RArith (pg_points RArith poly')) = Val (s', tt) ->
  (p < length xys)%nat -> borders RArith s f p = Val l -> borders RArith s' f' p = Val l' ->
  enclosed s l z /\ ~ exterior (pg_points RArith poly') z <-> enclosed s' l' z /\ ~ exterior (pg_points RArith poly) z.
Proof.
  intros HG HG' HD HD' Hp Hl Hl'. destruct (C57_cells xys poly fuel s p HG HD Hp) as [_ X]. destruct (C57_cells xys poly' fuel' s' p HG' HD' Hp) as [_ X']. rewrite <- (X l f Hl), <- (X' l' f' Hl'). tauto.
Qed.
Print Assumptions C78_cells.
(* neighbours stay neighbours in a polygon around the polygon *)
Theorem C78_neighbours (xys : list (pt RArith)) (poly poly' : polygon RArith) fuel fuel' s s' p q : regular xys poly -> regular xys poly' ->
  create_diagram RArith poly false fuel xys (init_state RArith (pg_points RArith poly)) = Val (s, tt) ->
  create_diagram RArith poly' false fuel' xys (init_state RArith (pg_points RArith poly')) = Val (s', tt) ->
  (forall z, ~ exterior (pg_points RArith poly) z -> ~ exterior (pg_points RArith poly') z) -> neighbour s p q -> neighbour s' p q.
Proof.
  intros HG HG' HD HD' SUB. rewrite (C71_neighbours xys poly fuel s p q HG HD), (C71_neighbours xys poly' fuel' s' p q HG' HD'). intros (N & y & z & Nyz & Ey & Ez & R0). split; [done|]. exists y, z. split; [done|]. split; [by apply SUB|]. split; [by apply SUB|done].
Qed.
Print Assumptions C78_neighbours.
(* the vertices strictly inside of both polygons are the same *)
Theorem C78_vertices (xys : list (pt RArith)) (poly poly' : polygon RArith) fuel fuel' s s' (z : rpt) : regular xys poly -> regular xys poly' -> (1 <= length xys)%nat ->
  create_diagram RArith poly false fuel xys (init_state RArith (pg_points RArith poly)) = Val (s, tt) ->
  create_diagram RArith poly' false fuel' xys (init_state RArith (pg_points RArith poly')) = Val (s', tt) ->
  interior (pg_points RArith poly) z -> interior (pg_points RArith poly') z ->
  (exists v, v ∈ s_vset s /\ located RArith s v z) <-> (exists v, v ∈ s_vset s' /\ located RArith s' v z).
Proof.
  intros HG HG' H1 HD HD' I I'. rewrite (C50_vertices xys poly fuel s z (r_distinct _ _ HG) H1 (r_convex _ _ HG) (r_corners _ _ HG) HD I).
  rewrite (C50_vertices xys poly' fuel' s' z (r_distinct _ _ HG') H1 (r_convex _ _ HG') (r_corners _ _ HG') HD' I'). done.
Qed.
Print Assumptions C78_vertices.
(* a cell that does not reach the outline stays the same in every polygon around the polygon, with its area
   and its neighbours *)
Theorem C78_same (xys : list (pt RArith)) (poly poly' : polygon RArith) fuel fuel' s s' p l l' f f' : regular xys poly -> regular xys poly' ->
  create_diagram RArith poly false fuel xys (init_state RArith (pg_points RArith poly)) = Val (s, tt) ->
  create_diagram RArith poly' false fuel' xys (init_state RArith (pg_points RArith poly')) = Val (s', tt) ->
  (forall z, ~ exterior (pg_points RArith poly) z -> ~ exterior (pg_points RArith poly') z) ->
  (p < length xys)%nat -> borders RArith s f p = Val l -> borders RArith s' f' p = Val l' ->
  (forall z, on_boundary (pg_points RArith poly) z -> ~ enclosed s l z) ->
  (forall z, enclosed s' l' z <-> enclosed s l z) /\ (forall g g' a a', area RArith s g p = Val a -> area RArith s' g' p = Val a' -> a' = a) /\ (forall q, neighbour s' p q <-> neighbour s p q).
Proof.
  intros HG HG' HD HD' SUB Hp Hl Hl' INS. destruct (lookup_lt_is_Some_2 xys p Hp) as [P EP].
  assert (SUB' : forall z, inner (pg_points RArith poly) z -> inner (pg_points RArith poly') z) by (intros z; rewrite <- !not_exterior; apply SUB). split; [|split].
  - intros z. rewrite <- (cell_iff xys poly HG fuel s HD p P EP l f Hl z), <- (cell_iff xys poly' HG' fuel' s' HD' p P EP l' f' Hl' z). split; intros [N I]; (split; [done|]); [|by apply SUB'].
    exact (stays xys poly HG fuel s HD p P EP l f Hl INS z N).
  - intros g g' a a'. exact (area_both xys poly poly' HG HG' SUB' fuel s HD fuel' s' HD' p P EP l f Hl INS g g' a a').
  - intros q. rewrite (C71_neighbours xys poly fuel s p q HG HD), (C71_neighbours xys poly' fuel' s' p q HG' HD'). symmetry. exact (touch_both xys poly poly' HG HG' SUB' fuel s HD p P EP l f Hl INS q).
Qed.
Print Assumptions C78_same.

(* ---------- cases ---------- *)
(* four sites and a fifth between them, in two boxes; the cell of the fifth is the square from (-1, -1) to
   (1, 1).  The point (1, 0) is in it and in the cell of the second site, strictly in none of them *)
Definition cross5 : list rpt := [(-2, 0); (2, 0); (0, -2); (0, 2); (0, 0)].
Lemma cross5_nodup : NoDup (cross5 : list (pt RArith)).
Proof. unfold cross5. repeat constructor; rewrite ?elem_of_cons, ?elem_of_nil; intros X; repeat (destruct X as [X|X]; [injection X; intros; lra|]); done. Qed.
Lemma cross5_le k z : nearest cross5 k z -> exists P : rpt, cross5 !! k = Some P /\ dist2 P z <= dist2 (-2, 0) z /\ dist2 P z <= dist2 (2, 0) z /\ dist2 P z <= dist2 (0, -2) z /\ dist2 P z <= dist2 (0, 2) z /\ dist2 P z <= dist2 (0, 0) z.
Proof. intros (P & HP & HM). exists P. split; [done|]. repeat split; apply HM; unfold cross5; rewrite !elem_of_cons; auto 7. Qed.
Lemma cross5_near k (K : rpt) z : cross5 !! k = Some K -> dist2 K z <= dist2 (-2, 0) z -> dist2 K z <= dist2 (2, 0) z -> dist2 K z <= dist2 (0, -2) z -> dist2 K z <= dist2 (0, 2) z -> dist2 K z <= dist2 (0, 0) z -> nearest cross5 k z.
Proof. intros E H1 H2 H3 H4 H5. exists K. split; [done|]. intros Q HQ. unfold cross5 in HQ. rewrite !elem_of_cons, elem_of_nil in HQ. destruct HQ as [-> |[-> |[-> |[-> |[-> |[]]]]]]; done. Qed.
Lemma cross5_vertex z : voronoi_vertex cross5 z -> -2 < fst z < 2 /\ -2 < snd z < 2.
Proof.
  intros (a & b & c & N & (P & HP & A1 & A2 & A3 & A4 & A5)%cross5_le & (Q & HQ & B1 & B2 & B3 & B4 & B5)%cross5_le & (U & HU & C1 & C2 & C3 & C4 & C5)%cross5_le). destruct z as [x y].
  apply NoDup_cons in N as [N1 N]. apply NoDup_cons in N as [N2 _]. rewrite !elem_of_cons, elem_of_nil in *.
  destruct a as [|[|[|[|[|a]]]]]; try done; injection HP as <-; destruct b as [|[|[|[|[|b]]]]]; try done; try tauto; injection HQ as <-; destruct c as [|[|[|[|[|c]]]]]; try done; try tauto; injection HU as <-;
    clear N1 N2; unfold dist2 in *; cbn [fst snd] in *; lra.
Qed.
Lemma cross5_regular l r b t box : (l = -3 /\ r = 3 /\ b = -4 /\ t = 5) \/ (l = -4 /\ r = 4 /\ b = -5 /\ t = 6) -> bounding_box RArith l r b t = Val box -> regular cross5 box.
Proof.
  intros HB. assert (F : forall P : rpt, P ∈ cross5 -> inside_box l r b t P).
  { intros P HP. unfold cross5 in HP. repeat (apply elem_of_cons in HP as [-> |HP]; [unfold inside_box; cbn [fst snd]; lra|]). by apply elem_of_nil in HP. }
  apply box_regular; [exact cross5_nodup|lra|lra| |exact F|].
  - split; [|split].
    + intros P HP. destruct (F P HP) as [F1 F2]. unfold in_box. lra.
    + intros [x y] [[X1 X2] [Y1 Y2]]. cbn [fst snd] in *. destruct (Rle_lt_dec y 0) as [L|L]; [exists (0, -2)|exists (0, 2)]; (split; [unfold cross5; rewrite !elem_of_cons; auto 7|]); unfold dist2; cbn [fst snd]; destruct HB as [(-> & -> & -> & ->)|(-> & -> & -> & ->)]; nra.
    + intros z Hz. apply cross5_vertex in Hz. unfold inside_box. lra.
  - intros c p q Hc (P & HP & A1 & A2 & A3 & A4 & A5)%cross5_le (Q & HQ & B1 & B2 & B3 & B4 & B5)%cross5_le.
    destruct HB as [(-> & -> & -> & ->)|(-> & -> & -> & ->)]; repeat (apply elem_of_cons in Hc as [-> |Hc]); try (by apply elem_of_nil in Hc);
      destruct p as [|[|[|[|[|p]]]]]; try done; injection HP as <-; unfold dist2 in *; cbn [fst snd] in *; try lra; destruct q as [|[|[|[|[|q]]]]]; try done; injection HQ as <-; cbn [fst snd] in *; lra.
Qed.
Lemma cross5_run l r b t box : (l = -3 /\ r = 3 /\ b = -4 /\ t = 5) \/ (l = -4 /\ r = 4 /\ b = -5 /\ t = 6) -> bounding_box RArith l r b t = Val box ->
  exists s, create_diagram RArith box false 50 cross5 (init_state RArith (pg_points RArith box)) = Val (s, tt).
Proof.
  intros HE HB. destruct (bounding_box_R l r b t) as (b' & HB' & HL & _ & _ & E1 & E2); [lra..|]. assert (b' = box) as -> by congruence.
  apply (C13_create_diagram_returns cross5 box 50 cross5_nodup); [simpl; lia|rewrite HL; simpl; lia|simpl; lia|].
  change (finish_sweep_line RArith box) with (pg_min_y RArith box - Rabs (pg_max_y RArith box)). rewrite E1, E2. rewrite (Rabs_pos_eq t) by lra. assert (HF : Forall (fun P : rpt => -3 < snd P) cross5) by (unfold cross5; repeat constructor; cbn [snd]; lra). eapply Forall_impl; [exact HF|]. intros [px py] HP. cbn [snd] in HP |- *. change (-3 < py) in HP. change (b - t <= py). lra.
Qed.
Example C77_case : exists box s l m f g, bounding_box RArith (-3) 3 (-4) 5 = Val box /\ regular cross5 box /\ create_diagram RArith box false 50 cross5 (init_state RArith (pg_points RArith box)) = Val (s, tt) /\
  borders RArith s f 4 = Val l /\ borders RArith s g 1 = Val m /\ enclosed_strictly s l (1 / 2, 1 / 2) /\ ~ enclosed s m (1 / 2, 1 / 2) /\
  enclosed s l (1, 0) /\ enclosed s m (1, 0) /\ ~ enclosed_strictly s l (1, 0) /\ ~ enclosed_strictly s m (1, 0).
Proof.
  destruct (bounding_box_R (-3) 3 (-4) 5) as (box & HB & HL & _); [lra..|]. pose proof (cross5_regular (-3) 3 (-4) 5 box ltac:(left; done) HB) as HG. destruct (cross5_run (-3) 3 (-4) 5 box ltac:(left; done) HB) as [s HD].
  destruct (C57_cells cross5 box 50 s 4 HG HD ltac:(simpl; lia)) as [(l & f & Hl) X]. destruct (C57_cells cross5 box 50 s 1 HG HD ltac:(simpl; lia)) as [(m & g & Hm) Y].
  exists box, s, l, m, f, g. do 5 (split; [done|]).
  assert (H1 : enclosed_strictly s l (1 / 2, 1 / 2)).
  { apply (C77_inside cross5 box 50 s 4 l f _ HG HD ltac:(simpl; lia) Hl). split; [|split].
    - eapply cross5_near; [reflexivity|unfold dist2; cbn [fst snd]; lra..].
    - intros k (P & HP & A1 & A2 & A3 & A4 & A5)%cross5_le. destruct k as [|[|[|[|[|k]]]]]; try done; injection HP as <-; unfold dist2 in *; cbn [fst snd] in *; lra.
    - rewrite HL. apply box_interior; [lra..|]. unfold inside_box; cbn [fst snd]; lra. }
  assert (EI : ~ exterior (pg_points RArith box) (1, 0)) by (rewrite HL; apply box_exterior; [lra..|]; unfold in_box; cbn [fst snd]; lra).
  assert (H2 : enclosed s l (1, 0)) by (apply (X l f Hl); split; [|done]; eapply cross5_near; [reflexivity|unfold dist2; cbn [fst snd]; lra..]).
  assert (H3 : enclosed s m (1, 0)) by (apply (Y m g Hm); split; [|done]; eapply cross5_near; [reflexivity|unfold dist2; cbn [fst snd]; lra..]).
  split; [done|]. split; [exact (C77_apart cross5 box 50 s 4 1 l m f g _ HG HD ltac:(simpl; lia) ltac:(simpl; lia) ltac:(done) Hl Hm H1)|]. split; [done|]. split; [done|]. split.
  - intros K. exact (C77_apart cross5 box 50 s 4 1 l m f g _ HG HD ltac:(simpl; lia) ltac:(simpl; lia) ltac:(done) Hl Hm K H3).
  - intros K. exact (C77_apart cross5 box 50 s 1 4 m l g f _ HG HD ltac:(simpl; lia) ltac:(simpl; lia) ltac:(done) Hm Hl K H2).
Qed.
Example C78_case : exists box box' s s' l l' f f', bounding_box RArith (-3) 3 (-4) 5 = Val box /\ bounding_box RArith (-4) 4 (-5) 6 = Val box' /\ regular cross5 box /\ regular cross5 box' /\
  create_diagram RArith box false 50 cross5 (init_state RArith (pg_points RArith box)) = Val (s, tt) /\ create_diagram RArith box' false 50 cross5 (init_state RArith (pg_points RArith box')) = Val (s', tt) /\
  borders RArith s f 4 = Val l /\ borders RArith s' f' 4 = Val l' /\ (forall z, ~ exterior (pg_points RArith box) z -> ~ exterior (pg_points RArith box') z) /\
  (forall z, on_boundary (pg_points RArith box) z -> ~ enclosed s l z) /\ (exists g g' a, area RArith s g 4 = Val a /\ area RArith s' g' 4 = Val a) /\ neighbour s' 4 1.
Proof.
  destruct (bounding_box_R (-3) 3 (-4) 5) as (box & HB & HL & _); [lra..|]. pose proof (cross5_regular (-3) 3 (-4) 5 box ltac:(left; done) HB) as HG. destruct (cross5_run (-3) 3 (-4) 5 box ltac:(left; done) HB) as [s HD].
  destruct (bounding_box_R (-4) 4 (-5) 6) as (box' & HB' & HL' & _); [lra..|]. pose proof (cross5_regular (-4) 4 (-5) 6 box' ltac:(right; done) HB') as HG'. destruct (cross5_run (-4) 4 (-5) 6 box' ltac:(right; done) HB') as [s' HD'].
  destruct (C57_cells cross5 box 50 s 4 HG HD ltac:(simpl; lia)) as [(l & f & Hl) X]. destruct (C57_cells cross5 box' 50 s' 4 HG' HD' ltac:(simpl; lia)) as [(l' & f' & Hl') _].
  assert (SUB : forall z, ~ exterior (pg_points RArith box) z -> ~ exterior (pg_points RArith box') z) by (intros z; rewrite HL, HL', !box_exterior by lra; unfold in_box; lra).
  assert (INS : forall z, on_boundary (pg_points RArith box) z -> ~ enclosed s l z).
  { intros z HZ HE. apply (X l f Hl) in HE as [(P & HP & A1 & A2 & A3 & A4 & A5)%cross5_le _]. injection HP as <-. revert HZ. apply bound_not. rewrite HL. apply box_interior; [lra..|]. destruct z as [x y]. unfold inside_box, dist2 in *; cbn [fst snd] in *. lra. }
  destruct (C58_areas cross5 box 50 s HG HD) as (as1 & L1 & _ & K1). destruct (C58_areas cross5 box' 50 s' HG' HD') as (as2 & L2 & _ & K2).
  destruct (lookup_lt_is_Some_2 as1 4 ltac:(rewrite L1; simpl; lia)) as [a Ea]. destruct (lookup_lt_is_Some_2 as2 4 ltac:(rewrite L2; simpl; lia)) as [a' Ea'].
  destruct (K1 4%nat a Ea) as (_ & [g Ha] & _). destruct (K2 4%nat a' Ea') as (_ & [g' Ha'] & _).
  destruct (C78_same cross5 box box' 50 50 s s' 4 l l' f f' HG HG' HD HD' SUB ltac:(simpl; lia) Hl Hl' INS) as (_ & Q2 & Q3).
  exists box, box', s, s', l, l', f, f'. do 10 (split; [done|]). split.
  - exists g, g', a. split; [done|]. by rewrite <- (Q2 g g' a a' Ha Ha').
  - apply Q3. apply (C71_neighbours cross5 box 50 s 4 1 HG HD). split; [done|]. exists (1, 0), (1, 1). split; [intros E; injection E; lra|].
    split; [rewrite HL; apply box_exterior; [lra..|]; unfold in_box; cbn [fst snd]; lra|]. split; [rewrite HL; apply box_exterior; [lra..|]; unfold in_box; cbn [fst snd]; lra|].
    split; [|split; [|split]]; (eapply cross5_near; [reflexivity|unfold dist2; cbn [fst snd]; lra..]).
Qed.
