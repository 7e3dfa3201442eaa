(* PropNeighbours.v -- C71: the neighbours of a site, as a user finds them by walking around its cell, are
   the sites whose Voronoi cells share a border with its own in the polygon; C72: adding a site.
   Exact arithmetic. *)
From stdpp Require Import base list sets.
From Coq Require Import ZArith Reals Lra Lia Psatz Relations Classical.
From Verif Require Import Arith Geom Monad Tree Heapq State Sweep Finish SweepBase Dcel SweepInv Spec SpecFinish RArith GeomReal AreaReal PolyReal ConvexReal EdgeReal CircleReal FinishReal VoronoiGeom Envelope
  SpecVoronoi VoronoiFacts ClipGeom SpecClip CellBorder CellFirst CellArea SpecMove CellSides SideFacts SpecNeighbours NeighbourFacts PropSweep PropFinish PropVoronoi PropEnvelope PropReal PropClip PropCells PropClean MoveGeom PropMove.
Local Open Scope R_scope.

(* ---------- C71 ---------- *)
(* a half-edge of positive length leads from the cell of p to that of q if and only if the two cells
   have two different points of the polygon in common *)
Theorem C71_neighbours (xys : list (pt RArith)) (poly : polygon RArith) fuel s p q : regular xys poly ->
  create_diagram RArith poly false fuel xys (init_state RArith (pg_points RArith poly)) = Val (s, tt) ->
  neighbour s p q <-> touch xys (pg_points RArith poly) p q.
Proof. intros HG HD. exact (neighbour_touch xys poly HG fuel s HD p q). Qed.
Print Assumptions C71_neighbours.
(* only one such half-edge leads from p to q, and then one leads from q to p *)
Theorem C71_once (xys : list (pt RArith)) (poly : polygon RArith) fuel s p q e : regular xys poly ->
  create_diagram RArith poly false fuel xys (init_state RArith (pg_points RArith poly)) = Val (s, tt) ->
  leads_to s p q e -> (forall e', leads_to s p q e' -> e' = e) /\ exists f, leads_to s q p f.
Proof.
  intros HG HD H. split; [intros e' H'; exact (leads_once xys poly HG fuel s HD p q e' e H' H)|].
  apply (neighbour_sym xys poly HG fuel s HD). by exists e.
Qed.
Print Assumptions C71_once.
(* the site nearest to p is a neighbour of p *)
Theorem C71_nearest (xys : list (pt RArith)) (poly : polygon RArith) fuel s p q (P Q : rpt) : regular xys poly ->
  create_diagram RArith poly false fuel xys (init_state RArith (pg_points RArith poly)) = Val (s, tt) ->
  p <> q -> xys !! p = Some P -> xys !! q = Some Q -> (forall k T, xys !! k = Some T -> k <> p -> dist2 P Q <= dist2 P T) -> neighbour s p q.
Proof. intros HG HD. exact (nearest_neighbour xys poly HG fuel s HD p q P Q). Qed.
Print Assumptions C71_nearest.
(* two sites with no third one in the disk over the segment between them are neighbours *)
Theorem C71_gabriel (xys : list (pt RArith)) (poly : polygon RArith) fuel s p q (P Q : rpt) : regular xys poly ->
  create_diagram RArith poly false fuel xys (init_state RArith (pg_points RArith poly)) = Val (s, tt) ->
  p <> q -> xys !! p = Some P -> xys !! q = Some Q ->
  (forall k T, xys !! k = Some T -> k <> p -> k <> q -> dist2 P (middle P Q) < dist2 T (middle P Q)) -> neighbour s p q.
Proof. intros HG HD. exact (gabriel xys poly HG fuel s HD p q P Q). Qed.
Print Assumptions C71_gabriel.
(* divide the sites in two groups in any way: two sites of different groups that are as near to each other
   as any two sites of different groups are neighbours.  So the neighbours contain every edge of a shortest
   tree that connects the sites, and the nearest pair of sites *)
Theorem C71_cut (xys : list (pt RArith)) (poly : polygon RArith) fuel s (group : nat -> Prop) p q (P Q : rpt) : regular xys poly ->
  create_diagram RArith poly false fuel xys (init_state RArith (pg_points RArith poly)) = Val (s, tt) ->
  group p -> ~ group q -> xys !! p = Some P -> xys !! q = Some Q ->
  (forall i j (U V : rpt), group i -> ~ group j -> xys !! i = Some U -> xys !! j = Some V -> dist2 P Q <= dist2 U V) -> neighbour s p q.
Proof. intros HG HD. exact (cut_neighbour xys poly HG fuel s HD group p q P Q). Qed.
Print Assumptions C71_cut.
(* going from neighbour to neighbour reaches every site from every other *)
Theorem C71_linked (xys : list (pt RArith)) (poly : polygon RArith) fuel s p q : regular xys poly ->
  create_diagram RArith poly false fuel xys (init_state RArith (pg_points RArith poly)) = Val (s, tt) ->
  (p < length xys)%nat -> (q < length xys)%nat -> linked s p q.
Proof. intros HG HD. exact (all_linked xys poly HG fuel s HD p q). Qed.
Print Assumptions C71_linked.

(* four sites on a circle: the ones opposite to each other are no neighbours, though an edge of length
   zero is between two of them, and each is linked to each *)
Example C71_case : exists box s, bounding_box RArith (-3) 3 (-4) 5 = Val box /\ regular dia box /\
  create_diagram RArith box false 30 dia (init_state RArith (pg_points RArith box)) = Val (s, tt) /\
  neighbour s 0 2 /\ neighbour s 2 1 /\ ~ neighbour s 0 1 /\ linked s 0 1.
Proof.
  destruct (bounding_box_R (-3) 3 (-4) 5) as (box & HB & HL & _ & _ & E1 & E2); [lra..|]. pose proof (dia_regular box HB) as HG.
  destruct (C13_create_diagram_returns dia box 30 dia_nodup) as [s HD]; [simpl; lia|rewrite HL; simpl; lia|simpl; lia| |].
  { change (finish_sweep_line RArith box) with (pg_min_y RArith box - Rabs (pg_max_y RArith box)). rewrite E1, E2. rewrite (Rabs_pos_eq 5) by lra. unfold dia. repeat constructor; cbn [snd]; lra. }
  exists box, s. split; [done|]. split; [done|]. split; [done|]. split; [|split; [|split]].
  - apply (C71_nearest dia box 30 s 0 2 (-2, 0) (0, -2) HG HD); [done..|]. intros k T HT N. destruct k as [|[|[|[|k]]]]; [done| | | |done]; injection HT as <-; unfold dist2; cbn [fst snd]; lra.
  - apply (C71_nearest dia box 30 s 2 1 (0, -2) (2, 0) HG HD); [done..|]. intros k T HT N. destruct k as [|[|[|[|k]]]]; [| |done| |done]; injection HT as <-; unfold dist2; cbn [fst snd]; lra.
  - rewrite (C71_neighbours dia box 30 s 0 1 HG HD). intros (_ & y & z & N & _ & _ & (P & EP & A1 & A2 & A3 & A4)%dia_le & (Q & EQ & B1 & B2 & B3 & B4)%dia_le & (P' & EP' & C1 & C2 & C3 & C4)%dia_le & (Q' & EQ' & D1 & D2 & D3 & D4)%dia_le).
    injection EP as <-. injection EQ as <-. injection EP' as <-. injection EQ' as <-. apply N. destruct y as [y1 y2], z as [z1 z2]. unfold dist2 in *; cbn [fst snd] in *. f_equal; lra.
  - apply (C71_linked dia box 30 s 0 1 HG HD); simpl; lia.
Qed.

(* a corner of a triangle against the other two, and two corners with an empty disk over their side *)
Example C71_cut_case : exists box s, bounding_box RArith (-1) 3 (-1) 4 = Val box /\ regular tri box /\
  create_diagram RArith box false 22 tri (init_state RArith (pg_points RArith box)) = Val (s, tt) /\ neighbour s 0 1 /\ neighbour s 0 2.
Proof.
  destruct (bounding_box_R (-1) 3 (-1) 4) as (box & HB & HL & _); [lra..|]. pose proof (tri_regular box HB) as HG. destruct (tri_runs box HB) as [s HD].
  exists box, s. split; [done|]. split; [done|]. split; [done|]. split.
  - apply (C71_cut tri box 22 s (fun k => k <> 1%nat) 0 1 (0, 0) (2, 0) HG HD); [done|tauto|done..|]. intros i j U V Hi Hj EU EV. assert (j = 1%nat) as -> by (destruct (decide (j = 1%nat)); [done|tauto]).
    injection EV as <-. destruct i as [|[|[|i]]]; [|done| |done]; injection EU as <-; unfold dist2; cbn [fst snd]; lra.
  - apply (C71_gabriel tri box 22 s 0 2 (0, 0) (0, 2) HG HD); [done..|]. intros k T ET N1 N2. destruct k as [|[|[|k]]]; [done| |done|done]. injection ET as <-. unfold dist2, middle; cbn [fst snd]. lra.
Qed.

(* the default call, when at most three sites are nearest to any point *)
Theorem C71_default (xys : list (pt RArith)) (poly : polygon RArith) fuel s : regular xys poly -> at_most_three xys (pg_points RArith poly) ->
  create_diagram RArith poly true fuel xys (init_state RArith (pg_points RArith poly)) = Val (s, tt) ->
  (forall p q, neighbour s p q <-> touch xys (pg_points RArith poly) p q) /\ forall p q, (p < length xys)%nat -> (q < length xys)%nat -> linked s p q.
Proof.
  intros HG N4 HD. rewrite (C60_default_diagram xys poly fuel HG N4) in HD. split; [intros p q; exact (C71_neighbours xys poly fuel s p q HG HD)|intros p q; exact (C71_linked xys poly fuel s p q HG HD)].
Qed.
Print Assumptions C71_default.

(* ---------- C72 ---------- *)
(* with one more site in the same polygon every cell is a part of what it was *)
Theorem C72_shrinks (xys : list (pt RArith)) (new : pt RArith) (poly : polygon RArith) fuel fuel' s s' p l l' f f' : regular xys poly -> regular (xys ++ [new]) poly ->
  create_diagram RArith poly false fuel xys (init_state RArith (pg_points RArith poly)) = Val (s, tt) ->
  create_diagram RArith poly false fuel' (xys ++ [new]) (init_state RArith (pg_points RArith poly)) = Val (s', tt) ->
  (p < length xys)%nat -> borders RArith s f p = Val l -> borders RArith s' f' p = Val l' ->
  forall z, enclosed s' l' z -> enclosed s l z.
Proof.
  intros HG HG' HD HD' Hp Hl Hl' z. destruct (C57_cells xys poly fuel s p HG HD Hp) as [_ X]. destruct (C57_cells (xys ++ [new]) poly fuel' s' p HG' HD' ltac:(rewrite app_length; lia)) as [_ X'].
  rewrite <- (X l f Hl), <- (X' l' f' Hl'). intros [HN HE]. split; [|done]. by apply (fewer_nearest xys new).
Qed.
Print Assumptions C72_shrinks.
(* and is what it was if it is no neighbour of the new one *)
Theorem C72_far (xys : list (pt RArith)) (new : pt RArith) (poly : polygon RArith) fuel fuel' s s' p l l' f f' : regular xys poly -> regular (xys ++ [new]) poly ->
  create_diagram RArith poly false fuel xys (init_state RArith (pg_points RArith poly)) = Val (s, tt) ->
  create_diagram RArith poly false fuel' (xys ++ [new]) (init_state RArith (pg_points RArith poly)) = Val (s', tt) ->
  (p < length xys)%nat -> borders RArith s f p = Val l -> borders RArith s' f' p = Val l' ->
  ~ neighbour s' p (length xys) -> forall z, enclosed s' l' z <-> enclosed s l z.
Proof.
  intros HG HG' HD HD' Hp Hl Hl' NN z. destruct (C57_cells xys poly fuel s p HG HD Hp) as [_ X]. destruct (C57_cells (xys ++ [new]) poly fuel' s' p HG' HD' ltac:(rewrite app_length; lia)) as [_ X'].
  rewrite <- (X l f Hl), <- (X' l' f' Hl'). split; intros [HN HE]; (split; [|done]); [by apply (fewer_nearest xys new)|].
  apply (kept_nearest xys new poly HG' p z HN HE). intros HT. apply NN. by apply (C71_neighbours (xys ++ [new]) poly fuel' s' p (length xys) HG' HD').
Qed.
Print Assumptions C72_far.

(* three sites around (0, 0), and a fourth opposite to the first: the cell of the first stays as it is,
   the other two lose the point (1, 0) *)
Definition left3 : list rpt := [(-2, 0); (0, -2); (0, 2)].
Lemma left3_nodup : NoDup (left3 : list (pt RArith)).
Proof. unfold left3. repeat constructor; rewrite ?elem_of_cons, ?elem_of_nil; intros X; repeat (destruct X as [X|X]; [injection X; intros; lra|]); done. Qed.
Lemma left3_le k z : nearest left3 k z -> exists P : rpt, left3 !! k = Some P /\ dist2 P z <= dist2 (-2, 0) z /\ dist2 P z <= dist2 (0, -2) z /\ dist2 P z <= dist2 (0, 2) z.
Proof. intros (P & HP & HM). exists P. split; [done|]. repeat split; apply HM; unfold left3; rewrite !elem_of_cons; auto. Qed.
Lemma left3_vertex z : voronoi_vertex left3 z -> z = (0, 0).
Proof.
  intros (a & b & c & N & (P & HP & A1 & A2 & A3)%left3_le & (Q & HQ & B1 & B2 & B3)%left3_le & (U & HU & C1 & C2 & C3)%left3_le). destruct z as [x y].
  apply NoDup_cons in N as [N1 N]. apply NoDup_cons in N as [N2 _]. rewrite !elem_of_cons, elem_of_nil in *.
  destruct a as [|[|[|a]]]; try done; injection HP as <-; destruct b as [|[|[|b]]]; try done; try tauto; injection HQ as <-; destruct c as [|[|[|c]]]; try done; try tauto; injection HU as <-;
    unfold dist2 in *; cbn [fst snd] in *; f_equal; lra.
Qed.
Lemma left3_fits : box_fits left3 (-3) 3 (-4) 5.
Proof.
  split; [|split].
  - intros P HP. unfold left3 in HP. repeat (apply elem_of_cons in HP as [-> |HP]; [unfold in_box; cbn [fst snd]; lra|]). by apply elem_of_nil in HP.
  - intros [x y] [[X1 X2] [Y1 Y2]]. cbn [fst snd] in *. destruct (Rle_lt_dec y 0) as [L|L].
    + exists (0, -2). split; [unfold left3; rewrite !elem_of_cons; auto|]. unfold dist2; cbn [fst snd]. nra.
    + exists (0, 2). split; [unfold left3; rewrite !elem_of_cons; auto|]. unfold dist2; cbn [fst snd]. nra.
  - intros z Hz. apply left3_vertex in Hz as ->. unfold inside_box; cbn [fst snd]; lra.
Qed.
Lemma left3_regular box : bounding_box RArith (-3) 3 (-4) 5 = Val box -> regular left3 box.
Proof.
  apply box_regular; [exact left3_nodup|lra|lra|exact left3_fits| |].
  - intros P HP. unfold left3 in HP. repeat (apply elem_of_cons in HP as [-> |HP]; [unfold inside_box; cbn [fst snd]; lra|]). by apply elem_of_nil in HP.
  - intros c p q Hc (P & HP & A1 & A2 & A3)%left3_le (Q & HQ & B1 & B2 & B3)%left3_le.
    repeat (apply elem_of_cons in Hc as [-> |Hc]); [..|by apply elem_of_nil in Hc];
      destruct p as [|[|[|p]]]; try done; injection HP as <-; destruct q as [|[|[|q]]]; try done; injection HQ as <-; unfold dist2 in *; cbn [fst snd] in *; lra.
Qed.
Example C72_case : exists box s s' l l' f f' m m' g g', bounding_box RArith (-3) 3 (-4) 5 = Val box /\ regular left3 box /\ regular (left3 ++ [(2, 0)]) box /\
  create_diagram RArith box false 30 left3 (init_state RArith (pg_points RArith box)) = Val (s, tt) /\
  create_diagram RArith box false 30 (left3 ++ [(2, 0)]) (init_state RArith (pg_points RArith box)) = Val (s', tt) /\
  borders RArith s f 0 = Val l /\ borders RArith s' f' 0 = Val l' /\ ~ neighbour s' 0 3 /\ (forall z, enclosed s' l' z <-> enclosed s l z) /\
  borders RArith s g 1 = Val m /\ borders RArith s' g' 1 = Val m' /\ enclosed s m (1, 0) /\ ~ enclosed s' m' (1, 0).
Proof.
  destruct (bounding_box_R (-3) 3 (-4) 5) as (box & HB & HL & _ & _ & E1 & E2); [lra..|]. pose proof (left3_regular box HB) as HG.
  assert (HG' : regular (left3 ++ [(2, 0)]) box).
  { assert (HP : left3 ++ [(2, 0)] ≡ₚ dia). { unfold left3, dia; cbn [app]. apply perm_skip. symmetry. change [(0, -2); (0, 2); (2, 0)] with ([(0, -2); (0, 2)] ++ [(2, 0)]). apply Permutation_cons_append. }
    apply (regular_along (fun z => z) (fun z => z) 1 1 dia _ box box id_sim); try done; try (by rewrite map_same); [exact (dia_regular box HB)|apply (r_convex _ _ HG)]. }
  assert (RUN : forall xys : list (pt RArith), regular xys box -> (1 <= length xys <= 4)%nat -> Forall (fun P : rpt => -9 < snd P) xys -> exists s, create_diagram RArith box false 30 xys (init_state RArith (pg_points RArith box)) = Val (s, tt)).
  { intros xys HR HN HF. apply (C13_create_diagram_returns xys box 30 (r_distinct _ _ HR)); [lia|rewrite HL; simpl; lia|lia|].
    change (finish_sweep_line RArith box) with (pg_min_y RArith box - Rabs (pg_max_y RArith box)). rewrite E1, E2. rewrite (Rabs_pos_eq 5) by lra. eapply Forall_impl; [exact HF|]. intros [px py] HP. cbn [snd] in HP |- *. change (-9 < py) in HP. change (-4 - 5 <= py). lra. }
  destruct (RUN left3 HG) as [s HD]; [simpl; lia|unfold left3; repeat constructor; cbn [snd]; lra|]. destruct (RUN _ HG') as [s' HD']; [simpl; lia|unfold left3; cbn [app]; repeat constructor; cbn [snd]; lra|].
  destruct (C57_cells left3 box 30 s 0 HG HD ltac:(simpl; lia)) as [(l & f & Hl) _]. destruct (C57_cells _ box 30 s' 0 HG' HD' ltac:(simpl; lia)) as [(l' & f' & Hl') _].
  destruct (C57_cells left3 box 30 s 1 HG HD ltac:(simpl; lia)) as [(m & g & Hm) X]. destruct (C57_cells _ box 30 s' 1 HG' HD' ltac:(simpl; lia)) as [(m' & g' & Hm') X'].
  assert (NN : ~ neighbour s' 0 3).
  { rewrite (C71_neighbours _ box 30 s' 0 3 HG' HD'). intros (_ & [y1 y2] & [z1 z2] & N & _ & _ & (P & EP & A) & (Q & EQ & B) & (P' & EP' & C) & (Q' & EQ' & E)).
    injection EP as <-. injection EQ as <-. injection EP' as <-. injection EQ' as <-. apply N. unfold left3 in *; cbn [app] in *.
    pose proof (A (2, 0) ltac:(rewrite !elem_of_cons; auto 6)) as A1. pose proof (A (0, -2) ltac:(rewrite !elem_of_cons; auto 6)) as A2. pose proof (A (0, 2) ltac:(rewrite !elem_of_cons; auto 6)) as A3. pose proof (B (-2, 0) ltac:(rewrite !elem_of_cons; auto 6)) as B1.
    pose proof (C (2, 0) ltac:(rewrite !elem_of_cons; auto 6)) as C1. pose proof (C (0, -2) ltac:(rewrite !elem_of_cons; auto 6)) as C2. pose proof (C (0, 2) ltac:(rewrite !elem_of_cons; auto 6)) as C3. pose proof (E (-2, 0) ltac:(rewrite !elem_of_cons; auto 6)) as F1.
    clear A B C E. unfold dist2 in *; cbn [fst snd] in *. f_equal; lra. }
  exists box, s, s', l, l', f, f', m, m', g, g'. split; [done|]. split; [done|]. split; [done|]. split; [done|]. split; [done|]. split; [done|]. split; [done|]. split; [done|]. split.
  { exact (C72_far left3 (2, 0) box 30 30 s s' 0 l l' f f' HG HG' HD HD' ltac:(simpl; lia) Hl Hl' NN). }
  split; [done|]. split; [done|]. rewrite <- (X m g Hm), <- (X' m' g' Hm'). split.
  - split; [|rewrite HL; apply box_exterior; [lra..|]; unfold in_box; cbn [fst snd]; lra]. exists (0, -2). split; [done|]. intros Q HQ. unfold left3 in HQ. rewrite !elem_of_cons, elem_of_nil in HQ. destruct HQ as [-> |[-> |[-> |[]]]]; unfold dist2; cbn [fst snd]; lra.
  - intros [(P & EP & M) _]. injection EP as <-. specialize (M (2, 0) ltac:(unfold left3; cbn [app]; rewrite !elem_of_cons; auto 6)). unfold dist2 in M; cbn [fst snd] in M. lra.
Qed.
