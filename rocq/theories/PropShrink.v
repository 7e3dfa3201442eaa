(* PropShrink.v -- C72: the areas of the cells when a site is added.  Exact arithmetic. *)
From stdpp Require Import base list sets.
From Coq Require Import ZArith Reals Lra Lia Psatz Classical.
From Verif Require Import Arith Geom Monad Tree Heapq State Sweep Finish SweepBase Dcel SweepInv Spec SpecFinish RArith GeomReal AreaReal PolyReal ConvexReal EdgeReal CircleReal FinishReal VoronoiGeom Envelope
  SpecVoronoi VoronoiFacts ClipGeom SpecClip CellBorder CellFirst CellArea SpecMove CellSides SideFacts SpecNeighbours NeighbourFacts PropGeom PropSweep PropFinish PropVoronoi PropEnvelope PropReal PropClip PropCells PropClean MoveGeom PropMove PropNeighbours ShrinkFacts.
Local Open Scope R_scope.

(* with one more site in the same polygon no cell gets larger *)
Theorem C72_area (xys : list (pt RArith)) (new : pt RArith) (poly : polygon RArith) fuel fuel' s s' p f f' a a' : regular xys poly -> regular (xys ++ [new]) poly ->
  create_diagram RArith poly false fuel xys (init_state RArith (pg_points RArith poly)) = Val (s, tt) ->
  create_diagram RArith poly false fuel' (xys ++ [new]) (init_state RArith (pg_points RArith poly)) = Val (s', tt) ->
  (p < length xys)%nat -> area RArith s f p = Val a -> area RArith s' f' p = Val a' -> a' <= a.
Proof.
  intros HG HG' HD HD' Hp Ha Ha'. destruct (lookup_lt_is_Some_2 xys p Hp) as [P EP]. exact (shrinks xys new poly HG HG' fuel s HD fuel' s' HD' p P EP f f' a a' Ha Ha').
Qed.
Print Assumptions C72_area.
(* the cells that are no neighbours of the new one keep their areas *)
Theorem C72_same_area (xys : list (pt RArith)) (new : pt RArith) (poly : polygon RArith) fuel fuel' s s' p f f' a a' : regular xys poly -> regular (xys ++ [new]) poly ->
  create_diagram RArith poly false fuel xys (init_state RArith (pg_points RArith poly)) = Val (s, tt) ->
  create_diagram RArith poly false fuel' (xys ++ [new]) (init_state RArith (pg_points RArith poly)) = Val (s', tt) ->
  (p < length xys)%nat -> area RArith s f p = Val a -> area RArith s' f' p = Val a' -> ~ neighbour s' p (length xys) -> a' = a.
Proof.
  intros HG HG' HD HD' Hp Ha Ha' NN. destruct (lookup_lt_is_Some_2 xys p Hp) as [P EP]. apply (same_area xys new poly HG HG' fuel s HD fuel' s' HD' p P EP f f' a a'); [|done..].
  intros HT. apply NN. by apply (C71_neighbours (xys ++ [new]) poly fuel' s' p (length xys) HG' HD').
Qed.
Print Assumptions C72_same_area.
(* and its neighbours lose some of theirs: the cells that get smaller are those of the neighbours *)
Theorem C72_loses (xys : list (pt RArith)) (new : pt RArith) (poly : polygon RArith) fuel fuel' s s' p f f' a a' : regular xys poly -> regular (xys ++ [new]) poly ->
  create_diagram RArith poly false fuel xys (init_state RArith (pg_points RArith poly)) = Val (s, tt) ->
  create_diagram RArith poly false fuel' (xys ++ [new]) (init_state RArith (pg_points RArith poly)) = Val (s', tt) ->
  (p < length xys)%nat -> area RArith s f p = Val a -> area RArith s' f' p = Val a' -> neighbour s' p (length xys) <-> a' < a.
Proof.
  intros HG HG' HD HD' Hp Ha Ha'. split.
  - intros HN. destruct (lookup_lt_is_Some_2 xys p Hp) as [P EP]. apply (loses xys new poly HG HG' fuel s HD fuel' s' HD' p P EP f f' a a'); [|done..].
    by apply (C71_neighbours (xys ++ [new]) poly fuel' s' p (length xys) HG' HD').
  - intros L. apply NNPP. intros NN. pose proof (C72_same_area xys new poly fuel fuel' s s' p f f' a a' HG HG' HD HD' Hp Ha Ha' NN). lra.
Qed.
Print Assumptions C72_loses.
(* what the former cells lose is the area of the new one *)
Lemma total_app l k : total (l ++ k) = total l + total k.
Proof. unfold total. induction l as [|x l IH]; cbn [app fold_right]; [lra|]. rewrite IH. lra. Qed.
Theorem C72_taken (xys : list (pt RArith)) (new : pt RArith) (poly : polygon RArith) fuel fuel' s s' : regular xys poly -> regular (xys ++ [new]) poly ->
  create_diagram RArith poly false fuel xys (init_state RArith (pg_points RArith poly)) = Val (s, tt) ->
  create_diagram RArith poly false fuel' (xys ++ [new]) (init_state RArith (pg_points RArith poly)) = Val (s', tt) ->
  exists (areas areas' : list R) (taken : R), length areas = length xys /\ length areas' = length xys /\
    (forall p a, areas !! p = Some a -> exists f, area RArith s f p = Val a) /\ (forall p a, areas' !! p = Some a -> exists f, area RArith s' f p = Val a) /\
    (exists f, area RArith s' f (length xys) = Val taken) /\ 0 < taken /\ total areas - total areas' = taken.
Proof.
  intros HG HG' HD HD'. destruct (C58_areas xys poly fuel s HG HD) as (l & L1 & L2 & L3). destruct (C58_areas (xys ++ [new]) poly fuel' s' HG' HD') as (l' & M1 & M2 & M3).
  rewrite app_length in M1; cbn [length] in M1. destruct (exists_last (l := l')) as (k & x & ->); [intros ->; cbn in M1; lia|]. rewrite app_length in M1; cbn [length] in M1. assert (M1' : length k = length xys) by lia.
  exists l, k, x. split; [done|]. split; [done|]. split; [intros p a H; apply (L3 p a H)|]. split; [intros p a H; apply (M3 p a); by apply lookup_app_l_Some|].
  destruct (M3 (length xys) x) as (X1 & X2 & _); [rewrite <- M1'; by apply list_lookup_middle|]. split; [done|]. split; [done|]. rewrite total_app in M2. assert (E : total [x] = x) by (unfold total; cbn [fold_right]; lra). rewrite E in M2. change (D RArith) with R in *. lra.
Qed.
Print Assumptions C72_taken.

(* three sites around (0, 0), and a fourth opposite to the first: the cell of the first keeps its area,
   the second and the third lose what the fourth has *)
Example C72_area_case : exists box s s', bounding_box RArith (-3) 3 (-4) 5 = Val box /\ regular left3 box /\ regular (left3 ++ [(2, 0)]) box /\
  create_diagram RArith box false 30 left3 (init_state RArith (pg_points RArith box)) = Val (s, tt) /\
  create_diagram RArith box false 30 (left3 ++ [(2, 0)]) (init_state RArith (pg_points RArith box)) = Val (s', tt) /\
  ~ neighbour s' 0 3 /\ neighbour s' 1 3 /\ neighbour s' 2 3 /\ exists a0 a1 a2 b1 b2 b3 f0 f1 f2 g0 g1 g2 g3,
    area RArith s f0 0 = Val a0 /\ area RArith s f1 1 = Val a1 /\ area RArith s f2 2 = Val a2 /\
    area RArith s' g0 0 = Val a0 /\ area RArith s' g1 1 = Val b1 /\ area RArith s' g2 2 = Val b2 /\ area RArith s' g3 3 = Val b3 /\ b1 < a1 /\ b2 < a2 /\ b3 = (a1 - b1) + (a2 - b2).
Proof.
  destruct C72_case as (box & s & s' & _ & _ & _ & _ & _ & _ & _ & _ & HB & HG & HG' & HD & HD' & _ & _ & NN & _). exists box, s, s'. do 6 (split; [done|]).
  destruct (bounding_box_R (-3) 3 (-4) 5) as (box' & HB' & HL & _); [lra..|]. assert (box' = box) as -> by congruence.
  assert (NEAR : forall k (K : rpt) z, (left3 ++ [(2, 0)]) !! k = Some K -> dist2 K z <= dist2 (-2, 0) z -> dist2 K z <= dist2 (0, -2) z -> dist2 K z <= dist2 (0, 2) z -> dist2 K z <= dist2 (2, 0) z -> nearest (left3 ++ [(2, 0)]) k z).
  { intros k K z E H1 H2 H3 H4. exists K. split; [done|]. intros Q HQ. unfold left3 in HQ; cbn [app] in HQ. rewrite !elem_of_cons, elem_of_nil in HQ. destruct HQ as [-> |[-> |[-> |[-> |[]]]]]; done. }
  assert (N1 : neighbour s' 1 3).
  { apply (C71_neighbours _ box 30 s' 1 3 HG' HD'). split; [done|]. exists (0, 0), (1, -1). split; [intros E; injection E; lra|]. split; [rewrite HL; apply box_exterior; [lra..|]; unfold in_box; cbn [fst snd]; lra|]. split; [rewrite HL; apply box_exterior; [lra..|]; unfold in_box; cbn [fst snd]; lra|].
    split; [|split; [|split]]; (eapply NEAR; [reflexivity|unfold dist2; cbn [fst snd]; lra..]). }
  assert (N2 : neighbour s' 2 3).
  { apply (C71_neighbours _ box 30 s' 2 3 HG' HD'). split; [done|]. exists (0, 0), (1, 1). split; [intros E; injection E; lra|]. split; [rewrite HL; apply box_exterior; [lra..|]; unfold in_box; cbn [fst snd]; lra|]. split; [rewrite HL; apply box_exterior; [lra..|]; unfold in_box; cbn [fst snd]; lra|].
    split; [|split; [|split]]; (eapply NEAR; [reflexivity|unfold dist2; cbn [fst snd]; lra..]). }
  split; [done|]. split; [done|].
  destruct (C72_taken left3 (2, 0) box 30 30 s s' HG HG' HD HD') as (l & l' & b3 & L1 & L2 & L3 & L4 & [g3 B3] & _ & T). cbn in L1, L2.
  destruct l as [|a0 [|a1 [|a2 [|? l]]]]; try done. destruct l' as [|b0 [|b1 [|b2 [|? l']]]]; try done.
  destruct (L3 0%nat a0 eq_refl) as [f0 A0]. destruct (L3 1%nat a1 eq_refl) as [f1 A1]. destruct (L3 2%nat a2 eq_refl) as [f2 A2].
  destruct (L4 0%nat b0 eq_refl) as [g0 B0]. destruct (L4 1%nat b1 eq_refl) as [g1 B1]. destruct (L4 2%nat b2 eq_refl) as [g2 B2].
  pose proof (C72_same_area left3 (2, 0) box 30 30 s s' 0 f0 g0 a0 b0 HG HG' HD HD' ltac:(cbn; lia) A0 B0 NN) as E0. subst b0.
  pose proof (proj1 (C72_loses left3 (2, 0) box 30 30 s s' 1 f1 g1 a1 b1 HG HG' HD HD' ltac:(cbn; lia) A1 B1) N1). pose proof (proj1 (C72_loses left3 (2, 0) box 30 30 s s' 2 f2 g2 a2 b2 HG HG' HD HD' ltac:(cbn; lia) A2 B2) N2).
  exists a0, a1, a2, b1, b2, b3, f0, f1, f2, g0, g1, g2, g3. do 9 (split; [done|]). unfold total in T; cbn [fold_right] in T. lra.
Qed.
