(* PropGreedy.v -- C76: a cell depends on the neighbours of its site only, and going from neighbour to
   neighbour towards a point ends at its nearest site.  Exact arithmetic. *)
From stdpp Require Import base list sets.
From Coq Require Import ZArith Reals Lra Lia Psatz Relations Classical Sorted.
From Verif Require Import Arith Geom Monad Tree Heapq State Sweep Finish SweepBase Dcel SweepInv Spec SpecFinish RArith GeomReal AreaReal PolyReal ConvexReal EdgeReal CircleReal FinishReal VoronoiGeom Envelope
  SpecVoronoi VoronoiFacts ClipGeom SpecClip CellBorder CellFirst CellArea SpecMove CellSides SideFacts SpecNeighbours NeighbourFacts PropSweep PropFinish PropVoronoi PropEnvelope PropReal PropClip PropCells PropClean MoveGeom PropMove PropNeighbours GreedyFacts.
Local Open Scope R_scope.

(* site j is a neighbour of site i and nearer to z *)
Definition nearer_step (xys : list (pt RArith)) (s : state RArith) (z : rpt) (i j : nat) : Prop :=
  neighbour s i j /\ exists U V : rpt, xys !! i = Some U /\ xys !! j = Some V /\ dist2 V z < dist2 U z.

(* two sites are neighbours if and only if some circle with its centre inside the polygon passes through
   both of them and has all other sites strictly outside *)
Theorem C71_circle (xys : list (pt RArith)) (poly : polygon RArith) fuel s p q (P Q : rpt) : regular xys poly ->
  create_diagram RArith poly false fuel xys (init_state RArith (pg_points RArith poly)) = Val (s, tt) -> xys !! p = Some P -> xys !! q = Some Q ->
  neighbour s p q <-> p <> q /\ exists z, interior (pg_points RArith poly) z /\ dist2 P z = dist2 Q z /\ forall k T, xys !! k = Some T -> k <> p -> k <> q -> dist2 P z < dist2 T z.
Proof.
  intros HG HD EP EQ. rewrite (own_circle xys poly HG fuel s HD p q). assert (IP : P ∈ xys) by (by eapply elem_of_list_lookup_2). assert (IQ : Q ∈ xys) by (by eapply elem_of_list_lookup_2).
  split; intros (N & z & I & H); (split; [done|]); exists z; (split; [done|]).
  - destruct H as ((P' & E1 & M1) & (Q' & E2 & M2) & ONLY). assert (P' = P) as -> by (pose proof (eq_trans (eq_sym E1) EP) as Y; by injection Y). assert (Q' = Q) as -> by (pose proof (eq_trans (eq_sym E2) EQ) as Y; by injection Y).
    split; [apply Rle_antisym; [by apply M1|by apply M2]|]. intros k T ET N1 N2. apply Rnot_le_lt. intros L. destruct (ONLY k); [|done|done]. exists T. split; [done|]. intros U HU. eapply Rle_trans; [exact L|by apply M1].
  - destruct H as (E & FAR).
    assert (ALL : forall T : rpt, T ∈ xys -> dist2 P z <= dist2 T z).
    { intros T [k Hk]%elem_of_list_lookup. destruct (decide (k = p)) as [-> |N1]; [pose proof (eq_trans (eq_sym Hk) EP) as Y; injection Y as ->; apply Rle_refl|].
      destruct (decide (k = q)) as [-> |N2]; [pose proof (eq_trans (eq_sym Hk) EQ) as Y; injection Y as ->; by apply Req_le|]. left. by apply (FAR k). }
    split; [by exists P|]. split; [exists Q; split; [done|]; intros T HT; rewrite <- E; by apply ALL|]. intros k (T & ET & MT). destruct (decide (k = p)) as [-> |N1]; [by left|]. destruct (decide (k = q)) as [-> |N2]; [by right|].
    exfalso. specialize (FAR k T ET N1 N2). specialize (MT P IP). lra.
Qed.
Print Assumptions C71_circle.

(* a point of the polygon to which no neighbour of p is nearer than p has p as a nearest site *)
Theorem C76_local (xys : list (pt RArith)) (poly : polygon RArith) fuel s p (P z : rpt) : regular xys poly ->
  create_diagram RArith poly false fuel xys (init_state RArith (pg_points RArith poly)) = Val (s, tt) ->
  xys !! p = Some P -> ~ exterior (pg_points RArith poly) z ->
  nearest xys p z <-> forall q Q, neighbour s p q -> xys !! q = Some Q -> dist2 P z <= dist2 Q z.
Proof. intros HG HD. exact (local_nearest xys poly HG fuel s HD p P z). Qed.
Print Assumptions C76_local.
(* going to a nearer neighbour as long as there is one reaches a nearest site, whatever the start ... *)
Theorem C76_reaches (xys : list (pt RArith)) (poly : polygon RArith) fuel s p (z : rpt) : regular xys poly ->
  create_diagram RArith poly false fuel xys (init_state RArith (pg_points RArith poly)) = Val (s, tt) ->
  (p < length xys)%nat -> ~ exterior (pg_points RArith poly) z ->
  (exists q, clos_refl_trans nat (nearer_step xys s z) p q /\ nearest xys q z) /\
  (forall q, clos_refl_trans nat (nearer_step xys s z) p q -> (forall k, ~ nearer_step xys s z q k) -> nearest xys q z).
Proof.
  intros HG HD Lp Xz. split; [exact (greedy_reaches xys poly HG fuel s HD p z Lp Xz)|]. intros q HR HN. apply NNPP. intros NN.
  assert (exists Q, xys !! q = Some Q) as [Q EQ].
  { apply clos_rt_rtn1 in HR. destruct HR as [|y q' (_ & U & V & _ & EV & _) _]; [|by exists V]. destruct (lookup_lt_is_Some_2 xys p Lp) as [P EP]. by exists P. }
  destruct (nearer_neighbour xys poly HG fuel s HD q Q z EQ Xz NN) as (k & T & K1 & K2 & K3). apply (HN k). split; [done|]. by exists Q, T.
Qed.
Print Assumptions C76_reaches.
(* ... in fewer steps than there are sites *)
Theorem C76_steps (xys : list (pt RArith)) (s : state RArith) (z : rpt) (walk : list nat) : (forall k, k ∈ walk -> (k < length xys)%nat) ->
  (forall i p q, walk !! i = Some p -> walk !! S i = Some q -> nearer_step xys s z p q) -> (length walk <= length xys)%nat.
Proof.
  intros HB HS. set (R0 := fun i j => forall U V : rpt, xys !! i = Some U -> xys !! j = Some V -> dist2 V z < dist2 U z).
  assert (SS : forall i j p q, walk !! i = Some p -> walk !! j = Some q -> (i < j)%nat -> R0 p q).
  { intros i j p q Hi Hj Hij. revert q Hj. induction Hij as [|j Hij IH]; intros q Hj.
    - destruct (HS i p q Hi Hj) as (_ & U' & V' & E1 & E2 & L). intros U V E3 E4. assert (U = U') by congruence. assert (V = V') by congruence. by subst.
    - destruct (lookup_lt_is_Some_2 walk j) as [k Hk]; [apply lookup_lt_Some in Hj; lia|]. specialize (IH k Hk).
      destruct (HS j k q Hk Hj) as (_ & U' & V' & E1 & E2 & L). intros U V E3 E4. specialize (IH U U' E3 E1). assert (V = V') by congruence. subst V'. lra. }
  assert (NoDup walk).
  { apply NoDup_alt. intros i j p Hi Hj. destruct (lookup_lt_is_Some_2 xys p (HB p ltac:(by eapply elem_of_list_lookup_2))) as [P EP].
    destruct (Nat.lt_trichotomy i j) as [L|[E|L]]; [|done|]; exfalso; [pose proof (SS i j p p Hi Hj L P P EP EP)|pose proof (SS j i p p Hj Hi L P P EP EP)]; change (D RArith) with R in *; lra. }
  assert (INC : walk ⊆ seq 0 (length xys)) by (intros k Hk; apply elem_of_seq; specialize (HB k Hk); lia).
  pose proof (submseteq_length _ _ (NoDup_submseteq walk _ H INC)) as L. by rewrite seq_length in L.
Qed.
Print Assumptions C76_steps.
(* the second nearest site to a point is a neighbour of the nearest *)
Theorem C76_second (xys : list (pt RArith)) (poly : polygon RArith) fuel s p q (P Q z : rpt) : regular xys poly ->
  create_diagram RArith poly false fuel xys (init_state RArith (pg_points RArith poly)) = Val (s, tt) ->
  p <> q -> xys !! p = Some P -> xys !! q = Some Q -> ~ exterior (pg_points RArith poly) z ->
  (forall k T, xys !! k = Some T -> k <> p -> dist2 P z < dist2 T z /\ dist2 Q z <= dist2 T z) -> neighbour s p q.
Proof. intros HG HD. exact (second_nearest xys poly HG fuel s HD p q P Q z). Qed.
Print Assumptions C76_second.
(* without any of the sites that are no neighbours of P, in any order, borders() of P goes around the same cell *)
Theorem C76_remove (xys xys' : list (pt RArith)) (poly : polygon RArith) fuel fuel' s s' p p' (P : rpt) l l' f f' : regular xys poly -> regular xys' poly ->
  create_diagram RArith poly false fuel xys (init_state RArith (pg_points RArith poly)) = Val (s, tt) ->
  create_diagram RArith poly false fuel' xys' (init_state RArith (pg_points RArith poly)) = Val (s', tt) ->
  xys' ⊆ xys -> xys !! p = Some P -> xys' !! p' = Some P -> (forall q Q, neighbour s p q -> xys !! q = Some Q -> Q ∈ xys') ->
  borders RArith s f p = Val l -> borders RArith s' f' p' = Val l' -> forall z, enclosed s' l' z <-> enclosed s l z.
Proof.
  intros HG HG' HD HD' HI EP EP' HN Hl Hl' z.
  destruct (C57_cells xys poly fuel s p HG HD ltac:(by eapply lookup_lt_Some)) as [_ X]. destruct (C57_cells xys' poly fuel' s' p' HG' HD' ltac:(by eapply lookup_lt_Some)) as [_ X'].
  rewrite <- (X l f Hl), <- (X' l' f' Hl'). split; intros [HM HE]; (split; [|done]).
  - apply (C76_local xys poly fuel s p P z HG HD EP HE). intros q Q Hq EQ. destruct HM as (P' & E' & M). assert (P' = P) as -> by (pose proof (eq_trans (eq_sym E') EP') as Y; by injection Y). apply M. by apply (HN q).
  - destruct HM as (P' & E' & M). assert (P' = P) as -> by (pose proof (eq_trans (eq_sym E') EP) as Y; by injection Y). exists P. split; [done|]. intros Q HQ. apply M. by apply HI.
Qed.
Print Assumptions C76_remove.
(* the default call, when at most three sites are nearest to any point *)
Theorem C76_default (xys : list (pt RArith)) (poly : polygon RArith) fuel s p (z : rpt) : regular xys poly -> at_most_three xys (pg_points RArith poly) ->
  create_diagram RArith poly true fuel xys (init_state RArith (pg_points RArith poly)) = Val (s, tt) ->
  (p < length xys)%nat -> ~ exterior (pg_points RArith poly) z ->
  (exists q, clos_refl_trans nat (nearer_step xys s z) p q /\ nearest xys q z) /\
  (forall q, clos_refl_trans nat (nearer_step xys s z) p q -> (forall k, ~ nearer_step xys s z q k) -> nearest xys q z).
Proof. intros HG N4 HD. rewrite (C60_default_diagram xys poly fuel HG N4) in HD. exact (C76_reaches xys poly fuel s p z HG HD). Qed.
Print Assumptions C76_default.

(* four sites on a circle: from the left one to a point beside the right one, which is no neighbour, it takes
   two steps; and without the right one the left one keeps its cell *)
Lemma dia_run box : bounding_box RArith (-3) 3 (-4) 5 = Val box -> forall xys : list (pt RArith), regular xys box -> (1 <= length xys <= 4)%nat -> Forall (fun P : rpt => -9 < snd P) xys -> exists s, create_diagram RArith box false 30 xys (init_state RArith (pg_points RArith box)) = Val (s, tt).
Proof.
  intros HB xys HR HN HF. destruct (bounding_box_R (-3) 3 (-4) 5) as (b & HB' & HL & _ & _ & E1 & E2); [lra..|]. assert (b = box) as -> by congruence.
  apply (C13_create_diagram_returns xys box 30 (r_distinct _ _ HR)); [lia|rewrite HL; simpl; lia|lia|].
  change (finish_sweep_line RArith box) with (pg_min_y RArith box - Rabs (pg_max_y RArith box)). rewrite E1, E2. rewrite (Rabs_pos_eq 5) by lra. eapply Forall_impl; [exact HF|]. intros [px py] HP. cbn [snd] in HP |- *. change (-9 < py) in HP. change (-4 - 5 <= py). lra.
Qed.
Example C76_case : exists box s, bounding_box RArith (-3) 3 (-4) 5 = Val box /\ regular dia box /\
  create_diagram RArith box false 30 dia (init_state RArith (pg_points RArith box)) = Val (s, tt) /\
  ~ neighbour s 0 1 /\ nearest dia 1 (5 / 2, 1 / 4) /\ nearer_step dia s (5 / 2, 1 / 4) 0 2 /\ nearer_step dia s (5 / 2, 1 / 4) 2 1.
Proof.
  destruct C71_case as (box & s & HB & HG & HD & N02 & N21 & N01 & _). exists box, s. do 4 (split; [done|]). split; [|split].
  - exists (2, 0). split; [done|]. intros Q HQ. unfold dia in HQ. rewrite !elem_of_cons, elem_of_nil in HQ. destruct HQ as [-> |[-> |[-> |[-> |[]]]]]; unfold dist2; cbn [fst snd]; lra.
  - split; [done|]. exists (-2, 0), (0, -2). split; [done|]. split; [done|]. unfold dist2; cbn [fst snd]; lra.
  - split; [done|]. exists (0, -2), (2, 0). split; [done|]. split; [done|]. unfold dist2; cbn [fst snd]; lra.
Qed.
Example C71_circle_case : exists box s z, bounding_box RArith (-3) 3 (-4) 5 = Val box /\ regular dia box /\
  create_diagram RArith box false 30 dia (init_state RArith (pg_points RArith box)) = Val (s, tt) /\
  interior (pg_points RArith box) z /\ dist2 (-2, 0) z = dist2 (0, -2) z /\ dist2 (-2, 0) z < dist2 (2, 0) z.
Proof.
  destruct C71_case as (box & s & HB & HG & HD & N02 & _). apply (C71_circle dia box 30 s 0 2 (-2, 0) (0, -2) HG HD) in N02 as (_ & z & I & E & F); [|done|done].
  exists box, s, z. do 5 (split; [done|]). by apply (F 1%nat).
Qed.
Example C76_remove_case : exists box s s' l l' f f', bounding_box RArith (-3) 3 (-4) 5 = Val box /\ regular dia box /\ regular left3 box /\
  create_diagram RArith box false 30 dia (init_state RArith (pg_points RArith box)) = Val (s, tt) /\
  create_diagram RArith box false 30 left3 (init_state RArith (pg_points RArith box)) = Val (s', tt) /\
  borders RArith s f 0 = Val l /\ borders RArith s' f' 0 = Val l' /\ forall z, enclosed s' l' z <-> enclosed s l z.
Proof.
  destruct C71_case as (box & s & HB & HG & HD & N02 & N21 & N01 & _). pose proof (left3_regular box HB) as HG'.
  destruct (dia_run box HB left3 HG') as [s' HD']; [simpl; lia|unfold left3; repeat constructor; cbn [snd]; lra|].
  destruct (C57_cells dia box 30 s 0 HG HD ltac:(simpl; lia)) as [(l & f & Hl) _]. destruct (C57_cells left3 box 30 s' 0 HG' HD' ltac:(simpl; lia)) as [(l' & f' & Hl') _].
  exists box, s, s', l, l', f, f'. do 7 (split; [done|]). apply (C76_remove dia left3 box 30 30 s s' 0 0 (-2, 0) l l' f f' HG HG' HD HD'); [|done|done| |done|done].
  - intros Q HQ. unfold left3 in HQ. unfold dia. rewrite !elem_of_cons, elem_of_nil in *. tauto.
  - intros q Q Hq EQ. destruct q as [|[|[|[|q]]]]; [|done| | |done]; injection EQ as <-; unfold left3; rewrite !elem_of_cons; auto.
Qed.
