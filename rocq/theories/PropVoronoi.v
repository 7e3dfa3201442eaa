(* PropVoronoi.v -- the diagram that the sweep builds is the Voronoi diagram of its sites (C46,
   C47, C55): in exact arithmetic, for every list of pairwise distinct sites. *)
From stdpp Require Import base list sets.
From Coq Require Import ZArith Reals Lra Lia.
From Verif Require Import Arith Geom Monad State Sweep Spec SweepFacts RArith GeomReal SweepTotal SpecVoronoi VoronoiFacts.
Local Open Scope R_scope.

Lemma sweep_over (xys corners : list (pt RArith)) fuel s : NoDup xys -> sweep RArith fuel xys (init_state RArith corners) = Val (s, tt) ->
  exists s0 idx hist log, swept RArith xys corners s0 idx hist /\ s = set_log log s0.
Proof.
  intros ND HS. destruct (sweep_swept RArith xys corners RArith_order fuel s HS) as (s0 & idx & hist & H1 & H2). eauto 10.
Qed.

(* ---------- C46 ---------- *)
(* every point of an edge is as near to the edge's two sites as to any other site *)
Theorem C46_edges_are_voronoi (xys corners : list (pt RArith)) fuel s e f p q z : NoDup xys ->
  sweep RArith fuel xys (init_state RArith corners) = Val (s, tt) ->
  edge_point xys s e f p q z -> nearest xys p z /\ nearest xys q z.
Proof.
  intros ND HS. destruct (sweep_over _ _ _ _ ND HS) as (s0 & idx & hist & log & H1 & ->). exact (edge_nearest xys corners ND s0 (swept_over xys corners ND _ _ _ H1) e f p q z).
Qed.
Print Assumptions C46_edges_are_voronoi.
(* every point with two nearest sites is on an edge, between two sites nearest to it *)
Theorem C46_voronoi_has_edges (xys corners : list (pt RArith)) fuel s p q z : NoDup xys ->
  sweep RArith fuel xys (init_state RArith corners) = Val (s, tt) ->
  p <> q -> nearest xys p z -> nearest xys q z ->
  exists e f p' q', p' <> q' /\ edge_point xys s e f p' q' z /\ nearest xys p' z /\ nearest xys q' z.
Proof.
  intros ND HS. destruct (sweep_over _ _ _ _ ND HS) as (s0 & idx & hist & log & H1 & ->). pose proof (swept_over xys corners ND _ _ _ H1) as HO. intros N Hp Hq.
  destruct (nearest_edge xys corners ND s0 HO p q z N Hp Hq) as (e & f & p' & q' & N' & HE). destruct (edge_nearest xys corners ND s0 HO e f p' q' z HE) as [X Y]. exists e, f, p', q'. auto.
Qed.
Print Assumptions C46_voronoi_has_edges.
(* between these two, if they are the only ones *)
Theorem C46_pair (xys corners : list (pt RArith)) fuel s p q z : NoDup xys ->
  sweep RArith fuel xys (init_state RArith corners) = Val (s, tt) ->
  p <> q -> nearest xys p z -> nearest xys q z -> (forall r, nearest xys r z -> r = p \/ r = q) ->
  exists e f, edge_point xys s e f p q z.
Proof.
  intros ND HS. destruct (sweep_over _ _ _ _ ND HS) as (s0 & idx & hist & log & H1 & ->). exact (pair_edge xys corners ND s0 (swept_over xys corners ND _ _ _ H1) p q z).
Qed.
Print Assumptions C46_pair.

(* ---------- C47 ---------- *)
(* a point is a vertex of the diagram if and only if three sites are nearest to it *)
Theorem C47_vertices (xys corners : list (pt RArith)) fuel s z : NoDup xys ->
  sweep RArith fuel xys (init_state RArith corners) = Val (s, tt) ->
  (exists v, v ∈ s_vset s /\ located RArith s v z) <->
  (exists a b c, NoDup [a; b; c] /\ nearest xys a z /\ nearest xys b z /\ nearest xys c z).
Proof.
  intros ND HS. destruct (sweep_over _ _ _ _ ND HS) as (s0 & idx & hist & log & H1 & ->). split.
  - intros (v & Hv & Hz). exact (vertex_meeting xys corners ND s0 idx hist v z (proj1 H1) Hv Hz).
  - intros (a & b & c & N & Ha & Hb & Hc). apply NoDup_cons in N as [N1 N]. apply NoDup_cons in N as [N2 _].
    apply (meeting_vertex xys corners ND s0 (swept_over xys corners ND _ _ _ H1) a b c z); auto; set_solver.
Qed.
Print Assumptions C47_vertices.

(* ---------- C55 ---------- *)
(* two edges through a point with exactly two nearest sites are the same edge: e and e' are
   half-edges with the same site p on their side *)
Theorem C55_one_edge (xys corners : list (pt RArith)) fuel s e f e' f' p q z : NoDup xys ->
  sweep RArith fuel xys (init_state RArith corners) = Val (s, tt) ->
  edge_point xys s e f p q z -> edge_point xys s e' f' p q z -> (forall r, nearest xys r z -> r = p \/ r = q) ->
  e = e' /\ f = f'.
Proof.
  intros ND HS. destruct (sweep_over _ _ _ _ ND HS) as (s0 & idx & hist & log & H1 & ->). exact (pair_single xys corners ND s0 (swept_over xys corners ND _ _ _ H1) e f e' f' p q z).
Qed.
Print Assumptions C55_one_edge.

(* ---------- a case: three sites ---------- *)
Definition tri : list (pt RArith) := [(0, 0); (2, 0); (0, 2)].
Lemma tri_nodup : NoDup tri.
Proof.
  assert (D : forall a b c d : R, a <> c \/ b <> d -> (a, b) <> (c, d)) by (intros ? ? ? ? [H|H] [= ? ?]; congruence).
  repeat constructor; rewrite ?elem_of_cons, ?elem_of_nil; intros H; repeat destruct H as [H|H]; try done; revert H; apply D; lra.
Qed.
Lemma tri_nearest p P z : tri !! p = Some P -> dist2 P z <= dist2 (0, 0) z -> dist2 P z <= dist2 (2, 0) z -> dist2 P z <= dist2 (0, 2) z -> nearest tri p z.
Proof. intros HP H1 H2 H3. exists P. split; [done|]. intros Q HQ. unfold tri in HQ. rewrite !elem_of_cons, elem_of_nil in HQ. by destruct HQ as [-> |[-> |[-> |[]]]]. Qed.
Example C46_C47_C55_case : exists s, sweep RArith 22 tri (init_state RArith []) = Val (s, tt) /\
  (exists e f, edge_point tri s e f 0 1 (1, 0) /\ forall e' f', edge_point tri s e' f' 0 1 (1, 0) -> e = e' /\ f = f') /\
  (exists v, v ∈ s_vset s /\ located RArith s v (1, 1)).
Proof.
  destruct (sweep_total tri [] tri_nodup 22) as [s HS]; [simpl; lia|]. exists s. split; [exact HS|]. split.
  - assert (U : forall r, nearest tri r (1, 0) -> r = 0%nat \/ r = 1%nat).
    { intros r (P & HP & HM). destruct r as [|[|[|r]]]; [by left|by right| |done]. exfalso. injection HP as <-.
      specialize (HM (0, 0) ltac:(left)). unfold dist2 in HM; cbn [fst snd] in HM. lra. }
    destruct (C46_pair tri [] 22 s 0 1 (1, 0) tri_nodup HS) as (e & f & HE); [done| | |exact U|].
    + apply (tri_nearest 0 (0, 0)); [done|unfold dist2; cbn [fst snd]; lra..].
    + apply (tri_nearest 1 (2, 0)); [done|unfold dist2; cbn [fst snd]; lra..].
    + exists e, f. split; [exact HE|]. intros e' f' HE'. exact (C55_one_edge tri [] 22 s e f e' f' 0 1 (1, 0) tri_nodup HS HE HE' U).
  - apply (C47_vertices tri [] 22 s (1, 1) tri_nodup HS). exists 0%nat, 1%nat, 2%nat. split; [|split; [|split]].
    + repeat constructor; set_solver.
    + apply (tri_nearest 0 (0, 0)); [done|unfold dist2; cbn [fst snd]; lra..].
    + apply (tri_nearest 1 (2, 0)); [done|unfold dist2; cbn [fst snd]; lra..].
    + apply (tri_nearest 2 (0, 2)); [done|unfold dist2; cbn [fst snd]; lra..].
Qed.
