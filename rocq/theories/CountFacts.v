(* CountFacts.v -- how many neighbours there are: proofs for C74. *)
From stdpp Require Import base list sets.
From Coq Require Import ZArith Reals Lra Lia Psatz Classical.
From Verif Require Import Arith Geom Monad Tree Heapq State Sweep Finish SweepBase Dcel SweepInv Spec SpecFinish SweepFacts RArith GeomReal AreaReal PolyReal ConvexReal EdgeReal CircleReal FinishReal SweepReal VoronoiGeom
  SpecVoronoi VoronoiFacts ClipGeom SpecClip CellBorder CellFirst CellArea SpecMove CellSides Circle Visual SpecVisual CellDraw DrawAll FinishDiagram FinishFacts Envelope PropSweep PropFinish PropVoronoi PropEnvelope PropReal PropClip PropCells CellClean DiagramFacts SideFacts SpecNeighbours NeighbourFacts PropQueries.
Local Open Scope R_scope.

Lemma omap_length {X Y} (f : X -> option Y) l : (length (omap f l) <= length l)%nat.
Proof. induction l as [|x l IH]; [done|]. cbn. destruct (f x); simpl; lia. Qed.
Lemma choose_list {X Y} (R0 : X -> Y -> Prop) l : (forall x, x ∈ l -> exists y, R0 x y) -> exists k, Forall2 R0 l k.
Proof.
  induction l as [|x l IH]; intros H; [by exists []|]. destruct (H x ltac:(left)) as [y Hy]. destruct IH as [k Hk]; [intros z Hz; apply H; by right|]. exists (y :: k). by constructor.
Qed.
Lemma forall2_nodup {X Y} (R0 : X -> Y -> Prop) l k : (forall x x' y, R0 x y -> R0 x' y -> x = x') -> Forall2 R0 l k -> NoDup l -> NoDup k.
Proof.
  intros HI. induction 1 as [|x y l k HR HF IH]; intros ND; [constructor|]. apply NoDup_cons in ND as [N1 N2]. constructor; [|auto].
  intros Hy. apply N1. apply elem_of_list_lookup in Hy as [i Hi]. destruct (Forall2_lookup_r _ _ _ _ _ HF Hi) as (x' & Hx' & HR'). rewrite (HI x x' y HR HR'). by eapply elem_of_list_lookup_2.
Qed.

Section CF.
Context (xys : list (pt RArith)) (poly : polygon RArith) (HG : regular xys poly).
Notation A := RArith.
Notation corners := (pg_points A poly).
Let ND := r_distinct _ _ HG. Let HC := r_convex _ _ HG. Let H3 := r_corners _ _ HG.
Let LL := r_low _ _ HG. Let GP := r_generic _ _ HG. Let TP := reg_top xys poly HG. Let SI := r_inside _ _ HG. Let CI := r_center _ _ HG.
Local Notation PT p := (@lookup nat (pt RArith) (list (pt RArith)) (@list_lookup (pt RArith)) p xys) (only parsing).
Context fuel s (HD : create_diagram A poly false fuel xys (init_state A corners) = Val (s, tt)).
Notation facts := (cell_facts xys poly ND HC H3 (ll_sites xys poly LL) (ll_inside xys poly LL) (ll_vertex xys poly LL) (gp_vertex xys poly GP)).

Lemma leads_site p q e : leads_to s p q e -> side_of s e /\ borders_site A s e = Some p /\ exists t, twin A s e = Some t /\ borders_site A s t = Some q.
Proof.
  intros HL. pose proof (site_bound xys poly HG fuel s HD p q e HL) as Lp. destruct HL as ((f & l & Hl & He) & HT & _). destruct (lookup_lt_is_Some_2 xys p Lp) as [P EP].
  destruct (facts TP SI (reg_corner xys poly HG) CI fuel s p P l HD EP ltac:(eauto)) as (_ & F1 & _). destruct (F1 e He) as (a' & b' & G1 & G2 & G3 & _). done.
Qed.
Lemma leads_list : (2 <= length xys)%nat -> exists L : list nat, (length L + 8 <= 6 * length xys)%nat /\ forall p q e, leads_to s p q e -> e ∈ L.
Proof.
  intros Hn. destruct (unpack xys poly ND H3 (ll_sites xys poly LL) (ll_inside xys poly LL) (ll_vertex xys poly LL) (gp_vertex xys poly GP) TP SI (reg_corner xys poly HG) fuel s HD) as (s0 & idx & hist & s1 & r & dead & p0 & x0 & s2 & HSw & HK & Hm & HR & Hp0 & N0 & Hhed & Hver & Hpts & Hed).
  pose proof (border_edge_is xys poly ND HC H3 (ll_sites xys poly LL) (ll_inside xys poly LL) (ll_vertex xys poly LL) (gp_vertex xys poly GP) TP SI (reg_corner xys poly HG) s0 idx hist s1 r dead p0 s2 HSw HK Hm HR s Hhed Hed) as BE.
  exists (r ++ omap (twin A s) r). split.
  - destruct (C69_swept A xys corners s0 idx hist (lawful_real xys) HSw Hn) as (_ & K & _). rewrite app_length. pose proof (omap_length (twin A s) r).
    assert (length r <= length (s_edges s0))%nat.
    { rewrite (c_kept _ _ _ _ _ _ _ _ HK). change (s_edges (after_sweep A s0)) with (s_edges s0). generalize (s_edges s0). intros l. induction l as [|x l IH]; [done|]. simpl. case_match; simpl; lia. }
    lia.
  - intros p q e HL. destruct (leads_site p q e HL) as ([He|(g & Hg & Hgt)] & HP & t & HT & HQ).
    + rewrite Hed in He. apply elem_of_app in He as [He|He]; [apply elem_of_app; by left|]. exfalso. apply elem_of_list_fmap in He as (j & -> & Hj). apply elem_of_seq in Hj.
      destruct (proj2 (BE (FinishBorder.ed A s1 j))) as (_ & t' & T1 & T2); [exists j; split; [lia|done]|]. congruence.
    + pose proof Hg as Hg'. rewrite Hed in Hg'. apply elem_of_app in Hg' as [Hg'|Hg']; [apply elem_of_app; right; apply elem_of_list_omap; by exists g|]. exfalso. apply elem_of_list_fmap in Hg' as (j & -> & Hj). apply elem_of_seq in Hj.
      destruct (proj2 (BE (FinishBorder.ed A s1 j))) as (_ & t' & T1 & T2); [exists j; split; [lia|done]|]. congruence.
Qed.
Lemma pairs_count (l : list (nat * nat)) : (2 <= length xys)%nat -> NoDup l -> (forall p q, (p, q) ∈ l -> neighbour s p q) -> (length l + 8 <= 6 * length xys)%nat.
Proof.
  intros Hn NDl HN. destruct (leads_list Hn) as (L & L1 & L2).
  destruct (choose_list (fun (pq : nat * nat) e => leads_to s (fst pq) (snd pq) e) l) as [k Hk]; [intros [p q] Hpq; exact (HN p q Hpq)|].
  assert (NDk : NoDup k).
  { eapply forall2_nodup; [|exact Hk|done]. intros [p q] [p' q'] e X Y. cbn [fst snd] in *. destruct (leads_site p q e X) as (_ & P1 & t & T1 & Q1). destruct (leads_site p' q' e Y) as (_ & P2 & t' & T2 & Q2). f_equal; congruence. }
  assert (INC : k ⊆ L). { intros e [i Hi]%elem_of_list_lookup. destruct (Forall2_lookup_r _ _ _ _ _ Hk Hi) as ([p q] & _ & X). exact (L2 p q e X). }
  rewrite (Forall2_length _ _ _ Hk). pose proof (submseteq_length _ _ (NoDup_submseteq k L NDk INC)). lia.
Qed.
Lemma few_neighbours : (1 <= length xys)%nat -> exists p, (p < length xys)%nat /\ forall l, NoDup l -> (forall q, q ∈ l -> neighbour s p q) -> (length l <= 5)%nat.
Proof.
  intros Hn. apply NNPP. intros NO.
  assert (SIX : forall p, (p < length xys)%nat -> exists l, NoDup l /\ (forall q, q ∈ l -> neighbour s p q) /\ (6 <= length l)%nat).
  { intros p Hp. apply NNPP. intros X. apply NO. exists p. split; [done|]. intros l H1 H2. apply Nat.nlt_ge. intros H4. apply X. exists l. split; [done|]. split; [done|lia]. }
  assert (ALL : forall n, (n <= length xys)%nat -> exists l : list (nat * nat), NoDup l /\ (forall p q, (p, q) ∈ l -> (p < n)%nat /\ neighbour s p q) /\ (6 * n <= length l)%nat).
  { induction n as [|n IH]; intros Hle; [exists []; split; [constructor|]; split; [by intros p q ?%elem_of_nil|simpl; lia]|].
    destruct (IH ltac:(lia)) as (l & I1 & I2 & I3). destruct (SIX n ltac:(lia)) as (k & K1 & K2 & K3). exists (l ++ map (pair n) k). split; [|split].
    - apply NoDup_app. split; [done|]. split; [|apply NoDup_fmap_2; [by intros ? ? [= ->]|done]]. intros [p q] Hpq (q' & [= -> ->] & _)%elem_of_list_fmap. destruct (I2 _ _ Hpq). lia.
    - intros p q [Hpq|(q' & [= -> ->] & Hq)%elem_of_list_fmap]%elem_of_app; [destruct (I2 _ _ Hpq); split; [lia|done]|]. split; [lia|auto].
    - rewrite app_length, map_length. lia. }
  destruct (ALL (length xys) ltac:(lia)) as (l & I1 & I2 & I3).
  destruct (decide (2 <= length xys)%nat) as [H2|H2].
  - pose proof (pairs_count l H2 I1 (fun p q H => proj2 (I2 p q H))). lia.
  - destruct l as [|[p q] l]; [simpl in I3; lia|]. destruct (I2 p q ltac:(left)) as [Hp HN]. apply (neighbour_touch xys poly HG fuel s HD p q) in HN as (N & y & z & _ & _ & _ & _ & (Q & EQ & _) & _). pose proof (lookup_lt_Some _ _ _ EQ) as X. change (q < length xys)%nat in X. lia.
Qed.
End CF.
