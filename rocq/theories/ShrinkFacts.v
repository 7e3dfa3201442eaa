(* ShrinkFacts.v -- the areas of the cells when a site is added: proofs for C72. *)
From stdpp Require Import base list sets.
From Coq Require Import ZArith Reals Lra Lia Psatz Classical.
From Verif Require Import Arith Geom Monad Tree Heapq State Sweep Finish SweepBase Dcel SweepInv Spec SpecFinish SweepFacts RArith GeomReal AreaReal PolyReal ConvexReal EdgeReal CircleReal FinishReal SweepReal VoronoiGeom
  SpecVoronoi VoronoiFacts ClipGeom SpecClip CellBorder CellFirst CellArea SpecMove CellSides Circle Visual SpecVisual CellDraw DrawAll FinishFacts Envelope PropSweep PropFinish PropVoronoi PropEnvelope PropReal PropClip PropCells CellClean DiagramFacts SideFacts SpecNeighbours NeighbourFacts PropNavigate FarthestFacts GreedyFacts.
Local Open Scope R_scope.

(* ---------- sums ---------- *)
Lemma tele (st en : nat -> rpt) (h : rpt -> R) l : forall x z, head l = Some x -> last l = Some z -> (forall i a b, l !! i = Some a -> l !! S i = Some b -> en a = st b) ->
  sumR (fun y => h (en y) - h (st y)) l = h (en z) - h (st x).
Proof.
  induction l as [|x l IH]; intros x' z Hh Hl HN; [done|]. injection Hh as <-. destruct l as [|y l].
  - injection Hl as <-. cbn. ring.
  - cbn [sumR]. change (h (en x) - h (st x) + sumR (fun y => h (en y) - h (st y)) (y :: l) = h (en z) - h (st x)). rewrite (IH y z); [|done|done|intros i a b; exact (HN (S i) a b)].
    rewrite (HN 0%nat x y) by done. ring.
Qed.
Lemma sum_inject {X} (g' g : X -> R) (R0 : X -> X -> Prop) ws' : forall ws, NoDup ws' -> (forall w, w ∈ ws -> 0 <= g w) ->
  (forall w', w' ∈ ws' -> g' w' <= 0 \/ exists w, w ∈ ws /\ R0 w' w) -> (forall w' w, R0 w' w -> g' w' <= g w) ->
  (forall w1 w2 w, w1 ∈ ws' -> w2 ∈ ws' -> R0 w1 w -> R0 w2 w -> w1 = w2) -> sumR g' ws' <= sumR g ws.
Proof.
  induction ws' as [|w' ws' IH]; intros ws ND POS EX LE INJ.
  - cbn. clear - POS. induction ws as [|w ws IH]; [cbn; lra|]. cbn. pose proof (POS w ltac:(left)). assert (0 <= sumR g ws) by (apply IH; intros v Hv; apply POS; by right). lra.
  - apply NoDup_cons in ND as [N1 N2]. cbn [sumR]. destruct (EX w' ltac:(left)) as [Z|(w & Hw & HR)].
    + assert (sumR g' ws' <= sumR g ws); [|lra]. apply IH; [done|done|intros v Hv; apply EX; by right|done|intros w1 w2 w H1 H2; apply INJ; by right].
    + apply elem_of_list_split in Hw as (k1 & k2 & ->). rewrite sumR_app. cbn [sumR]. assert (sumR g' ws' <= sumR g (k1 ++ k2)).
      { apply IH; [done|intros v Hv; apply POS; rewrite elem_of_app, elem_of_cons in *; tauto| |done|intros w1 w2 v H1 H2; apply INJ; by right].
        intros v Hv. destruct (EX v ltac:(by right)) as [Z|(u & Hu & HU)]; [by left|right]. exists u. split; [|done].
        assert (u <> w). { intros ->. assert (v = w') as -> by (apply (INJ v w' w); [by right|left|done|done]). done. }
        rewrite elem_of_app, elem_of_cons in *. tauto. }
      rewrite sumR_app in H. specialize (LE _ _ HR). lra.
Qed.

(* ---------- one diagram ---------- *)
Section SH.
Context (xys : list (pt RArith)) (poly : polygon RArith) (HG : regular xys poly).
Notation A := RArith.
Notation corners := (pg_points A poly).
Let ND := r_distinct _ _ HG. Let HC := r_convex _ _ HG. Let H3 := r_corners _ _ HG.
Let LL := r_low _ _ HG. Let GP := r_generic _ _ HG. Let TP := reg_top xys poly HG. Let SI := r_inside _ _ HG. Let CI := r_center _ _ HG.
Local Notation PT p := (@lookup nat (pt RArith) (list (pt RArith)) (@list_lookup (pt RArith)) p xys) (only parsing).
Context fuel s (HD : create_diagram A poly false fuel xys (init_state A corners) = Val (s, tt)).
Notation facts := (cell_facts xys poly ND HC H3 (ll_sites xys poly LL) (ll_inside xys poly LL) (ll_vertex xys poly LL) (gp_vertex xys poly GP)).

(* the walk is closed *)
Lemma walk_closed p (P : rpt) l f (h : rpt -> R) : PT p = Some P -> borders A s f p = Val l -> sumR (fun x => h (snd (seg s x)) - h (fst (seg s x))) l = 0.
Proof.
  intros EP Hl. assert (Hp : (p < length xys)%nat) by (by eapply lookup_lt_Some). destruct (facts TP SI (reg_corner xys poly HG) CI fuel s p P l HD EP ltac:(eauto)) as (_ & F1 & _).
  assert (NX : forall x n, x ∈ l -> n ∈ l -> next A s x = Some n -> snd (seg s x) = fst (seg s n)).
  { intros x n Hx Hnl Hn. destruct (F1 x Hx) as (a & b & G1 & G2 & G3 & _). destruct (F1 n Hnl) as (c & d & _ & G2' & _). rewrite (seg_runs s x a b G2), (seg_runs s n c d G2'). cbn [fst snd].
    destruct (C65_links xys poly fuel s x p HG HD G1 G3) as (u & v & n' & k & K1 & K2 & K3 & _ & K5 & _). assert (n' = n) as -> by congruence.
    destruct (da_joins xys poly HG fuel s HD x a b G1 G2) as [g HJ].
    assert (SG : side_of s g).
    { destruct G1 as [G1|(g' & Hg & Hgt)]; [right; exists x; split; [done|apply HJ]|]. left. destruct (da_joined xys poly HG fuel s HD g' Hg) as (g2 & a2 & b2 & (T1 & T2 & _) & _). destruct HJ as (T3 & _). congruence. }
    destruct (side_start xys poly HG fuel s HD g b a SG (joins_runs _ _ _ _ _ (joins_sym _ _ _ _ _ HJ))) as (w & W1 & W2 & W3).
    assert (w = v) as ->. { pose proof (target_val s x g w (proj1 HJ) W2) as X. unfold target_is in *. rewrite X in K2. by injection K2. }
    destruct G2' as [(w & Y1 & Y2) _]. assert (w = v) as -> by (destruct K5 as (h1 & Z1 & Z2), Y1 as (h2 & Z3 & Z4); congruence).
    destruct W3 as (q1 & Q1 & Q2), Y2 as (q2 & Q3 & Q4). congruence. }
  unfold borders in Hl. destruct (s_points s !! p) as [y|] eqn:Ep; [|done]. destruct (p_first y) as [e0|] eqn:Ee; [|injection Hl as <-; done].
  assert (W : SpecFinish.walk A s e0 l) by (apply (proj1 (borders_walk A s p y e0 Ep Ee)); exists f; unfold borders; by rewrite Ep, Ee).
  pose proof W as (W1 & W2 & _ & _ & z & W4 & W5).
  assert (Iz : z ∈ l) by (rewrite last_lookup in W4; by eapply elem_of_list_lookup_2). assert (I0 : e0 ∈ l) by (rewrite head_lookup in W1; by eapply elem_of_list_lookup_2).
  rewrite (tele (fun x => fst (seg s x)) (fun x => snd (seg s x)) h l e0 z W1 W4).
  - destruct W5 as [W5|W5]; [rewrite (NX z e0 Iz I0 W5); ring|]. exfalso. destruct (F1 z Iz) as (a & b & G1 & _ & G3 & _). destruct (C65_links xys poly fuel s z p HG HD G1 G3) as (u & v & n' & k & _ & _ & K3 & _). congruence.
  - intros i a b Ha Hb. apply NX; [by eapply elem_of_list_lookup_2|by eapply elem_of_list_lookup_2|by eapply W2].
Qed.
(* the area, as a sum of triangles over the sides, from any point *)
Lemma area_sides_at p (P : rpt) : (PT p) = Some P -> exists ws : list (rpt * rpt), NoDup ws /\ (forall a b, (a, b) ∈ ws <-> cell_side xys corners p a b) /\
  forall f x O, area A s f p = Val x -> x = - / 2 * sumR (tri2 O) ws.
Proof.
  intros EP. assert (Hp : (p < length xys)%nat) by exact (lookup_lt_Some xys p P EP). destruct (reg_cells xys poly HG fuel s p HD Hp) as [(l & f & Hl) _].
  destruct (facts TP SI (reg_corner xys poly HG) CI fuel s p P l HD EP ltac:(eauto)) as (F0 & F1 & _ & F3 & F4).
  set (b x := if rpt_dec (fst (seg s x)) (snd (seg s x)) then false else true).
  assert (IN : forall x a c, x ∈ List.filter b l -> seg s x = (a, c) -> x ∈ l /\ runs_to s x a c /\ a <> c).
  { intros x a c Hx Es. apply elem_of_list_In, filter_In in Hx as [Hx Hb]. apply elem_of_list_In in Hx. destruct (F1 x Hx) as (a' & c' & _ & G & _). pose proof (seg_runs s x a' c' G) as Es'. rewrite Es in Es'. injection Es' as <- <-.
    split; [done|]. split; [done|]. unfold b in Hb. rewrite Es in Hb. cbn [fst snd] in Hb. by destruct (rpt_dec a c). }
  exists (map (seg s) (List.filter b l)). split; [|split].
  - apply NoDup_fmap_2_strong; [|by apply nodup_filter]. intros x y Hx Hy E. destruct (seg s x) as [a c] eqn:Ex. destruct (IN x a c Hx Ex) as (X1 & X2 & X3). destruct (IN y a c Hy (eq_sym E)) as (Y1 & Y2 & _). by eapply F3.
  - intros a c. rewrite (sides_iff xys poly HG fuel s HD p l f a c Hp Hl), elem_of_list_In, in_map_iff. split.
    + intros (x & Es & Hx). apply elem_of_list_In in Hx. exists x. by apply IN.
    + intros (x & Hx & Hr & N). pose proof (seg_runs s x a c Hr) as Es. exists x. split; [done|]. apply filter_In. split; [by apply elem_of_list_In|]. unfold b. rewrite Es. cbn [fst snd]. by destruct (rpt_dec a c).
  - intros f' x O Hx. rewrite (F4 f' x Hx). f_equal. rewrite sumR_map, sumR_filter.
    + pose proof (walk_closed p P l f (fun w => (snd O - snd P) * fst w - (fst O - fst P) * snd w) EP Hl) as WC.
      assert (E : sumR (fun x0 => tri2 O (seg s x0)) l = sumR (fun x0 => tri2 P (seg s x0) + ((snd O - snd P) * fst (snd (seg s x0)) - (fst O - fst P) * snd (snd (seg s x0)) - ((snd O - snd P) * fst (fst (seg s x0)) - (fst O - fst P) * snd (fst (seg s x0))))) l).
      { apply sumR_ext. intros y _. unfold tri2, cross3. ring. }
      rewrite E, sumR_plus, WC. ring.
    + intros y _. unfold b. destruct (rpt_dec _ _) as [E|]; [|done]. intros _. unfold tri2. rewrite E. unfold cross3. ring.
Qed.
(* a point of the rim of a cell is on one of its half-edges *)
Lemma side_through p (P z : rpt) l f : PT p = Some P -> borders A s f p = Val l -> nearest xys p z -> inner corners z -> (on_boundary corners z \/ exists q, q <> p /\ nearest xys q z) ->
  exists x c d t, x ∈ l /\ runs_to s x c d /\ 0 <= t <= 1 /\ z = part c d t.
Proof.
  intros EP Hl Nz Iz Bz. destruct (facts TP SI (reg_corner xys poly HG) CI fuel s p P l HD EP ltac:(eauto)) as (_ & F1 & F2 & _). assert (IP : P ∈ xys) by (by eapply elem_of_list_lookup_2).
  assert (NZP : z <> P).
  { intros ->. destruct Bz as [((f1 & g1) & S1 & tt & S2 & S3)|(q & Nq & (Q & EQ & MQ))].
    - cbn [fst snd] in *. pose proof (SI P IP f1 g1 S1) as I1. rewrite S3 in I1. change (cross3 f1 g1 (part f1 g1 tt) < 0) in I1. rewrite cross_affine in I1. unfold cross3 in I1. lra.
    - assert (NPQ : Q <> P) by (intros ->; apply Nq; by eapply (NoDup_lookup xys)). pose proof (dist2_pos Q P NPQ). pose proof (MQ P IP). assert (dist2 P P = 0) as Z0 by (destruct P; unfold dist2; cbn [fst snd]; ring). change (D RArith) with R in *. lra. }
  destruct (F2 z Nz Iz) as [Ez|(x & c & d & t & u & X1 & X2 & X3 & X4 & Ez)]; [done|].
  destruct (F1 x X1) as (c' & d' & G1 & G2 & G3 & G4 & G5 & G6 & G7). destruct (runs_to_fun s x _ _ _ _ X2 G2) as [<- <-].
  assert (u = 1) as ->.
  { apply NNPP. intros Nu. destruct (G5 t X3) as [Nw Iw]. set (w := part c d t) in *. destruct Bz as [((f1 & g1) & S1 & tt & S2 & S3)|(q & Nq & (Q & EQ & MQ))].
    - cbn [fst snd] in *. assert (Cw : cross3 f1 g1 z = 0) by (rewrite S3; change (cross3 f1 g1 (part f1 g1 tt) = 0); rewrite cross_affine; unfold cross3; ring).
      rewrite Ez, cross_affine in Cw. pose proof (SI P IP f1 g1 S1) as I1. pose proof (Iw f1 g1 S1) as I2. nra.
    - pose proof (MQ P IP) as M1. destruct Nw as (P2 & E2 & M2). pose proof (eq_trans (eq_sym E2) EP) as X. injection X as ->.
      pose proof (M2 Q ltac:(by eapply elem_of_list_lookup_2)) as M3. pose proof (equi_affine P Q P w u) as M4. rewrite <- Ez in M4.
      assert (NPQ : P <> Q) by (intros ->; apply Nq; by eapply (NoDup_lookup xys)). pose proof (dist2_pos Q P ltac:(congruence)) as M5.
      assert (dist2 P P = 0) as Z0 by (destruct P; unfold dist2; cbn [fst snd]; ring). change (D RArith) with R in *. rewrite Z0 in M4. nra. }
  rewrite part_1 in Ez. exists x, c, d, t. done.
Qed.
(* a cell is on one side of each of its sides *)
Lemma side_half p c d z : (p < length xys)%nat -> cell_side xys corners p c d -> nearest xys p z -> inner corners z -> cross3 c d z <= 0.
Proof.
  intros Hp HS Nz Iz. destruct (lookup_lt_is_Some_2 xys p Hp) as [P EP]. destruct (reg_cells xys poly HG fuel s p HD Hp) as [(l & f & Hl) _].
  apply (sides_iff xys poly HG fuel s HD p l f c d Hp Hl) in HS as (e & He & Hr & _). destruct (facts TP SI (reg_corner xys poly HG) CI fuel s p P l HD EP ltac:(eauto)) as (_ & F1 & _).
  destruct (F1 e He) as (c' & d' & _ & G2 & _ & _ & _ & G6 & _). destruct (runs_to_fun s e _ _ _ _ Hr G2) as [<- <-]. by apply G6.
Qed.
End SH.

(* ---------- two diagrams ---------- *)
Lemma in_part (a b : rpt) u : 0 <= u <= 1 -> on_segment a b (part a b u).
Proof. intros Hu. exists u. done. Qed.
Section TWO.
Context (xys : list (pt RArith)) (new : pt RArith) (poly : polygon RArith) (HG : regular xys poly) (HG' : regular (xys ++ [new]) poly).
Notation A := RArith.
Notation corners := (pg_points A poly).
Notation xys' := (xys ++ [new]).
Local Notation PT p := (@lookup nat (pt RArith) (list (pt RArith)) (@list_lookup (pt RArith)) p xys) (only parsing).
Context fuel s (HD : create_diagram A poly false fuel xys (init_state A corners) = Val (s, tt)).
Context fuel' s' (HD' : create_diagram A poly false fuel' xys' (init_state A corners) = Val (s', tt)).
Context p (P : rpt) (EP : PT p = Some P).
Local Notation n := (length xys).
(* positive: nearer to P than to the new site *)
Let g (w : rpt) : R := dist2 new w - dist2 P w.

Lemma Lp : (p < n)%nat. Proof. by eapply lookup_lt_Some. Qed.
Lemma EP' : @lookup nat (pt RArith) (list (pt RArith)) (@list_lookup (pt RArith)) p xys' = Some P. Proof. rewrite lookup_app_l; [exact EP|exact Lp]. Qed.
Lemma En' : @lookup nat (pt RArith) (list (pt RArith)) (@list_lookup (pt RArith)) n xys' = Some new. Proof. by apply list_lookup_middle. Qed.
Lemma near_g z : nearest xys' p z -> 0 <= g z.
Proof. intros (P' & E & M). assert (P' = P) as -> by (pose proof (eq_trans (eq_sym E) EP') as Y; by injection Y). specialize (M new ltac:(apply elem_of_app; right; left)). unfold g. change (D RArith) with R in *. lra. Qed.
Lemma near_g0 z : nearest xys' p z -> nearest xys' n z <-> g z = 0.
Proof.
  intros Hp. pose proof (near_g z Hp) as G. destruct Hp as (P' & E & M). assert (P' = P) as -> by (pose proof (eq_trans (eq_sym E) EP') as Y; by injection Y). split.
  - intros (Q & EQ & MQ). assert (Q = new) as -> by (pose proof (eq_trans (eq_sym EQ) En') as Y; by injection Y). specialize (MQ P ltac:(eapply elem_of_list_lookup_2; exact EP')). unfold g in *. change (D RArith) with R in *. lra.
  - intros G0. exists new. split; [exact En'|]. intros Q HQ. specialize (M Q HQ). unfold g in *. change (D RArith) with R in *. lra.
Qed.
Lemma g_affine a b u : g (part a b u) = (1 - u) * g a + u * g b. Proof. unfold g. apply equi_affine. Qed.
Lemma g_site : 0 < g P.
Proof.
  unfold g. assert (N : new <> P). { intros E. assert (n = p) by (eapply (NoDup_lookup xys'); [apply (r_distinct _ _ HG')|exact En'|pose proof EP' as Y; rewrite Y, E; reflexivity]). pose proof Lp. lia. }
  pose proof (dist2_pos new P N). assert (dist2 P P = 0) by (destruct P; unfold dist2; cbn [fst snd]; ring). change (D RArith) with R in *. lra.
Qed.
Lemma also_near z k : nearest xys' p z -> nearest xys k z -> nearest xys' k z.
Proof.
  intros (P' & E & M) (K & EK & MK). assert (P' = P) as -> by (pose proof (eq_trans (eq_sym E) EP') as Y; by injection Y). exists K. split; [rewrite lookup_app_l; [done|by eapply lookup_lt_Some]|].
  intros Q HQ. pose proof (MK P ltac:(by eapply elem_of_list_lookup_2)) as L. specialize (M Q HQ). change (D RArith) with R in *. lra.
Qed.
Lemma was_near z k : k <> n -> nearest xys' k z -> nearest xys k z.
Proof. intros N H. apply (fewer_nearest xys new); [|done]. destruct H as (K & EK & _). apply lookup_lt_Some in EK. rewrite app_length in EK. cbn [length] in EK. lia. Qed.
Lemma node_new z : nearest xys' p z -> node xys corners z -> node xys' corners z.
Proof.
  intros Hp [H|[[H (i & j & N & Hi & Hj)]|[H (a & b & c & N & Ha & Hb & Hc)]]]; [by left|right; left|right; right].
  - split; [done|]. exists i, j. split; [done|]. split; by apply also_near.
  - split; [done|]. exists a, b, c. split; [done|]. split; [by apply also_near|]. split; by apply also_near.
Qed.
Lemma node_old z : node xys' corners z -> nearest xys' n z \/ node xys corners z.
Proof.
  intros H. destruct (classic (nearest xys' n z)) as [K|K]; [by left|right]. assert (W : forall k, nearest xys' k z -> nearest xys k z) by (intros k Hk; apply was_near; [by intros ->|done]).
  destruct H as [H|[[H (i & j & N & Hi & Hj)]|[H (a & b & c & N & Ha & Hb & Hc)]]]; [by left|right; left|right; right].
  - split; [done|]. exists i, j. split; [done|]. split; by apply W.
  - split; [done|]. exists a, b, c. split; [done|]. split; [by apply W|]. split; by apply W.
Qed.
(* what is known of a side *)
Lemma side_known X q (Q a b : rpt) : X !! q = Some Q -> cell_side X corners q a b -> a <> b /\ node X corners a /\ node X corners b /\ (forall u, 0 < u < 1 -> ~ node X corners (part a b u)) /\
  (forall u, 0 <= u <= 1 -> nearest X q (part a b u) /\ inner corners (part a b u)) /\ cross3 a b Q < 0 /\ (on_boundary corners (part a b (1 / 2)) \/ exists k, k <> q /\ nearest X k (part a b (1 / 2))).
Proof.
  intros EQ (N & Va & Vb & NO & ALL & Q' & EQ' & C). assert (Q' = Q) as -> by congruence. split; [done|]. split; [done|]. split; [done|]. split; [|split; [|split; [done|]]].
  - intros u Hu. apply NO; [apply in_part; lra|intros E|intros E].
    + rewrite <- (part_0 a b) in E at 2. apply ClipGeom.part_inj in E; [lra|done].
    + rewrite <- (part_1 a b) in E at 2. apply ClipGeom.part_inj in E; [lra|done].
  - intros u Hu. destruct (ALL _ (in_part a b u Hu)) as (X1 & X2 & _). split; [done|by apply not_exterior].
  - apply (ALL _ (in_part a b (1 / 2) ltac:(lra))).
Qed.
(* a side of the new cell, not towards the new site, is a part of a side of the old one *)
Lemma sub_side a b : cell_side xys' corners p a b -> g (part a b (1 / 2)) <> 0 ->
  exists c d t t', cell_side xys corners p c d /\ a = part c d t /\ b = part c d t' /\ 0 <= t /\ t < t' /\ t' <= 1.
Proof.
  intros HS NG. destruct (side_known xys' p P a b EP' HS) as (Nab & Va & Vb & NO & ALL & CP & BZ). set (z := part a b (1 / 2)) in *.
  assert (OLD : forall u, 0 <= u <= 1 -> nearest xys p (part a b u) /\ inner corners (part a b u)). { intros u Hu. destruct (ALL u Hu) as [X1 X2]. split; [|done]. apply was_near; [pose proof Lp; lia|done]. }
  destruct (ALL (1 / 2) ltac:(lra)) as [Nz' Iz]. destruct (OLD (1 / 2) ltac:(lra)) as [Nz _]. fold z in Nz', Iz, Nz. pose proof (NO (1 / 2) ltac:(lra)) as VZ. fold z in VZ.
  assert (BZ' : on_boundary corners z \/ exists k, k <> p /\ nearest xys k z).
  { destruct BZ as [B|(k & Nk & Hk)]; [by left|right]. exists k. split; [done|]. apply was_near; [|done]. intros ->. apply NG. by apply near_g0. }
  destruct (reg_cells xys poly HG fuel s p HD Lp) as [(l & f & Hl) _].
  destruct (side_through xys poly HG fuel s HD p P z l f EP Hl Nz Iz BZ') as (x & c & d & t & X1 & X2 & X3 & Ez).
  assert (IN : forall y, node xys corners y -> forall u, 0 < u < 1 -> y <> part a b u). { intros y Hy u Hu ->. apply (NO u Hu). apply node_new; [apply ALL; lra|done]. }
  assert (CS : c <> d -> cell_side xys corners p c d) by (intros N; apply (sides_iff xys poly HG fuel s HD p l f c d Lp Hl); by exists x).
  assert (Ncd : c <> d).
  { intros <-. assert (z = c) as E by (rewrite Ez; destruct c; unfold part; cbn [fst snd]; f_equal; ring). apply VZ. apply node_new; [done|]. rewrite E.
    destruct (cell_facts xys poly (r_distinct _ _ HG) (r_convex _ _ HG) (r_corners _ _ HG) (ll_sites xys poly (r_low _ _ HG)) (ll_inside xys poly (r_low _ _ HG)) (ll_vertex xys poly (r_low _ _ HG)) (gp_vertex xys poly (r_generic _ _ HG)) (reg_top xys poly HG) (r_inside _ _ HG) (reg_corner xys poly HG) (r_center _ _ HG) fuel s p P l HD EP ltac:(eauto)) as (_ & F1 & _).
    destruct (F1 x X1) as (c' & d' & G1 & _). apply (ends_node xys poly HG fuel s HD x c c G1 X2). }
  specialize (CS Ncd). destruct (side_known xys p P c d EP CS) as (_ & Vc & Vd & _ & _ & CPcd & _).
  destruct (OLD 0 ltac:(lra)) as [Na Ia]. destruct (OLD 1 ltac:(lra)) as [Nb Ib]. rewrite part_0 in Na, Ia. rewrite part_1 in Nb, Ib.
  pose proof (side_half xys poly HG fuel s HD p c d a Lp CS Na Ia) as Ka. pose proof (side_half xys poly HG fuel s HD p c d b Lp CS Nb Ib) as Kb.
  assert (Kz : cross3 c d z = 0) by (rewrite Ez, cross_affine; unfold cross3; ring). unfold z in Kz. rewrite cross_affine in Kz.
  destruct (line_part c d a Ncd ltac:(lra)) as [al Ea]. destruct (line_part c d b Ncd ltac:(lra)) as [be Eb].
  assert (Et : part c d ((al + be) / 2) = part c d t) by (rewrite <- Ez; unfold z; rewrite Ea, Eb; destruct c, d; unfold part; cbn [fst snd]; f_equal; field). apply ClipGeom.part_inj in Et; [|done].
  assert (LT : al < be). { assert (E : cross3 a b P = (be - al) * cross3 c d P) by (rewrite Ea, Eb; apply cross_part). nra. }
  assert (BACK : forall w, part c d w = part a b ((w - al) / (be - al))). { intros w. rewrite Ea, Eb. destruct c, d. unfold part; cbn [fst snd]. f_equal; field; lra. }
  assert (BET : forall w, al < w < be -> 0 < (w - al) / (be - al) < 1).
  { intros w Hw. split; [apply Rdiv_lt_0_compat; lra|]. apply (Rmult_lt_reg_r (be - al)); [lra|]. unfold Rdiv. rewrite Rmult_assoc, Rinv_l by lra. lra. }
  assert (~ al < 0 < be). { intros H. apply (IN c Vc _ (BET 0 H)). by rewrite <- BACK, part_0. }
  assert (~ al < 1 < be). { intros H'. apply (IN d Vd _ (BET 1 H')). by rewrite <- BACK, part_1. }
  exists c, d, al, be. split; [done|]. split; [done|]. split; [done|]. split; [|split]; lra.
Qed.
(* different ones are parts of different sides *)
Lemma sub_once a b a2 b2 c d t t' u u' : cell_side xys' corners p a b -> cell_side xys' corners p a2 b2 -> g (part a b (1 / 2)) <> 0 -> cell_side xys corners p c d ->
  a = part c d t -> b = part c d t' -> a2 = part c d u -> b2 = part c d u' -> 0 <= t -> t < t' -> 0 <= u -> u < u' -> u' <= 1 -> t' < u' -> False.
Proof.
  intros HS HS2 NG CS Ea Eb Ea2 Eb2 T1 T2 U1 U2 U3 L. destruct (side_known xys' p P a b EP' HS) as (_ & _ & Vb & _ & ALL & _ & _). destruct (side_known xys' p P a2 b2 EP' HS2) as (_ & _ & _ & NO2 & ALL2 & _ & _).
  destruct (side_known xys p P c d EP CS) as (_ & _ & _ & NO & _ & _ & _).
  destruct (Rlt_le_dec u t') as [H|H].
  - apply (NO2 ((t' - u) / (u' - u))).
    + split; [apply Rdiv_lt_0_compat; lra|]. apply (Rmult_lt_reg_r (u' - u)); [lra|]. unfold Rdiv. rewrite Rmult_assoc, Rinv_l by lra. lra.
    + assert (part a2 b2 ((t' - u) / (u' - u)) = b) as ->; [|done]. rewrite Ea2, Eb2, Eb. destruct c, d. unfold part; cbn [fst snd]. f_equal; field; lra.
  - destruct (node_old b Vb) as [K|K]; [|apply (NO t' ltac:(lra)); by rewrite <- Eb].
    destruct (ALL 0 ltac:(lra)) as [Na _]. destruct (ALL 1 ltac:(lra)) as [Nb _]. destruct (ALL2 1 ltac:(lra)) as [Nb2 _]. rewrite part_0 in Na. rewrite part_1 in Nb, Nb2.
    pose proof (proj1 (near_g0 b Nb) K) as Gb. pose proof (near_g a Na) as Ga. pose proof (near_g b2 Nb2) as Gb2.
    assert (E : (u' - t) * g b = (u' - t') * g a + (t' - t) * g b2). { rewrite Ea, Eb, Eb2, !g_affine. ring. }
    apply NG. rewrite g_affine. assert (g a = 0) by nra. lra.
Qed.
Lemma sums_le O (ws ws' : list (rpt * rpt)) : NoDup ws' -> (forall a b, (a, b) ∈ ws <-> cell_side xys corners p a b) -> (forall a b, (a, b) ∈ ws' -> cell_side xys' corners p a b) ->
  nearest xys p O -> inner corners O -> (forall a b, cell_side xys' corners p a b -> g (part a b (1 / 2)) = 0 -> 0 <= cross3 a b O) -> sumR (fun w => - tri2 O w) ws' <= sumR (fun w => - tri2 O w) ws.
Proof.
  intros W1' W2 W2' NO IO ZO.
  apply (sum_inject _ _ (fun w' w => cell_side xys' corners p (fst w') (snd w') /\ g (part (fst w') (snd w') (1 / 2)) <> 0 /\ cell_side xys corners p (fst w) (snd w) /\
    exists t t', fst w' = part (fst w) (snd w) t /\ snd w' = part (fst w) (snd w) t' /\ 0 <= t /\ t < t' /\ t' <= 1)); [done| | | |].
  - intros [a b] Hw. apply W2 in Hw. pose proof (side_half xys poly HG fuel s HD p a b O Lp Hw NO IO). unfold tri2; cbn [fst snd]. assert (cross3 O a b = cross3 a b O) by (unfold cross3; ring). lra.
  - intros [a b] Hw. apply W2' in Hw. destruct (Req_dec (g (part a b (1 / 2))) 0) as [G0|G0].
    + left. unfold tri2; cbn [fst snd]. assert (cross3 O a b = cross3 a b O) as -> by (unfold cross3; ring). pose proof (ZO a b Hw G0). lra.
    + right. destruct (sub_side a b Hw G0) as (c & d & t & t' & S1 & S2 & S3 & S4). exists (c, d). split; [by apply W2|]. cbn [fst snd]. split; [done|]. split; [done|]. split; [done|]. by exists t, t'.
  - intros [a b] [c d] (_ & _ & S1 & t & t' & S2 & S3 & S4 & S5 & S6). cbn [fst snd] in *. pose proof (side_half xys poly HG fuel s HD p c d O Lp S1 NO IO). unfold tri2; cbn [fst snd].
    assert (cross3 O c d = cross3 c d O) as -> by (unfold cross3; ring). assert (cross3 O a b = cross3 a b O) as -> by (unfold cross3; ring). rewrite S2, S3, cross_part. nra.
  - intros [a b] [a2 b2] [c d] _ _ (K1 & K2 & K3 & t & t' & K4 & K5 & K6 & K7 & K8) (J1 & J2 & _ & u & u' & J4 & J5 & J6 & J7 & J8). cbn [fst snd] in *.
    destruct (Rtotal_order t' u') as [L|[E|L]].
    + exfalso. exact (sub_once a b a2 b2 c d t t' u u' K1 J1 K2 K3 K4 K5 J4 J5 K6 K7 J6 J7 J8 L).
    + subst u'. destruct (side_known xys' p P a b EP' K1) as (_ & Va & _ & NA & _). destruct (side_known xys' p P a2 b2 EP' J1) as (_ & Va2 & _ & NA2 & _).
      assert (BT : forall v w, v < w -> w < t' -> 0 < (w - v) / (t' - v) < 1 /\ part (part c d v) (part c d t') ((w - v) / (t' - v)) = part c d w).
      { intros v w H1 H2. split; [|destruct c, d; unfold part; cbn [fst snd]; f_equal; field; lra]. split; [apply Rdiv_lt_0_compat; lra|]. apply (Rmult_lt_reg_r (t' - v)); [lra|]. unfold Rdiv. rewrite Rmult_assoc, Rinv_l by lra. lra. }
      destruct (Rtotal_order t u) as [L|[E|L]]; [exfalso|subst u; congruence|exfalso].
      * destruct (BT t u L J7) as [B1 B2]. apply (NA _ B1). rewrite K4, K5, B2, <- J4. done.
      * destruct (BT u t L K7) as [B1 B2]. apply (NA2 _ B1). rewrite J4, J5, B2, <- K4. done.
    + exfalso. exact (sub_once a2 b2 a b c d u u' t t' J1 K1 J2 K3 J4 J5 K4 K5 J6 J7 K6 K7 K8 L).
Qed.
Lemma neg_sum (O : rpt) ws0 : sumR (fun w => - tri2 O w) ws0 = - sumR (tri2 O) ws0.
Proof. induction ws0 as [|w ws0 IH]; cbn; [ring|]. rewrite IH. ring. Qed.
Lemma shrinks f f' x x' : area A s f p = Val x -> area A s' f' p = Val x' -> x' <= x.
Proof.
  intros Hx Hx'. destruct (area_sides_at xys poly HG fuel s HD p P EP) as (ws & W1 & W2 & W3). destruct (area_sides_at xys' poly HG' fuel' s' HD' p P EP') as (ws' & W1' & W2' & W3').
  assert (exists O, nearest xys p O /\ inner corners O /\ forall a b, cell_side xys' corners p a b -> g (part a b (1 / 2)) = 0 -> cross3 a b O = 0) as (O & NO & IO & ZO).
  { destruct (classic (exists a b, cell_side xys' corners p a b /\ g (part a b (1 / 2)) = 0)) as [(a & b & HS & G0)|NE].
    - exists a. destruct (side_known xys' p P a b EP' HS) as (_ & _ & _ & _ & ALL & _). destruct (ALL 0 ltac:(lra)) as [Na Ia]. destruct (ALL 1 ltac:(lra)) as [Nb Ib]. rewrite part_0 in Na, Ia. rewrite part_1 in Nb, Ib.
      split; [apply was_near; [pose proof Lp; lia|done]|]. split; [done|].
      assert (ENDS : forall a b, cell_side xys' corners p a b -> g (part a b (1 / 2)) = 0 -> g a = 0 /\ g b = 0).
      { intros c d HS' G0'. destruct (side_known xys' p P c d EP' HS') as (_ & _ & _ & _ & ALL' & _). destruct (ALL' 0 ltac:(lra)) as [Nc _]. destruct (ALL' 1 ltac:(lra)) as [Nd _]. rewrite part_0 in Nc. rewrite part_1 in Nd.
        pose proof (near_g c Nc). pose proof (near_g d Nd). rewrite g_affine in G0'. lra. }
      destruct (ENDS a b HS G0) as [Ga _]. intros c d HS' G0'. destruct (ENDS c d HS' G0') as [Gc Gd].
      pose proof (affine_zero (dist2 new (0, 0) - dist2 P (0, 0)) (2 * (fst P - fst new)) (2 * (snd P - snd new)) g c d P a ltac:(intros w; unfold g; destruct P, new, w; unfold dist2; cbn [fst snd]; ring) Gc Gd) as K.
      pose proof g_site. rewrite Ga in K. nra.
    - exists P. split; [|split].
      + exists P. split; [done|]. intros Q _. assert (dist2 P P = 0) as -> by (destruct P; unfold dist2; cbn [fst snd]; ring). apply dist2_nonneg.
      + apply interior_inner, (r_inside _ _ HG). by eapply elem_of_list_lookup_2.
      + intros a b HS G0. exfalso. apply NE. by exists a, b. }
  rewrite (W3 f x O Hx), (W3' f' x' O Hx').
  assert (sumR (fun w => - tri2 O w) ws' <= sumR (fun w => - tri2 O w) ws).
  { apply sums_le; [done|done|intros a b; apply W2'|done|done|]. intros a b HS G0. rewrite (ZO a b HS G0). lra. }
  rewrite !neg_sum in H. lra.
Qed.
(* a neighbour of the new site loses some area: seen from a point it loses, the common side counts negative *)
Lemma loses f f' x x' : touch xys' corners p n -> area A s f p = Val x -> area A s' f' p = Val x' -> x' < x.
Proof.
  intros HT Hx Hx'. destruct (area_sides_at xys poly HG fuel s HD p P EP) as (ws & W1 & W2 & W3). destruct (area_sides_at xys' poly HG' fuel' s' HD' p P EP') as (ws' & W1' & W2' & W3').
  apply (neighbour_touch xys' poly HG' fuel' s' HD' p n) in HT. destruct HT as [e HE]. assert (Lp' : (p < length xys')%nat) by (rewrite app_length; pose proof Lp; lia).
  destruct (leads_facts xys' poly HG' fuel' s' HD' p n e HE Lp') as (_ & f0 & l0 & a & b & P' & Hl0 & He & HR & Nab & _ & _ & _ & _ & X).
  assert (HS : cell_side xys' corners p a b) by (apply (sides_iff xys' poly HG' fuel' s' HD' p l0 f0 a b Lp' Hl0); by exists e).
  destruct (side_known xys' p P a b EP' HS) as (_ & _ & _ & NO & ALL & CP & _). destruct (ALL (1 / 2) ltac:(lra)) as [Nz' Iz]. destruct (X (1 / 2) ltac:(lra)) as (_ & Nn & _). pose proof (NO (1 / 2) ltac:(lra)) as VZ.
  set (z := part a b (1 / 2)) in *.
  assert (G0 : forall u, 0 <= u <= 1 -> g (part a b u) = 0) by (intros u Hu; destruct (X u Hu) as (X1 & X2 & _); by apply near_g0).
  assert (Ga : g a = 0) by (rewrite <- (part_0 a b); apply G0; lra). assert (Gb : g b = 0) by (rewrite <- (part_1 a b); apply G0; lra). assert (Gz : g z = 0) by (apply G0; lra).
  pose proof Lp as Lp0.
  assert (Tz : interior corners z). { destruct (inner_cases corners z (r_convex _ _ HG) (r_corners _ _ HG) Iz) as [I|B]; [done|]. exfalso. apply VZ. right; left. split; [done|]. exists p, n. split; [lia|done]. }
  assert (FAR : forall k (K : rpt), PT k = Some K -> k <> p -> dist2 P z < dist2 K z).
  { intros k K EK Nk. destruct Nz' as (P'' & E & M). assert (P'' = P) as -> by (pose proof (eq_trans (eq_sym E) EP') as Y; by injection Y).
    destruct (Rlt_le_dec (dist2 P z) (dist2 K z)) as [L|L]; [done|]. exfalso. apply VZ. right; right. split; [done|]. assert (Lk : (k < n)%nat) by (by eapply lookup_lt_Some).
    exists p, n, k. split; [repeat constructor; rewrite ?elem_of_cons, ?elem_of_nil; lia|]. split; [by exists P|]. split; [done|]. exists K. split; [rewrite lookup_app_l; [exact EK|exact Lk]|].
    intros Q HQ. specialize (M Q HQ). change (D RArith) with R in *. lra. }
  destruct (small_step (fun T : rpt => dist2 P z - dist2 T z) (fun T => (dist2 T z - dist2 P z) - (dist2 T new - dist2 P new)) xys) as (t & Ht & F).
  set (u := Rmin t 1). assert (Hu : 0 < u <= t /\ u <= 1) by (unfold u, Rmin; destruct (Rle_dec t 1); lra). clearbody u.
  assert (NO' : nearest xys p (part z new u)).
  { exists P. split; [exact EP|]. intros Q HQ. apply elem_of_list_lookup in HQ as [k EK]. destruct (Nat.eq_dec k p) as [-> |Nk]; [assert (Q = P) as -> by (pose proof (eq_trans (eq_sym EK) EP) as Y; by injection Y); lra|].
    pose proof (FAR k Q EK Nk). pose proof (F Q u ltac:(by eapply elem_of_list_lookup_2) ltac:(cbv beta; lra) ltac:(lra)) as L. cbv beta in L. pose proof (equi_affine P Q z new u) as E. change (D RArith) with R in *. nra. }
  assert (IO : inner corners (part z new u)). { apply inner_part; [lra|done|]. apply interior_inner, (r_inside _ _ HG'). apply elem_of_app; right; left. }
  assert (GO : g (part z new u) < 0).
  { rewrite g_affine, Gz. assert (g new < 0); [|nra]. unfold g. assert (N : new <> P). { intros E. assert (n = p) by (eapply (NoDup_lookup xys'); [apply (r_distinct _ _ HG')|exact En'|pose proof EP' as Y; rewrite Y, E; reflexivity]). lia. }
    pose proof (dist2_pos P new ltac:(congruence)). assert (dist2 new new = 0) by (destruct new; unfold dist2; cbn [fst snd]; ring). change (D RArith) with R in *. lra. }
  set (O := part z new u) in *. clearbody O.
  assert (ZO : forall c d, cell_side xys' corners p c d -> g (part c d (1 / 2)) = 0 -> 0 < cross3 c d O).
  { intros c d HS' G0'. destruct (side_known xys' p P c d EP' HS') as (_ & _ & _ & _ & ALL' & CP' & _). destruct (ALL' 0 ltac:(lra)) as [Nc _]. destruct (ALL' 1 ltac:(lra)) as [Nd _]. rewrite part_0 in Nc. rewrite part_1 in Nd.
    pose proof (near_g c Nc). pose proof (near_g d Nd). rewrite g_affine in G0'. assert (Gc : g c = 0) by lra. assert (Gd : g d = 0) by lra.
    pose proof (affine_zero (dist2 new (0, 0) - dist2 P (0, 0)) (2 * (fst P - fst new)) (2 * (snd P - snd new)) g c d P O ltac:(intros w; unfold g; destruct P, new, w; unfold dist2; cbn [fst snd]; ring) Gc Gd) as K.
    pose proof g_site. nra. }
  rewrite (W3 f x O Hx), (W3' f' x' O Hx').
  assert (HW : (a, b) ∈ ws') by (by apply W2'). apply elem_of_list_split in HW as (k1 & k2 & EW).
  assert (L : sumR (fun w => - tri2 O w) (k1 ++ k2) <= sumR (fun w => - tri2 O w) ws).
  { apply sums_le; [|done| |done|done|intros c d S1 S2; pose proof (ZO c d S1 S2); lra].
    - rewrite EW in W1'. apply NoDup_app in W1' as (Y1 & Y2 & Y3). apply NoDup_cons in Y3 as [Y4 Y5]. apply NoDup_app. split; [done|]. split; [|done]. intros w H1 H2. apply (Y2 w H1). by right.
    - intros c d H. apply W2'. rewrite EW. rewrite elem_of_app, elem_of_cons in *. tauto. }
  rewrite !neg_sum in L. rewrite EW, sumR_app. cbn [sumR]. rewrite sumR_app in L. pose proof (ZO a b HS Gz) as Z. assert (tri2 O (a, b) = cross3 a b O) by (unfold tri2, cross3; cbn [fst snd]; ring). lra.
Qed.
Lemma same_area f f' x x' : ~ touch xys' corners p n -> area A s f p = Val x -> area A s' f' p = Val x' -> x' = x.
Proof.
  intros NT Hx Hx'. apply Rle_antisym; [exact (shrinks f f' x x' Hx Hx')|].
  destruct (area_sides_at xys poly HG fuel s HD p P EP) as (ws & W1 & W2 & W3). destruct (area_sides_at xys' poly HG' fuel' s' HD' p P EP') as (ws' & W1' & W2' & W3').
  rewrite (W3 f x P Hx), (W3' f' x' P Hx').
  assert (KEEP : forall z, nearest xys p z -> inner corners z -> nearest xys' p z) by (intros z Nz Iz; apply (kept_nearest xys new poly HG' p z Nz); [by apply not_exterior|done]).
  assert (SUB : forall a b, cell_side xys corners p a b -> cell_side xys' corners p a b).
  { intros a b HS. destruct (side_known xys p P a b EP HS) as (Nab & Va & Vb & NO & ALL & CP & _).
    assert (ALL' : forall u, 0 <= u <= 1 -> nearest xys' p (part a b u)) by (intros u Hu; apply KEEP; by apply ALL).
    pose proof (ALL' 0 ltac:(lra)) as Na. pose proof (ALL' 1 ltac:(lra)) as Nb. rewrite part_0 in Na. rewrite part_1 in Nb.
    split; [done|]. split; [by apply node_new|]. split; [by apply node_new|]. split; [|split; [|exists P; split; [exact EP'|done]]].
    - intros z (u & Hu & Ez) N1 N2 HN. change (z = part a b u) in Ez. subst z. pose proof (CellSides.part_ends a b u Nab N1 N2 Hu) as Hu'. destruct (node_old _ HN) as [K|K]; [|by apply (NO u Hu')].
      apply (near_g0 _ (ALL' u Hu)) in K. rewrite g_affine in K. pose proof (near_g a Na). pose proof (near_g b Nb). assert (g a = 0) by nra. assert (g b = 0) by nra.
      apply NT. split; [pose proof Lp; lia|]. exists a, b. split; [done|]. destruct (ALL 0 ltac:(lra)) as [_ Ia]. destruct (ALL 1 ltac:(lra)) as [_ Ib]. rewrite part_0 in Ia. rewrite part_1 in Ib.
      split; [by apply not_exterior|]. split; [by apply not_exterior|]. split; [done|]. split; [by apply near_g0|]. split; [done|by apply near_g0].
    - destruct HS as (_ & _ & _ & _ & HA & _). intros z Hz. destruct (HA z Hz) as (Z1 & Z2 & Z3). assert (Nz : nearest xys' p z) by (apply KEEP; [done|by apply not_exterior]). split; [done|]. split; [done|].
      destruct Z3 as [Z3|(q & Nq & Hq)]; [by left|right]. exists q. split; [done|]. by apply also_near. }
  assert (sumR (fun w => - tri2 P w) ws <= sumR (fun w => - tri2 P w) ws').
  { assert (NN : forall w, w ∈ ws' -> 0 <= - tri2 P w). { intros [a b] Hw. apply W2' in Hw. destruct (side_known xys' p P a b EP' Hw) as (_ & _ & _ & _ & _ & C & _). unfold tri2; cbn [fst snd]. assert (cross3 P a b = cross3 a b P) by (unfold cross3; ring). lra. }
    apply (sum_inject _ _ eq); [done|done| |intros ? ? ->; lra|congruence]. intros [a b] Hw. right. exists (a, b). split; [|done]. apply W2'. apply SUB. by apply W2. }
  assert (NEG : forall ws0, sumR (fun w => - tri2 P w) ws0 = - sumR (tri2 P) ws0). { intros ws0. induction ws0 as [|w ws0 IH]; cbn; [ring|]. rewrite IH. ring. }
  rewrite !NEG in H. lra.
Qed.
End TWO.
