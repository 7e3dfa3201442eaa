(* SideFacts.v -- the half-edges of borders() and the sides of the cell, for regular sites and polygon. *)
From stdpp Require Import base list sets.
From Coq Require Import ZArith Reals Lra Lia Psatz Classical.
From Verif Require Import Arith Geom Monad Tree Heapq State Sweep Finish SweepBase Dcel SweepInv Spec SpecFinish SweepFacts RArith GeomReal AreaReal PolyReal ConvexReal EdgeReal CircleReal FinishReal SweepReal VoronoiGeom
  SpecVoronoi VoronoiFacts ClipGeom SpecClip CellBorder CellFirst CellArea SpecMove CellSides Circle Visual SpecVisual DrawAll FinishFacts Envelope PropSweep PropFinish PropVoronoi PropEnvelope PropReal PropClip PropCells.
Local Open Scope R_scope.

Lemma line_part (c d y : rpt) : c <> d -> cross3 c d y = 0 -> exists w, y = part c d w.
Proof.
  intros N Hy. pose proof (dist2_pos c d N) as DD. exists (((fst y - fst c) * (fst d - fst c) + (snd y - snd c) * (snd d - snd c)) / dist2 c d).
  destruct y as [yx yy], c as [cx cy], d as [dx dy]. unfold cross3, dist2, part in *; cbn [fst snd] in *.
  set (N0 := (cx - dx) * (cx - dx) + (cy - dy) * (cy - dy)) in *. set (dot := (yx - cx) * (dx - cx) + (yy - cy) * (dy - cy)).
  assert (EX : N0 * (yx - cx) = dot * (dx - cx)) by (apply Rminus_diag_uniq; transitivity (- (dy - cy) * ((dx - cx) * (yy - cy) - (dy - cy) * (yx - cx))); [unfold N0, dot; ring|rewrite Hy; ring]).
  assert (EY : N0 * (yy - cy) = dot * (dy - cy)) by (apply Rminus_diag_uniq; transitivity ((dx - cx) * ((dx - cx) * (yy - cy) - (dy - cy) * (yx - cx))); [unfold N0, dot; ring|rewrite Hy; ring]).
  f_equal.
  - replace (dot / N0 * (dx - cx)) with (dot * (dx - cx) / N0) by (field; lra). rewrite <- EX. field. lra.
  - replace (dot / N0 * (dy - cy)) with (dot * (dy - cy) / N0) by (field; lra). rewrite <- EY. field. lra.
Qed.

Section SF.
Context (xys : list (pt RArith)) (poly : polygon RArith) (HG : regular xys poly).
Notation A := RArith.
Notation corners := (pg_points A poly).
Let ND := r_distinct _ _ HG. Let HC := r_convex _ _ HG. Let H3 := r_corners _ _ HG.
Let LL := r_low _ _ HG. Let GP := r_generic _ _ HG. Let TP := reg_top xys poly HG. Let SI := r_inside _ _ HG. Let CI := r_center _ _ HG.
Local Notation PT p := (@lookup nat (pt RArith) (list (pt RArith)) (@list_lookup (pt RArith)) p xys) (only parsing).
Context fuel s (HD : create_diagram A poly false fuel xys (init_state A corners) = Val (s, tt)).

Lemma ends_node x a b : side_of s x -> runs_to s x a b -> node xys corners a /\ node xys corners b.
Proof.
  intros Hx Hr. assert (L1 : (1 <= length xys)%nat) by (pose proof (proj1 TP); destruct xys; [done|simpl; lia]).
  destruct (C43_finished A xys corners poly fuel s (lawful_real xys) L1 ltac:(lia) HD) as [_ HF]. destruct (da_vset xys poly HG fuel s HD) as [_ HV].
  assert (K : forall e f c d, e ∈ s_edges s -> joins s e f c d -> node xys corners c /\ node xys corners d).
  { intros e f c d He HJ. destruct (HF e He) as (t & v & u & xy & xy' & T1 & T2 & T3 & T4 & T5). destruct HJ as (J1 & J2 & J3 & J4). assert (t = f) as -> by congruence.
    assert (U : forall e v xy c, attached A s e v xy -> origin_at s e c -> located A s v c).
    { clear. intros e v xy c [(h & X1 & X2) _] (w & (h' & Y1 & Y2) & Y3). assert (h = h') as -> by congruence. assert (v = w) as -> by congruence. done. }
    split; apply HV; [exists v|exists u]; (split; [done|]); by eapply U. }
  destruct (da_joins xys poly HG fuel s HD x a b Hx Hr) as [f HJ]. destruct Hx as [Hx|(e & He & Ht)]; [by eapply K|].
  pose proof HJ as (J1 & J2 & J3 & J4). destruct (da_joined xys poly HG fuel s HD e He) as (g & c & d & HJ' & _). assert (g = x) as -> by (destruct HJ' as (X & _); congruence).
  assert (e = f) as -> by (destruct HJ' as (_ & X & _); congruence). destruct (K f x b a He) as [? ?]; [|done]. by repeat split.
Qed.
Notation facts := (cell_facts xys poly ND HC H3 (ll_sites xys poly LL) (ll_inside xys poly LL) (ll_vertex xys poly LL) (gp_vertex xys poly GP)).

Lemma sides_iff p l f a b : (p < length xys)%nat -> borders A s f p = Val l ->
  cell_side xys corners p a b <-> exists e, e ∈ l /\ runs_to s e a b /\ a <> b.
Proof.
  intros Hp Hl. destruct (lookup_lt_is_Some_2 xys p Hp) as [P EP]. 
  destruct (facts TP SI (reg_corner xys poly HG) CI fuel s p P l HD EP ltac:(eauto)) as (_ & F1 & F2 & _). split.
  - intros (Nab & Va & Vb & Hno & Hall & P' & EP' & Hc). pose proof (eq_trans (eq_sym EP') EP) as X. injection X as ->.
    assert (AT : forall u, 0 <= u <= 1 -> nearest xys p (part a b u) /\ inner corners (part a b u) /\ (on_boundary corners (part a b u) \/ exists q, q <> p /\ nearest xys q (part a b u))).
    { intros u Hu. rewrite <- not_exterior. apply Hall. by exists u. }
    destruct (AT 0 ltac:(lra)) as (Na & Ia & _). destruct (AT 1 ltac:(lra)) as (Nb & Ib & _). rewrite part_0 in Na, Ia. rewrite part_1 in Nb, Ib.
    destruct (AT (1 / 2) ltac:(lra)) as (Nz & Iz & Bz). set (z := part a b (1 / 2)) in *.
    assert (INS : forall u, 0 < u < 1 -> ~ node xys corners (part a b u)).
    { intros u Hu. apply Hno; [exists u; split; [lra|done]|intros E|intros E].
      - rewrite <- (part_0 a b) in E at 2. apply part_inj in E; [lra|done].
      - rewrite <- (part_1 a b) in E at 2. apply part_inj in E; [lra|done]. }
    pose proof (INS (1 / 2) ltac:(lra)) as VZ. fold z in VZ.
    assert (Cz : cross3 a b z = 0) by (unfold z; rewrite cross_affine; unfold cross3; lra).
    destruct (F2 z Nz Iz) as [Ez|(x & c & d & t & u & X1 & X2 & X3 & X4 & Ez)]; [rewrite Ez in Cz; lra|].
    destruct (F1 x X1) as (c' & d' & G1 & G2 & G3 & G4 & G5 & G6 & G7). destruct (runs_to_fun s x _ _ _ _ X2 G2) as [<- <-].
    assert (u = 1) as ->.
    { apply NNPP. intros Nu. destruct (G5 t X3) as [Nw Iw]. set (w := part c d t) in *. destruct Bz as [((f1 & g1) & S1 & tt & S2 & S3)|(q & Nq & (Q & EQ & MQ))].
      - cbn [fst snd] in *. assert (Cw : cross3 f1 g1 z = 0) by (rewrite S3; change (cross3 f1 g1 (part f1 g1 tt) = 0); rewrite cross_affine; unfold cross3; ring).
        rewrite Ez, cross_affine in Cw. pose proof (SI P ltac:(by eapply elem_of_list_lookup_2) f1 g1 S1) as I1. pose proof (Iw f1 g1 S1) as I2. nra.
      - pose proof (MQ P ltac:(by eapply elem_of_list_lookup_2)) as M1. destruct Nw as (P2 & E2 & M2). pose proof (eq_trans (eq_sym E2) EP) as X. injection X as ->.
        pose proof (M2 Q ltac:(by eapply elem_of_list_lookup_2)) as M3. pose proof (equi_affine P Q P w u) as M4. rewrite <- Ez in M4.
        assert (NPQ : P <> Q) by (intros ->; apply Nq; by eapply (NoDup_lookup xys)). pose proof (dist2_pos Q P ltac:(congruence)) as M5.
        assert (dist2 P P = 0) as Z0 by (destruct P; unfold dist2; cbn [fst snd]; ring). change (D RArith) with R in *. rewrite Z0 in M4. nra. }
    rewrite part_1 in Ez. destruct (ends_node x c d G1 X2) as [Vc Vd].
    assert (Ncd : c <> d). { intros <-. apply VZ. rewrite Ez. replace (part c c t) with c; [done|]. destruct c. unfold part; cbn [fst snd]. f_equal; ring. }
    destruct (G7 Ncd) as [_ G8]. destruct G4 as [G4|G4]; [done|].
    pose proof (G6 a Na Ia) as Ka. pose proof (G6 b Nb Ib) as Kb. assert (Kz : cross3 c d z = 0) by (rewrite Ez, cross_affine; unfold cross3; ring).
    unfold z in Kz. rewrite cross_affine in Kz. assert (Ka' : cross3 c d a = 0) by lra. assert (Kb' : cross3 c d b = 0) by lra.
    assert (LINE : forall y, cross3 c d y = 0 -> exists w, y = part c d w).
    { intros y Hy. by apply line_part. }
    destruct (LINE a Ka') as [al Ea]. destruct (LINE b Kb') as [be Eb].
    assert (Et : part c d ((al + be) / 2) = part c d t) by (rewrite <- Ez; unfold z; rewrite Ea, Eb; destruct c, d; unfold part; cbn [fst snd]; f_equal; field).
    apply part_inj in Et; [|done].
    assert (t <> 0 /\ t <> 1) as [Nt0 Nt1]. { split; intros ->; apply VZ; rewrite Ez; [by rewrite part_0|by rewrite part_1]. }
    assert (Nal : ~ 0 < al < 1) by (intros H; apply (G8 al H); by rewrite <- Ea). assert (Nbe : ~ 0 < be < 1) by (intros H; apply (G8 be H); by rewrite <- Eb).
    assert (Nne : al <> be) by (intros ->; apply Nab; by rewrite Ea, Eb).
    assert (BACK : forall w, part c d w = part a b ((w - al) / (be - al))).
    { intros w. rewrite Ea, Eb. destruct c, d. unfold part; cbn [fst snd]. f_equal; field; lra. }
    assert (Nc : ~ 0 < (0 - al) / (be - al) < 1) by (intros H; apply (INS _ H); rewrite <- BACK, part_0; done).
    assert (Nd : ~ 0 < (1 - al) / (be - al) < 1) by (intros H; apply (INS _ H); rewrite <- BACK, part_1; done).
    destruct (Rlt_le_dec al be) as [Hlt|Hge].
    + assert (al <= 0) by lra. assert (1 <= be) by lra.
      assert (al = 0). { apply NNPP. intros N. apply Nc. split; [apply Rdiv_lt_0_compat; lra|]. apply (Rmult_lt_reg_r (be - al)); [lra|]. field_simplify; lra. }
      assert (be = 1). { apply NNPP. intros N. apply Nd. split; [apply Rdiv_lt_0_compat; lra|]. apply (Rmult_lt_reg_r (be - al)); [lra|]. field_simplify; lra. }
      exists x. split; [done|]. split; [|done]. rewrite Ea, Eb. subst al be. by rewrite part_0, part_1.
    + exfalso. assert (E : cross3 a b P = (be - al) * cross3 c d P) by (rewrite Ea, Eb; apply cross_part). nra.
  - intros (e & He & Hr & Nab). destruct (F1 e He) as (a' & b' & G1 & G2 & G3 & G4 & G5 & G6 & G7). destruct (runs_to_fun s e _ _ _ _ Hr G2) as [<- <-].
    destruct (G7 Nab) as [G8 G9]. destruct (ends_node e a b G1 Hr) as [Va Vb]. destruct G4 as [G4|G4]; [done|].
    split; [done|]. split; [done|]. split; [done|]. split; [|split; [|by exists P]].
    + intros z (u & Hu & Ez) N1 N2. change (z = part a b u) in Ez. subst z. apply G9. by apply (part_ends a b).
    + intros z (u & Hu & Ez). change (z = part a b u) in Ez. subst z. destruct (G5 u Hu) as [X1 X2]. split; [done|]. split; [by apply not_exterior|]. by apply G8.
Qed.
Lemma sides_once p l f e e' a b : (p < length xys)%nat -> borders A s f p = Val l -> e ∈ l -> e' ∈ l -> runs_to s e a b -> runs_to s e' a b -> a <> b -> e = e'.
Proof.
  intros Hp Hl. destruct (lookup_lt_is_Some_2 xys p Hp) as [P EP]. 
  destruct (facts TP SI (reg_corner xys poly HG) CI fuel s p P l HD EP ltac:(eauto)) as (_ & _ & _ & F3 & _). apply F3.
Qed.
(* the area, as a sum of triangles from the site to the sides *)
Lemma area_sides p (P : rpt) : (PT p) = Some P -> exists ws : list (rpt * rpt), NoDup ws /\ (forall a b, (a, b) ∈ ws <-> cell_side xys corners p a b) /\
  forall f x, area A s f p = Val x -> x = - / 2 * sumR (tri2 P) ws.
Proof.
  intros EP. assert (Hp : (p < length xys)%nat) by exact (lookup_lt_Some xys p P EP). destruct (reg_cells xys poly HG fuel s p HD Hp) as [(l & f & Hl) _].
  destruct (facts TP SI (reg_corner xys poly HG) CI fuel s p P l HD EP ltac:(eauto)) as (F0 & F1 & _ & F3 & F4).
  set (b x := if rpt_dec (fst (seg s x)) (snd (seg s x)) then false else true).
  assert (IN : forall x a c, x ∈ List.filter b l -> seg s x = (a, c) -> x ∈ l /\ runs_to s x a c /\ a <> c).
  { intros x a c Hx Es. apply elem_of_list_In, filter_In in Hx as [Hx Hb]. apply elem_of_list_In in Hx. destruct (F1 x Hx) as (a' & c' & _ & G & _). pose proof (seg_runs s x a' c' G) as Es'. rewrite Es in Es'. injection Es' as <- <-.
    split; [done|]. split; [done|]. unfold b in Hb. rewrite Es in Hb. cbn [fst snd] in Hb. by destruct (rpt_dec a c). }
  exists (map (seg s) (List.filter b l)). split; [|split].
  - apply NoDup_fmap_2_strong; [|by apply nodup_filter]. intros x y Hx Hy E. destruct (seg s x) as [a c] eqn:Ex. destruct (IN x a c Hx Ex) as (X1 & X2 & X3). destruct (IN y a c Hy (eq_sym E)) as (Y1 & Y2 & _). by eapply F3.
  - intros a c. rewrite (sides_iff p l f a c Hp Hl), elem_of_list_In, in_map_iff. split.
    + intros (x & Es & Hx). apply elem_of_list_In in Hx. exists x. by apply IN.
    + intros (x & Hx & Hr & N). pose proof (seg_runs s x a c Hr) as Es. exists x. split; [done|]. apply filter_In. split; [by apply elem_of_list_In|]. unfold b. rewrite Es. cbn [fst snd]. by destruct (rpt_dec a c).
  - intros f' x Hx. rewrite (F4 f' x Hx). f_equal. rewrite sumR_map, sumR_filter; [done|]. intros y _. unfold b. destruct (rpt_dec _ _) as [E|]; [|done]. intros _. unfold tri2. rewrite E. unfold cross3. ring.
Qed.
End SF.
