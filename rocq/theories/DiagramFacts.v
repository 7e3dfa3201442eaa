(* DiagramFacts.v -- clipping, border, clean-up and messages of create_diagram, in the
   vocabulary of Spec.v and SpecFinish.v. *)
From stdpp Require Import base list sets.
From Coq Require Import ZArith Lia.
From Verif Require Import Arith Geom Monad Tree Heapq State Sweep Finish HeapqProofs EventOrder TreeProofs TreeOps TreeSearch Beach
  SweepBase Dcel SweepInv SweepTrans SweepSite SweepCircle SweepLoop Spec SpecFinish SweepFacts FinishEdges FinishBorder FinishFacts FinishDiagram FinishLinks CleanUp FinishMain FinishOne.
Local Open Scope monad_scope.

(* ---------- walks ---------- *)
Section AnyState.
Context (A : Arith).
Implicit Types s : state A.

Lemma borders_walk s p x e : s_points s !! p = Some x -> p_first x = Some e ->
  (forall l, (exists fuel, borders A s fuel p = Val l) <-> walk A s e l) /\
  (forall l fuel, walk A s e l -> length l <= fuel -> borders A s fuel p = Val l) /\
  (forall l l', walk A s e l -> walk A s e l' -> l = l').
Proof.
  intros Hx He. assert (HB : forall fuel, borders A s fuel p = borders_loop A fuel s e e) by (intros fuel; unfold borders; by rewrite Hx, He).
  split; [|split].
  - intros l. split.
    + intros [fuel Hf]. rewrite HB in Hf. by apply loop_walk in Hf as [? _].
    + intros HW. exists (length l). rewrite HB. by apply walk_loop.
  - intros l fuel HW Hl. rewrite HB. by apply walk_loop.
  - apply walk_unique.
Qed.
Lemma borders_none s p x fuel : s_points s !! p = Some x -> p_first x = None -> borders A s fuel p = Val [].
Proof. intros Hx He. unfold borders. by rewrite Hx, He. Qed.

Lemma cell_vertices_spec s p fuel es vs : borders A s fuel p = Val es -> Forall2 (fun e v => starts_at A s e v) es vs -> cell_vertices A s fuel p = Val vs.
Proof.
  intros Hb HF. unfold cell_vertices. rewrite Hb. cbn [rbind]. f_equal. clear Hb. induction HF as [|e v es vs (h & H1 & H2) HF IH]; [done|].
  cbn [flat_map]. unfold half in H1. rewrite H1, H2, IH. done.
Qed.

(* zero length in the words of CleanUp.v *)
Lemma zero_length_iff s e : CleanUp.zlen A s e <-> SpecFinish.zero_length A s e.
Proof.
  split.
  - intros (t & u & v & H1 & H2 & H3 & H4). unfold near in H4. destruct (xyof A s u) as [a|] eqn:Eu; [|done]. destruct (xyof A s v) as [b|] eqn:Ev; [|done].
    unfold org in *. destruct (s_hedges s !! e) as [h|] eqn:Eh; [|done]. destruct (s_hedges s !! t) as [g|] eqn:Eg; [|done]. injection H2 as H2. injection H3 as H3.
    unfold xyof in *. destruct (s_verts s !! u) as [w|] eqn:Ew; [|done]. destruct (s_verts s !! v) as [w'|] eqn:Ew'; [|done]. simpl in Eu, Ev.
    exists t, u, v, a, b. split; [done|]. split; [by exists h|]. split; [by exists w|]. split; [by exists g|]. split; [by exists w'|done].
  - intros (t & u & v & a & b & H1 & (h & H2 & H3) & (w & H4 & H5) & (g & H6 & H7) & (w' & H8 & H9) & H10). unfold half in *.
    exists t, u, v. unfold org, xyof. rewrite H2, H4, H6, H8. simpl. rewrite H3, H7, H5, H9. done.
Qed.
End AnyState.

Section DFacts.
Context (A : Arith) (pts corners : list (pt A)).
Notation St := (state A).
Implicit Types s : St.
Notation n := (length pts).
Notation k0 := (length corners).
Context (TO : TotalOrder A) (MO : MidOK A (fst <$> pts)) (CC : forall p q, create_circle A p q p = Val None).
Context (poly : polygon A).
Notation Good := (fun _ _ _ : pt A => True).
Notation OnPoly := (fun _ : pt A => True).
Notation ring := (ring A poly).
Notation clipped := (clipped A poly Good OnPoly).

Lemma clip_any s : ended A pts corners s -> post (finish_edges A poly (s_edges s) s) (fun s1 r => exists dead, clipped s s1 r dead).
Proof. intros HE. by apply (clip_ended A pts corners TO MO CC poly Good OnPoly). Qed.

Lemma clipping fuel s : sweep A fuel pts (init_state A corners) = Val (s, tt) ->
  match finish_edges A poly (s_edges s) s with
  | Raise e => e = InvalidOperation \/ e = DivisionByZero
  | Val (s1, r) =>
      sublist r (s_edges s) /\
      (forall e, e ∈ r <-> e ∈ s_edges s /\ exists t v u xy xy', twin A s1 e = Some t /\ starts_at A s1 e v /\ located A s1 v xy /\ starts_at A s1 t u /\ located A s1 u xy') /\
      (forall x, kept A s1 r x -> exists v xy, attached A s1 x v xy /\ (v ∈ s_pverts s1 \/ v ∈ s_vset s1 /\ inside A (pg_points A poly) xy = Val true)) /\
      (forall x y, kept A s1 r x -> next A s1 x = Some y -> kept A s1 r y /\ prev A s1 y = Some x /\ borders_site A s1 y = borders_site A s1 x) /\
      (forall e, twin A s1 e = twin A s e /\ borders_site A s1 e = borders_site A s e)
  end.
Proof.
  intros HS. apply (sweep_ended A pts corners TO) in HS. pose proof (clip_any s HS) as HP. unfold post in HP.
  destruct (finish_edges A poly (s_edges s) s) as [[s1 r]|e]; [|exact HP]. destruct HP as [dead HC].
  destruct (clip_result A pts corners TO MO CC poly Good OnPoly s s1 r dead HS HC) as (H1 & H2 & H3 & H4 & H5 & H6).
  split; [done|]. split; [done|]. split; [|split; [done|done]].
  intros x Hx. destruct (H3 x Hx) as (v & xy & V1 & V2 & V3 & V4). exists v, xy. by split.
Qed.

Context (asym : forall a b, fltb A a b = true -> fltb A b a = false).
Notation key p := (clockwise_key A (pg_center A poly) p).
Notation m l := (length l).

Lemma border fuel s s1 r : 1 <= n -> 2 <= k0 -> sweep A fuel pts (init_state A corners) = Val (s, tt) ->
  finish_edges A poly (s_edges s) s = Val (s1, r) ->
  match finish_polygon A poly r (s_vset s1) (s_sites s1) (set_edges r s1) with
  | Raise e => e = InvalidOperation \/ e = DivisionByZero
  | Val (s2, (es, vs)) => exists ring bd inner q0 v0 p0,
      es = r ++ bd /\ vs = ring ++ inner /\ m bd = m ring /\ NoDup ring /\ NoDup bd /\
      (forall v, v ∈ ring <-> v ∈ s_pverts s1 /\ exists xy, located A s1 v xy) /\
      (forall v, v ∈ inner <-> v ∈ s_vset s1 /\ exists xy, located A s1 v xy /\ inside A (pg_points A poly) xy = Val true) /\
      (forall j v v' p p', ring !! j = Some v -> ring !! S j = Some v' -> located A s1 v p -> located A s1 v' p' -> fltb A (key p') (key p) = false) /\
      ring !! 0 = Some v0 /\ located A s1 v0 p0 /\ get_closest_point A p0 pts = Val q0 /\
      (forall v xy, located A s2 v xy <-> located A s1 v xy) /\
      forall j e, bd !! j = Some e -> exists v v' t q xy xy',
        ring !! j = Some v /\ ring !! after (m ring) j = Some v' /\
        attached A s2 e v xy /\ attached A s2 t v' xy' /\ twin A s2 e = Some t /\ twin A s2 t = Some e /\
        borders_site A s2 e = Some q /\ q < n /\ borders_site A s2 t = None /\
        next A s2 e = match connected A s1 v' with c :: _ => Some c | [] => bd !! after (m ring) j end /\
        match connected A s1 v with
        | c :: _ => exists t', twin A s1 c = Some t' /\ next A s2 t' = Some e /\ borders_site A s1 t' = Some q
        | [] => match j with 0 => q = q0 | S i => exists e', bd !! i = Some e' /\ borders_site A s2 e' = Some q end
        end
  end.
Proof.
  intros Hn Hk HS HF. apply (sweep_ended A pts corners TO) in HS. pose proof (clip_any s HS) as HP. rewrite HF in HP. destruct HP as [dead HC].
  pose proof (polygon_ended A pts corners TO MO CC poly Good OnPoly s s1 r dead HS HC Hn Hk) as HP. unfold post in HP.
  destruct (finish_polygon A poly r (s_vset s1) (s_sites s1) (set_edges r s1)) as [[s2 [es vs]]|e]; [|exact HP].
  destruct HP as (p & x & v0 & w0 & xy0 & xys & i & Q1 & Q2 & Q3 & Q4 & Q5 & Q6 & Q7 & Q8 & Q9 & Q10 & ex & Q11 & Q12 & Q13). cbn [fst snd] in *. subst es vs.
  pose proof (c_fin _ _ _ _ _ _ _ _ HC) as HFin.
  pose proof (fin_start A poly Good OnPoly (set_edges r s1) dead HFin Q1) as ST. change (FinishFacts.ring A poly (set_edges r s1)) with (ring s1) in ST.
  pose proof Q9 as HB. unfold ringed in HB. change (FinishFacts.ring A poly (set_edges r s1)) with (ring s1) in HB.
  (* the closest site *)
  destruct (c_ext _ _ _ _ _ _ _ _ HC) as (tw & HX & _). destruct (ext_sites A _ _ _ HX) as (Es & _ & _ & _). destruct (ended_points A pts corners TO MO CC s HS) as (Hsi & Hpl & Hpx). rewrite Hsi in Es.
  assert (Hxy : xys = pts).
  { destruct (points_xy_val A (set_edges r s1) (s_sites s1)) as (l & L1 & L2 & L3).
    { rewrite Es. intros q Hq%elem_of_seq. cbn [set_edges s_points]. apply lookup_lt_is_Some_2. rewrite (x_plen _ _ _ _ HX). lia. }
    assert (l = xys) as -> by congruence. clear L1. rewrite Es, seq_length in L2. apply list_eq_same_length with (n := n); [done|done|]. intros j a b Hj Ha Hb.
    destruct (s_points s !! j) as [y|] eqn:Ey. 2:{ apply lookup_ge_None in Ey. lia. }
    destruct (x_ps _ _ _ _ HX j y Ey) as (y' & Y1 & Y2 & _). rewrite (L3 j j y') in Ha; [|rewrite Es; apply lookup_seq; lia|exact Y1]. injection Ha as <-.
    assert (pts !! j = Some (p_xy y)) as E by (rewrite <- Hpx, list_lookup_fmap, Ey; done). congruence. }
  subst xys.
  assert (p = i) as ->. { rewrite Es in Q7. by apply lookup_seq in Q7 as [-> _]. }
  assert (Hlk : forall j e, map (ed A s1) (seq 0 (m (ring s1))) !! j = Some e <-> j < m (ring s1) /\ e = ed A s1 j).
  { intros j e. change (map (ed A s1) (seq 0 (m (ring s1)))) with (ed A s1 <$> seq 0 (m (ring s1))). rewrite list_lookup_fmap. split.
    - intros He. destruct (seq 0 (m (ring s1)) !! j) as [k|] eqn:Ek; [|done]. apply lookup_seq in Ek as [-> Ek]. injection He as <-. done.
    - intros [Hj ->]. rewrite lookup_seq_lt by done. done. }
  exists (ring s1), (map (ed A s1) (seq 0 (m (ring s1)))), ex, i, v0, xy0. split; [done|]. split; [done|]. split; [by rewrite map_length, seq_length|].
  split; [apply ST|]. split; [apply NoDup_fmap_2; [|apply NoDup_seq]; intros a b; unfold ed; lia|].
  split. { intros v. rewrite in_ring. split; [intros [H1 (w & xy & H2 & H3)]|intros [H1 (xy & w & H2 & H3)]]; (split; [done|]); [exists xy; by exists w|eauto]. }
  split. { intros v. rewrite Q13. split; intros [H1 H2]; (split; [done|]); [destruct H2 as (w & xy & H2 & H3 & H4)|destruct H2 as (xy & (w & H2 & H3) & H4)]; eauto. exists xy. split; [by exists w|done]. }
  split.
  { intros j v v' a a' Hv Hv' (w & W1 & W2) (w' & W3 & W4). unfold FinishFacts.ring, get_ordered_vertices in Hv, Hv'.
    pose proof (ordered_look A _ _ _ _ _ (sort_ordered A asym _ _) Hv Hv') as HO. cbv beta in HO. rewrite W1, W3, W2, W4 in HO. done. }
  split; [by rewrite <- head_lookup|]. split; [by exists w0|]. split; [done|].
  split.
  { intros v xy. split.
    - intros (w & H1 & H2). destruct (s_verts s1 !! v) as [w1|] eqn:E1.
      + destruct (b_conn _ _ _ _ _ _ HB v w1 E1) as (w' & H3 & H4 & _). exists w1. split; [done|congruence].
      + apply lookup_ge_None in E1. apply lookup_lt_Some in H1. rewrite (b_vlen _ _ _ _ _ _ HB) in H1. cbn [set_edges s_verts] in H1. lia.
    - apply (old_located A poly s1 r i s2 Q9). }
  intros j e [Hj ->]%Hlk.
  destruct (border_half A poly Good OnPoly s s1 r dead i s2 HC Q1 Q9 x Q8 j Hj) as (q & y & B1 & B2 & B3 & B4 & B5 & B6 & B7 & B8 & B9 & B10).
  assert (HV : forall k, k <= m (ring s1) -> exists xy, located A s2 (V (ring s1) k) xy).
  { intros k Hkm. assert (V (ring s1) k ∈ ring s1) as Hjr by (by apply (V_in A (set_edges r s1) (ring s1) ST)). apply in_ring in Hjr as [_ (w & xy & H1 & H2)]. exists xy.
    eapply (old_located A poly s1 r i s2 Q9). by exists w. }
  destruct (HV j) as [xy Hxy]; [lia|]. destruct (HV (S j)) as [xy' Hxy']; [lia|].
  exists (V (ring s1) j), (V (ring s1) (S j)), (te A s1 j), q, xy, xy'. split; [by apply (V_look (ring s1))|].
  split. { unfold after. destruct (Nat.eqb_spec (S j) (m (ring s1))) as [E|E]; [rewrite E, (V_n A (set_edges r s1) (ring s1) ST)|]; apply (V_look (ring s1)); lia. }
  split; [done|]. split; [done|]. split; [done|]. split; [done|]. split; [done|].
  split. { apply lookup_lt_Some in B2. rewrite (b_plen _ _ _ _ _ _ HB) in B2. cbn [set_edges s_points] in B2. rewrite (x_plen _ _ _ _ HX), Hpl in B2. done. }
  split; [done|].
  destruct (b_new _ _ _ _ _ _ HB j Hj) as (h & t & N1 & N2 & N3 & N4 & N5 & N6 & N7 & N8 & N9 & N10).
  change (FinishBorder.ed A (set_edges r s1) j) with (ed A s1 j) in *.
  assert (Hcn : forall v, connected A s1 v = conn0 A (set_edges r s1) v) by done.
  split.
  { unfold next, half. rewrite N1. simpl. rewrite N9. unfold target, chord. rewrite <- Hcn. destruct (connected A s1 (V (ring s1) (S j))) as [|c cs]; [|done].
    cbn [head]. symmetry. apply Hlk. unfold after. destruct (Nat.eqb_spec (S j) (m (ring s1))); [split; [lia|done]|]. destruct (Nat.ltb_spec (S j) (m (ring s1))); [done|lia]. }
  cbn [cur] in B1. unfold chord in B1. rewrite <- Hcn in B1. destruct (connected A s1 (V (ring s1) j)) as [|c cs] eqn:Ec; cbn [head] in B1.
  - destruct j as [|j']; [by injection B1 as ->|]. exists (ed A s1 j'). split; [apply Hlk; split; [lia|done]|].
    destruct (border_half A poly Good OnPoly s s1 r dead i s2 HC Q1 Q9 x Q8 j' ltac:(lia)) as (q' & y' & C1 & C2 & C3 & C4 & C5 & C6 & C7 & C8 & C9 & C10). congruence.
  - destruct (tw0 A (set_edges r s1) c) as [t'|] eqn:Et; [|done]. exists t'. split; [exact Et|]. split; [|exact B1].
    destruct (b_in _ _ _ _ _ _ HB j c t' Hj) as (h' & I1 & I2); [unfold chord; rewrite <- Hcn, Ec; done|done|]. unfold next, half. rewrite I1. simpl. rewrite I2. done.
Qed.

(* the cells after finish_polygon *)
Lemma cells fuel s s1 r s2 es vs : 1 <= n -> 2 <= k0 -> sweep A fuel pts (init_state A corners) = Val (s, tt) ->
  finish_edges A poly (s_edges s) s = Val (s1, r) ->
  (forall e t x v xy, e ∈ s_edges s -> e ∉ r -> twin A s1 e = Some t -> x = e \/ x = t -> starts_at A s1 x v -> v ∈ s_vset s1 -> located A s1 v xy ->
     inside A (pg_points A poly) xy <> Val true) ->
  finish_polygon A poly r (s_vset s1) (s_sites s1) (set_edges r s1) = Val (s2, (es, vs)) ->
  (forall e, e ∈ es \/ kept A s1 r e -> exists f t v, next A s2 e = Some f /\ (f ∈ es \/ kept A s1 r f) /\ prev A s2 f = Some e /\
     twin A s2 e = Some t /\ starts_at A s2 t v /\ starts_at A s2 f v) /\
  (forall q x e, s_points s2 !! q = Some x -> p_first x = Some e -> exists l, walk A s2 e l /\ closed A s2 e l /\
     (Forall (fun e => e ∈ es \/ kept A s1 r e) l \/ l = [e])).
Proof.
  intros Hn Hk HS HF HN HPo. apply (sweep_ended A pts corners TO) in HS. pose proof (clip_any s HS) as HP. rewrite HF in HP. destruct HP as [dead HC].
  pose proof (polygon_ended A pts corners TO MO CC poly Good OnPoly s s1 r dead HS HC Hn Hk) as HP. rewrite HPo in HP.
  destruct HP as (p & x & v0 & w0 & xy0 & xys & i & Q1 & Q2 & Q3 & Q4 & Q5 & Q6 & Q7 & Q8 & Q9 & Q10 & ex & Q11 & Q12 & Q13). cbn [fst snd] in *. subst es vs.
  assert (HL : forall e, live A poly s1 r e <-> e ∈ r ++ map (ed A s1) (seq 0 (m (ring s1))) \/ kept A s1 r e).
  { intros e. unfold live. rewrite elem_of_app. split.
    - intros [H|(j & Hj & ->)]; [by right|]. left. right. apply elem_of_list_In, in_map_iff. exists j. split; [done|]. apply in_seq. lia.
    - intros [[H|H]|H]; [left; by left| |by left]. right. apply elem_of_list_In, in_map_iff in H as (j & <- & Hj%in_seq). exists j. split; [lia|done]. }
  split.
  - intros e He. apply HL in He. destruct (live_next A pts corners TO MO CC poly Good OnPoly s s1 r dead p s2 HS HC Q1 Q9 e HN He) as (f & t & v & L1 & L2 & L3 & L4 & L5 & L6).
    exists f, t, v. apply HL in L2. done.
  - intros q y e Hq He. destruct (cell_walk A pts corners TO MO CC poly Good OnPoly s s1 r dead p s2 HS HC Q1 Q9 q y e HN Hq He) as (l & z & W1 & W2 & W3 & W4).
    exists l. split; [done|]. split; [by exists z|]. destruct W4 as [W4|W4]; [|by right]. left. eapply Forall_impl; [exact W4|]. intros a. apply HL.
Qed.

(* ---------- create_diagram ---------- *)
Lemma create_false fuel flag s' : 1 <= n -> 2 <= k0 -> create_diagram A poly flag fuel pts (init_state A corners) = Val (s', tt) ->
  exists s3 s4, built A pts corners poly Good OnPoly s3 /\ create_diagram A poly false fuel pts (init_state A corners) = Val (logged A s3, tt) /\
    (if flag then clean_up_zero_length_edges A else ret tt) s3 = Val (s4, tt) /\ s' = logged A s4.
Proof.
  intros Hn Hk. rewrite !create_split. unfold bind. destruct (sweep A fuel pts (init_state A corners)) as [[s []]|] eqn:Es; [|done].
  destruct (sweep_swept A pts corners TO fuel s Es) as (s0 & idx & hist & HS & ->). change (set_log _ s0) with (after_sweep A s0).
  pose proof (rest_post A pts corners TO MO CC poly Good OnPoly ltac:(done) ltac:(done) ltac:(done) ltac:(done) ltac:(done) s0 idx hist HS Hn Hk) as HP. unfold post in HP.
  change (s_edges (after_sweep A s0)) with (s_edges s0). destruct (rest A poly (s_edges s0) (after_sweep A s0)) as [[s3 []]|]; [|done]. intros HL.
  apply last_val in HL as (s4 & H4 & ->). exists s3, s4. split; [done|]. split; [|done]. unfold last_part, bind, ret. cbn [notify write]. unfold notify, write, logged. destruct s3; simpl. by rewrite <- app_assoc.
Qed.

(* the result of create_diagram without clean-up *)
Lemma finished fuel s' : 1 <= n -> 2 <= k0 -> create_diagram A poly false fuel pts (init_state A corners) = Val (s', tt) ->
  (forall v, v ∈ s_vset s' -> exists xy, located A s' v xy) /\
  forall e, e ∈ s_edges s' -> exists t v u xy xy', twin A s' e = Some t /\ attached A s' e v xy /\ v ∈ s_vset s' /\ attached A s' t u xy' /\ u ∈ s_vset s'.
Proof.
  intros Hn Hk H. destruct (create_false fuel false s' Hn Hk H) as (s3 & s4 & HB & _ & H4 & ->). injection H4 as <-.
  destruct (built_listed A pts corners TO MO CC poly Good OnPoly s3 HB) as (_ & _ & H1 & H2). split; [exact H1|].
  intros e He. destruct (H2 e He) as (t & T & (v & xy & V1 & V2 & V3 & V4) & (u & xy' & U1 & U2 & U3 & U4)). exists t, v, u, xy, xy'. done.
Qed.

Lemma finished_exn fuel e : 1 <= n -> 2 <= k0 -> 7 * n < fuel -> create_diagram A poly false fuel pts (init_state A corners) = Raise e -> e = InvalidOperation \/ e = DivisionByZero.
Proof.
  intros Hn Hk Hf H. apply (create_exn A pts corners TO MO CC poly Good OnPoly ltac:(done) ltac:(done) ltac:(done) ltac:(done) ltac:(done)) in H; [|done|done|done].
  destruct H as [H|(H & _)]; [exact H|done].
Qed.

Lemma cleaned fuel s' : 1 <= n -> 2 <= k0 -> create_diagram A poly true fuel pts (init_state A corners) = Val (s', tt) ->
  exists s, create_diagram A poly false fuel pts (init_state A corners) = Val (s, tt) /\
    (forall e, e ∈ s_edges s' -> ~ zero_length A s' e) /\
    sublist (s_edges s') (s_edges s) /\ (forall e, e ∈ s_edges s -> (e ∈ s_edges s' <-> ~ zero_length A s e)) /\
    (forall v xy, located A s' v xy <-> located A s v xy) /\
    (forall e, twin A s' e = twin A s e /\ borders_site A s' e = borders_site A s e) /\
    (forall e v xy, starts_at A s e v -> located A s v xy -> exists v' xy', starts_at A s' e v' /\ located A s' v' xy' /\ same_place A xy xy').
Proof.
  intros Hn Hk H. destruct (create_false fuel true s' Hn Hk H) as (s3 & s4 & HB & HF & H4 & ->).
  destruct (built_listed A pts corners TO MO CC poly Good OnPoly s3 HB) as (HL & HW & _ & _).
  destruct (clean_up_inv A TO (fun v => v ∈ s_vset s3) s3 s4 HL HW H4) as (C1 & C2 & C3 & C4).
  assert (HX : forall v xy, located A s4 v xy <-> located A s3 v xy).
  { intros v xy. pose proof (m_xy _ _ _ _ C4 v) as E. unfold xyof in E. change (s_verts (set_edges (s_edges s3) s4)) with (s_verts s4) in E.
    split; intros (w & W1 & W2).
    - rewrite W1 in E. simpl in E. destruct (s_verts s3 !! v) as [w'|] eqn:Ew; simpl in E; [|congruence]. exists w'. split; [done|congruence].
    - rewrite W1 in E. simpl in E. destruct (s_verts s4 !! v) as [w'|] eqn:Ew; simpl in E; [|congruence]. exists w'. split; [done|congruence]. }
  exists (logged A s3). split; [done|]. split; [intros e He HZ; apply (C3 e He); apply zero_length_iff; exact HZ|]. split; [done|].
  split; [intros e He; rewrite (C2 e He), zero_length_iff; done|]. split; [exact HX|].
  split; [intros e; split; [apply (m_twin _ _ _ _ C4)|apply (m_inc _ _ _ _ C4)]|].
  intros e v xy (h & H1 & H2) (w & W1 & W2). unfold half in H1. change (s_hedges (logged A s3)) with (s_hedges s3) in H1. change (s_verts (logged A s3)) with (s_verts s3) in W1.
  destruct (m_or _ _ _ _ C4 e v) as (u & U1 & U2); [unfold org; rewrite H1; simpl; congruence|]. unfold org in U1. change (s_hedges (set_edges (s_edges s3) s4)) with (s_hedges s4) in U1.
  destruct (s_hedges s4 !! e) as [h'|] eqn:E4; [|done]. simpl in U1. injection U1 as U1.
  destruct U2 as [->|[_ U2]].
  - exists v, xy. split; [by exists h'|]. split; [apply HX; by exists w|]. split; apply (d_eq_refl A TO).
  - unfold near, xyof in U2. rewrite W1 in U2. simpl in U2. rewrite W2 in U2. destruct (s_verts s3 !! u) as [wu|] eqn:Eu; simpl in U2; [|done]. destruct (v_xy wu) as [b|] eqn:Eb; [|done].
    exists u, b. split; [by exists h'|]. split; [apply HX; by exists wu|]. exact U2.
Qed.

(* ---------- one site ---------- *)
(* ---------- messages ---------- *)
Lemma seen_none msg l : Forall (fun x : subject_id * message * option (D A) => snd (fst x) = DEBUG) l -> msg <> DEBUG -> seen A msg l = [].
Proof.
  intros HF Hm. unfold seen. induction HF as [|[[a b] c] l H HF IH]; [done|]. simpl in H. subst b. cbn [omap list_omap]. destruct msg; [done| | |]; exact IH.
Qed.
Lemma messages flag fuel s' : 1 <= n -> 2 <= k0 -> create_diagram A poly flag fuel pts (init_state A corners) = Val (s', tt) ->
  exists s idx hist log1 log2, swept A pts corners s idx hist /\
    s_log s' = log1 ++ (SAlgorithm, SWEEP_FINISHED, s_sweep s) :: log2 ++ [(SAlgorithm, VORONOI_FINISHED, s_sweep s)] /\
    seen A STEP_FINISHED log1 = map (fun i => Some (i_y i)) hist /\ seen A SWEEP_FINISHED log1 = [] /\ seen A VORONOI_FINISHED log1 = [] /\
    Forall (fun x => snd (fst x) = DEBUG) log2.
Proof.
  intros Hn Hk H. destruct (create_false fuel flag s' Hn Hk H) as (s3 & s4 & HB & _ & H4 & ->).
  assert (HL4 : s_log s4 = s_log s3 /\ s_sweep s4 = s_sweep s3).
  { destruct flag; [|injection H4 as <-; done]. destruct (built_listed A pts corners TO MO CC poly Good OnPoly s3 HB) as (HL & HW & _ & _).
    destruct (clean_up_inv A TO (fun v => v ∈ s_vset s3) s3 s4 HL HW H4) as (_ & _ & _ & C4). split; [apply (m_log _ _ _ _ C4)|apply (m_sweep _ _ _ _ C4)]. }
  destruct HL4 as [HL4 HS4].
  destruct HB as (s & idx & hist & s1 & r & dead & p & x & s2 & ex & v0 & w0 & xy0 & xys & i & HS & HC & _ & _ & _ & _ & _ & _ & _ & _ & _ & HR & _ & _ & ->).
  destruct (c_ext _ _ _ _ _ _ _ _ HC) as (tw & HX & _). destruct (ext_sites A _ _ _ HX) as (_ & _ & _ & Esw). destruct (x_log _ _ _ _ HX) as (l & Hl & Hdb).
  assert (HL2 : s_log s2 = s_log s1 /\ s_sweep s2 = s_sweep s1). { destruct (b_same _ _ _ _ _ _ HR) as (hs & ws & ps & ->). done. }
  destruct HL2 as [HL2 HS2]. cbn [set_vlist set_vset set_edges s_log s_sweep] in HL4, HS4.
  exists s, idx, hist, (s_log s ++ [(SAlgorithm, DEBUG, s_sweep s)]), (l ++ [(SAlgorithm, DEBUG, s_sweep s)]). split; [done|].
  destruct (log_seen A hist (s_log s)) as (S1 & S2 & S3); [apply (runs_log A pts corners TO MO CC _ _ _ (proj1 HS))|].
  split. { unfold logged. cbn [set_log s_log]. rewrite HL4, HL2, Hl, HS4, HS2, Esw. unfold after_sweep. cbn [set_log s_log s_sweep]. rewrite <- !app_assoc. simpl. repeat rewrite <- app_assoc. done. }
  split; [|split; [|split]].
  - rewrite seen_app, S1. unfold seen. simpl. by rewrite app_nil_r.
  - rewrite seen_app, S2. done.
  - rewrite seen_app, S3. done.
  - apply Forall_app. split; [|by repeat constructor]. eapply Forall_impl; [exact Hdb|]. intros [[a b] c] E. simpl in *. congruence.
Qed.
End DFacts.
