(* FinishMain.v -- finish_edges and finish_polygon after a sweep, put together. *)
From stdpp Require Import base list sets.
From Coq Require Import ZArith Lia.
From Verif Require Import Arith Geom Monad Tree Heapq State Sweep Finish HeapqProofs EventOrder TreeProofs TreeOps TreeSearch Beach
  SweepBase Dcel SweepInv SweepTrans SweepSite SweepCircle SweepLoop Spec SpecFinish SweepFacts FinishEdges FinishBorder FinishFacts FinishDiagram FinishLinks CleanUp.
Local Open Scope monad_scope.

Section Main.
Context (A : Arith) (pts corners : list (pt A)).
Notation St := (state A).
Implicit Types s : St.
Notation n := (length pts).
Notation k0 := (length corners).
Context (TO : TotalOrder A) (MO : MidOK A (fst <$> pts)) (CC : forall p q, create_circle A p q p = Val None).
Context (poly : polygon A) (Good : pt A -> pt A -> pt A -> Prop) (OnPoly : pt A -> Prop).
Context (G_sym : forall p q z, Good p q z -> Good q p z).
Context (G_circ : forall pa pb pc x y r, create_circle A pa pb pc = Val (Some (x, y, r)) ->
  Good pb pa (x, y) /\ Good pc pb (x, y) /\ Good pa pc (x, y)).
Context (P_corner : forall c, c ∈ corners -> OnPoly c).
Context (G_bp : forall p q l m x y, get_intersection A p q l m = Val (x, Fin y) -> Good p q (x, y)).
Context (G_clip : forall p q a b c, Good p q a -> Good p q b ->
  get_intersection_point A (pg_points A poly) (Some (xpt_of A a)) (Some (xpt_of A b)) = Val (Some c) ->
  Good p q (rounded A c) /\ OnPoly (rounded A c)).
Notation ring := (ring A poly).
Notation clipped := (clipped A poly Good OnPoly).
Notation ended := (ended A pts corners).
Notation ringed := (ringed A poly).

Lemma ended_points s : ended s -> s_sites s = seq 0 n /\ length (s_points s) = n /\ p_xy <$> s_points s = pts.
Proof.
  intros (s0 & idx & hist & [HS _] & ->). destruct (runs_corners A pts corners TO MO CC s0 idx hist HS) as (_ & _ & _ & Hp & Hsi). split; [done|].
  split; [|done]. change (s_points (after_sweep A s0)) with (s_points s0). by rewrite <- Hp, fmap_length.
Qed.
Lemma ended_ring s s1 r dead : ended s -> clipped s s1 r dead -> k0 <= length (ring s1).
Proof. intros (s0 & idx & hist & HS & ->) HC. by eapply (ring_len A pts corners TO MO CC poly Good OnPoly). Qed.

Lemma polygon_ended s s1 r dead : ended s -> clipped s s1 r dead -> 1 <= n -> 2 <= k0 ->
  post (finish_polygon A poly r (s_vset s1) (s_sites s1) (set_edges r s1)) (fun s2 out => exists p x v0 w0 xy0 xys i,
    2 <= length (ring s1) /\ head (ring s1) = Some v0 /\ s_verts s1 !! v0 = Some w0 /\ v_xy w0 = Some xy0 /\
    points_xy A (s_sites s1) (set_edges r s1) = Val (set_edges r s1, xys) /\
    get_closest_point A xy0 xys = Val i /\ s_sites s1 !! i = Some p /\ s_points s1 !! p = Some x /\
    ringed (set_edges r s1) p s2 /\ fst out = r ++ map (ed A s1) (seq 0 (length (ring s1))) /\
    exists ex, snd out = ring s1 ++ ex /\ sublist ex (s_vset s1) /\ forall v, v ∈ ex <-> v ∈ s_vset s1 /\ exists w xy, s_verts s1 !! v = Some w /\ v_xy w = Some xy /\ inside A (pg_points A poly) xy = Val true).
Proof.
  intros HE HC Hn Hk. pose proof (ended_ring _ _ _ _ HE HC) as HL. destruct (c_ext _ _ _ _ _ _ _ _ HC) as (tw & HX & _). destruct (ext_sites A _ _ _ HX) as (Es & _ & _ & _).
  destruct (ended_points s HE) as (Hsi & Hpl & _). rewrite Hsi in Es.
  eapply post_weaken.
  { apply (finish_polygon_post A poly Good OnPoly (set_edges r s1) dead r (s_sites s1)); [apply (c_fin _ _ _ _ _ _ _ _ HC)|change (ring (set_edges r s1)) with (ring s1); lia| |].
    - rewrite Es. destruct pts; [simpl in *; lia|done].
    - rewrite Es. intros p Hpp%elem_of_seq. apply lookup_lt_is_Some_2. cbn [set_edges s_points]. rewrite (x_plen _ _ _ _ HX), Hpl. lia. }
  intros s2 out (p & x & v0 & w0 & xy0 & xys & i & Q1 & Q2 & Q3 & Q4 & Q5 & Q6 & Q7 & Q8 & Q9 & ex & Q10 & Q11 & Q12).
  exists p, x, v0, w0, xy0, xys, i. split; [lia|]. do 7 (split; [done|]). split; [exact Q8|]. split; [exact Q9|]. exists ex. done.
Qed.

Section One.
Context s s1 r dead p s2 (HE : ended s) (HC : clipped s s1 r dead) (Hn : 2 <= length (ring s1)) (HR : ringed (set_edges r s1) p s2) x0 (Hp : s_points s1 !! p = Some x0).
Notation ed j := (ed A s1 j).
Notation te j := (te A s1 j).
Notation V j := (V (ring s1) j).
Notation m := (length (ring s1)).
Let HF := c_fin _ _ _ _ _ _ _ _ HC.
Let ST : start A (set_edges r s1) (ring s1) := fin_start A poly Good OnPoly (set_edges r s1) dead HF Hn.
Let HB : bord A (set_edges r s1) (ring s1) (Some p) m s2 := HR.
Notation live := (live A poly s1 r).
Notation none_lost := (none_lost A poly s s1 r).

(* every cell's walk ends, and is closed *)
Lemma cell_walk q x e : none_lost -> s_points s2 !! q = Some x -> p_first x = Some e ->
  exists l z, walk A s2 e l /\ last l = Some z /\ next A s2 z = Some e /\ (Forall live l \/ l = [e]).
Proof.
  intros HN Hq He. destruct (s_points s1 !! q) as [y|] eqn:Ey.
  2:{ apply lookup_ge_None in Ey. apply lookup_lt_Some in Hq. rewrite (b_plen _ _ _ _ _ _ HB) in Hq. cbn [set_edges s_points] in Hq. lia. }
  destruct (b_pts _ _ _ _ _ _ HB q y Ey) as (x' & X1 & _ & _ & _ & X2 & _). assert (x' = x) as -> by congruence.
  assert (HW : live e -> exists l z, walk A s2 e l /\ last l = Some z /\ next A s2 z = Some e /\ (Forall live l \/ l = [e])).
  { intros HL. destruct (closed_walk A s2 live) with (e := e) as (l & z & L1 & L2 & L3 & L4); [| |done|].
    - intros a Ha. by eapply (live_lt A pts corners TO MO CC poly Good OnPoly s s1 r dead p s2 HE HC Hn HR).
    - intros a Ha. destruct (live_next A pts corners TO MO CC poly Good OnPoly s s1 r dead p s2 HE HC Hn HR a HN Ha) as (f & t & v & N1 & N2 & N3 & _). eauto.
    - exists l, z. split; [done|]. split; [done|]. split; [done|]. by left. }
  destruct (X2 e He) as [F|(j & Hj & -> & _)].
  - destruct (f_first _ _ _ _ _ _ _ _ _ _ _ HF q y e Ey F) as (h & F1 & F2 & F3). destruct (decide (e ∈ dead)) as [Hd|Hd].
    + destruct (F3 Hd) as [F4 _]. destruct (b_keep _ _ _ _ _ _ HB e h F1) as (h' & K1 & K2).
      { intros j c Hj Hc Htw. assert (Hjr : V j ∈ ring s1) by (apply (V_in A (set_edges r s1) (ring s1) ST); lia).
        destruct (chord_is A pts corners TO MO CC poly Good OnPoly s s1 r dead HE HC _ _ Hjr Hc) as (_ & _ & Hk).
        assert (Hke : kept A s1 r e). { eapply (kept_twin A poly Good OnPoly s s1 r dead HC); [exact Hk|]. exact Htw. }
        apply (kept_dead A pts corners TO MO CC poly Good OnPoly s s1 r dead e HE HC) in Hke; [done|]. by eapply lookup_lt_Some. }
      assert (Hnx : next A s2 e = Some e) by (unfold next, half; rewrite K1; simpl; congruence).
      exists [e], e. split; [|split; [done|split; [done|by right]]]. split; [done|]. split; [apply follows_cons; split; [done|intros ??? Hx; by rewrite lookup_nil in Hx]|].
      split; [constructor; [by eapply lookup_lt_Some|constructor]|]. split; [apply NoDup_singleton|]. exists e. split; [done|]. by left.
    + apply HW. left. apply (kept_dead A pts corners TO MO CC poly Good OnPoly s s1 r dead e HE HC); [by eapply lookup_lt_Some|done].
  - apply HW. right. eauto.
Qed.

(* the vertices list what starts at them *)
Lemma ring_listed v c : v ∈ ring s1 -> c ∈ connected A s2 v -> org A s2 c = Some (OVx v).
Proof.
  intros Hv Hc. destruct (in_V (ring s1) v Hv) as (k & Hk & ->). destruct (st_vs _ _ _ ST (V k)) as [w0 W0]; [done|].
  destruct (b_conn _ _ _ _ _ _ HB (V k) w0 W0) as (w & W1 & _ & W2). unfold connected in Hc. rewrite W1, W2 in Hc.
  assert (HE' : forall j, j < m -> org A s2 (ed j) = Some (OVx (V j)) /\ org A s2 (te j) = Some (OVx (V (S j)))).
  { intros j Hj. destruct (b_new _ _ _ _ _ _ HB j Hj) as (h & t & N1 & N2 & N3 & N4 & _). unfold org.
    change (FinishBorder.ed A (set_edges r s1) j) with (ed j) in N1. change (FinishBorder.te A (set_edges r s1) j) with (te j) in N2. rewrite N1, N2. simpl. by rewrite N3, N4. }
  apply elem_of_app in Hc as [Hc|Hc].
  - assert (Hch : chord A (set_edges r s1) (V k) = Some c).
    { apply in_ring in Hv as [Hv _]. destruct (f_pv _ _ _ _ _ _ _ _ _ _ _ HF (V k) Hv) as (w' & P1 & _ & P2). cbn [set_edges s_verts] in W0. assert (w' = w0) as -> by congruence.
      unfold chord, conn0. cbn [set_edges s_verts]. rewrite W0. destruct P2 as [E|(e & h & E & _)]; rewrite E in Hc |- *; [by apply elem_of_nil in Hc|]. by apply elem_of_list_singleton in Hc as ->. }
    destruct (chord_is A pts corners TO MO CC poly Good OnPoly s s1 r dead HE HC _ _ Hv Hch) as (_ & (h & H1 & H2) & _). unfold half in H1.
    destruct (old_half A poly s1 r p s2 HR c h H1) as (h' & K1 & _ & _ & K2). unfold org. rewrite K1. simpl. by rewrite K2, H2.
  - rewrite (extra_in A (set_edges r s1) (ring s1) ST) in Hc by done. change (FinishBorder.ed A (set_edges r s1)) with (FinishBorder.ed A s1) in Hc. change (FinishBorder.te A (set_edges r s1)) with (FinishBorder.te A s1) in Hc.
    destruct k as [|k].
    + rewrite Nat.eqb_refl in Hc. destruct (Nat.ltb_spec 0 m); [|lia]. rewrite elem_of_app, !elem_of_list_singleton in Hc. destruct Hc as [-> | ->]; [by apply HE'|].
      destruct (HE' (m - 1)) as [_ E]; [lia|]. rewrite E. replace (S (m - 1)) with m by lia. by rewrite (V_n A (set_edges r s1) (ring s1) ST).
    + destruct (Nat.leb_spec (S k) m); [|lia]. destruct (Nat.ltb_spec (S k) m); [|lia]. rewrite elem_of_app, !elem_of_list_singleton in Hc. destruct Hc as [-> | ->]; apply HE'; lia.
Qed.
Lemma old_listed v c : v ∈ s_vset s1 -> (exists xy, located A s1 v xy /\ inside A (pg_points A poly) xy = Val true) -> c ∈ connected A s2 v -> org A s2 c = Some (OVx v).
Proof.
  intros Hv (xy & (w & W1 & W2) & Hin) Hc. assert (Hr : v ∉ ring s1). { intros [HH _]%in_ring. by destruct (f_vs _ _ _ _ _ _ _ _ _ _ _ HF v Hv). }
  destruct (b_conn _ _ _ _ _ _ HB v w W1) as (w' & W3 & _ & W4). unfold connected in Hc. rewrite W3, W4, (extra_out A (set_edges r s1) (ring s1)) in Hc by done. rewrite app_nil_r in Hc.
  destruct (f_conn _ _ _ _ _ _ _ _ _ _ _ HF v w xy c Hv W1 W2 Hin Hc) as (_ & h & H1 & H2). destruct (old_half A poly s1 r p s2 HR c h H1) as (h' & K1 & _ & _ & K2). unfold org. rewrite K1. simpl. by rewrite K2, H2.
Qed.
(* the two ends of every edge of the diagram *)
Lemma live_ends e : live e \/ (exists j, j < m /\ e = te j) -> exists v xy, starts_at A s2 e v /\ located A s2 v xy /\ e ∈ connected A s2 v /\
  (v ∈ ring s1 \/ v ∈ s_vset s1 /\ inside A (pg_points A poly) xy = Val true).
Proof.
  assert (HLV : forall j, j <= m -> exists xy, located A s2 (V j) xy).
  { intros j Hj. assert (V j ∈ ring s1) as Hjr by (by apply (V_in A (set_edges r s1) (ring s1) ST)). apply in_ring in Hjr as [_ (w & xy & H1 & H2)]. exists xy.
    eapply (old_located A poly s1 r p s2 HR). by exists w. }
  intros [[HK|(j & Hj & ->)]|(j & Hj & ->)].
  - destruct (clip_result A pts corners TO MO CC poly Good OnPoly s s1 r dead HE HC) as (_ & _ & Hends & _). destruct (Hends e HK) as (v & xy & V1 & V2 & V3 & V4).
    destruct V1 as (h & H1 & H2). destruct (old_half A poly s1 r p s2 HR e h H1) as (h' & K1 & _ & _ & K2). destruct V2 as (w & W1 & W2). destruct (b_conn _ _ _ _ _ _ HB v w W1) as (w' & W3 & W4 & W5).
    exists v, xy. split; [exists h'; split; [done|congruence]|]. split; [exists w'; split; [done|congruence]|]. split.
    + unfold connected in *. rewrite W3, W5. rewrite W1 in V3. apply elem_of_app. by left.
    + destruct V4 as [V4|V4]; [|by right]. left. apply in_ring. eauto.
  - destruct (border_half A poly Good OnPoly s s1 r dead p s2 HC Hn HR x0 Hp j Hj) as (q & x & B1 & B2 & B3 & B4 & B5 & B6 & B7 & B8 & B9 & B10).
    destruct (HLV j) as [xy Hxy]; [lia|]. exists (V j), xy. split; [done|]. split; [done|]. split; [done|]. left. apply (V_in A (set_edges r s1) (ring s1) ST). lia.
  - destruct (border_half A poly Good OnPoly s s1 r dead p s2 HC Hn HR x0 Hp j Hj) as (q & x & B1 & B2 & B3 & B4 & B5 & B6 & B7 & B8 & B9 & B10).
    destruct (HLV (S j)) as [xy Hxy]; [lia|]. exists (V (S j)), xy. split; [done|]. split; [done|]. split; [done|]. left. apply (V_in A (set_edges r s1) (ring s1) ST). lia.
Qed.
Lemma edges_live e : e ∈ r ++ map (FinishBorder.ed A s1) (seq 0 m) -> live e /\ exists t, twin A s2 e = Some t /\ (live t \/ exists j, j < m /\ t = te j).
Proof.
  rewrite elem_of_app. intros [He|He].
  - assert (HK : kept A s1 r e) by (by left). split; [by left|]. destruct (lookup_lt_is_Some_2 _ _ (kept_lt A pts corners TO MO CC poly Good OnPoly s s1 r dead HE HC e HK)) as [h Hh].
    destruct (f_twin _ _ _ _ _ _ _ _ _ _ _ HF e h Hh) as (t & ht & a & b & T1 & T2 & T3 & T4 & _). destruct (old_half A poly s1 r p s2 HR e h Hh) as (h' & K1 & _ & K2 & _).
    exists t. split; [unfold twin, half; rewrite K1; simpl; congruence|]. left. left. eapply (kept_twin A poly Good OnPoly s s1 r dead HC); [exact HK|]. unfold twin, half. by rewrite Hh.
  - apply elem_of_list_In, in_map_iff in He as (j & <- & Hj). apply in_seq in Hj. split; [right; exists j; split; [lia|done]|].
    destruct (border_half A poly Good OnPoly s s1 r dead p s2 HC Hn HR x0 Hp j ltac:(lia)) as (q & x & B1 & B2 & B3 & B4 & B5 & _). exists (te j). split; [done|]. right. exists j. split; [lia|done].
Qed.
End One.

Lemma built_listed s3 : built A pts corners poly Good OnPoly s3 ->
  listed A (fun v => v ∈ s_vset s3) s3 /\ within A (fun v => v ∈ s_vset s3) s3 (s_edges s3) /\
  (forall v, v ∈ s_vset s3 -> exists xy, located A s3 v xy) /\
  forall e, e ∈ s_edges s3 -> exists t, twin A s3 e = Some t /\ (exists v xy, starts_at A s3 e v /\ located A s3 v xy /\ v ∈ s_vset s3 /\ e ∈ connected A s3 v) /\
     exists v xy, starts_at A s3 t v /\ located A s3 v xy /\ v ∈ s_vset s3 /\ t ∈ connected A s3 v.
Proof.
  intros (s & idx & hist & s1 & r & dead & p & x & s2 & ex & v0 & w0 & xy0 & xys & i & HS & HC & Hn & Es & Q1 & Q2 & Q3 & Q4 & Q5 & Q6 & Q7 & Q8 & Q9 & Q10 & ->).
  assert (HE : ended (after_sweep A s)) by (by exists s, idx, hist). set (s3 := set_vlist _ _).
  assert (Hxy : forall v, v ∈ ring s1 ++ ex -> exists xy, located A s2 v xy).
  { intros v [Hv|Hv]%elem_of_app.
    - apply in_ring in Hv as [_ (w & xy & H1 & H2)]. exists xy. eapply (old_located A poly s1 r p s2 Q8). by exists w.
    - apply Q10 in Hv as [_ (w & xy & H1 & H2 & _)]. exists xy. eapply (old_located A poly s1 r p s2 Q8). by exists w. }
  assert (HLi : forall v c, v ∈ ring s1 ++ ex -> c ∈ connected A s2 v -> org A s2 c = Some (OVx v)).
  { intros v c [Hv|Hv]%elem_of_app Hc; [by eapply (ring_listed (after_sweep A s) s1 r dead p s2 HE HC Hn Q8)|].
    apply Q10 in Hv as [Hv (w & xy & W1 & W2 & W3)]. eapply (old_listed (after_sweep A s) s1 r dead p s2 HC Q8); [done| |done]. exists xy. split; [by exists w|done]. }
  assert (Hend : forall e, live A poly s1 r e \/ (exists j, j < length (ring s1) /\ e = te A s1 j) -> exists v xy, starts_at A s3 e v /\ located A s3 v xy /\ v ∈ s_vset s3 /\ e ∈ connected A s3 v).
  { intros e He. destruct (live_ends (after_sweep A s) s1 r dead p s2 HE HC Hn Q8 x Q7 e He) as (v & xy & V1 & V2 & V3 & V4). exists v, xy. split; [done|]. split; [done|]. split; [|done].
    change (s_vset s3) with (ring s1 ++ ex). apply elem_of_app. destruct V4 as [V4|[V4 V5]]; [by left|]. right. apply Q10. split; [done|].
    destruct (f_vs _ _ _ _ _ _ _ _ _ _ _ (c_fin _ _ _ _ _ _ _ _ HC) v V4) as (_ & w & xy' & W1 & W2). exists w, xy. assert (located A s2 v xy') as (w2 & W3 & W4). { eapply (old_located A poly s1 r p s2 Q8). by exists w. }
    destruct V2 as (w3 & W5 & W6). split; [done|]. split; [|done]. change (s_verts s3) with (s_verts s2) in W5. congruence. }
  split; [|split; [|split]].
  - intros v c Hv Hc. exists v. split; [by apply HLi|]. split; [done|]. destruct (Hxy v Hv) as (xy & w & W1 & W2). unfold xyof. change (s_verts s3) with (s_verts s2). rewrite W1. simpl. rewrite W2. by apply (near_some A TO).
  - intros e t u He Ht. destruct (edges_live (after_sweep A s) s1 r dead p s2 HE HC Hn Q8 x Q7 e He) as [L1 (t' & T1 & L2)]. change (twin A s3 e) with (twin A s2 e) in Ht. assert (t' = t) as -> by congruence.
    assert (HO : forall a, (exists v xy, starts_at A s3 a v /\ located A s3 v xy /\ v ∈ s_vset s3 /\ a ∈ connected A s3 v) -> org A s3 a = Some (OVx u) -> u ∈ s_vset s3).
    { intros a (v & xy & (h & H1 & H2) & _ & H3 & _) Ho. unfold org in Ho. unfold half in H1. rewrite H1 in Ho. simpl in Ho. rewrite H2 in Ho. by injection Ho as <-. }
    split; apply HO, Hend; auto.
  - done.
  - intros e He. destruct (edges_live (after_sweep A s) s1 r dead p s2 HE HC Hn Q8 x Q7 e He) as [L1 (t & T1 & L2)]. exists t. split; [done|]. split; apply Hend; auto.
Qed.
End Main.
