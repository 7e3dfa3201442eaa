(* DrawEvent.v -- what plot_event and plot_arcs draw. *)
From stdpp Require Import base list sets.
From Coq Require Import ZArith Reals Lra Lia.
From Verif Require Import Arith Geom Monad Tree Heapq State Sweep SweepBase Dcel SweepInv Beach SweepCircle SweepLoop SweepFacts ArcSet HeapqProofs TreeProofs Spec RArith GeomReal SweepReal SpecVoronoi VoronoiFacts EnvelopeFacts PropSweep PropEnvelope
  Visual VisualReal SpecVisual VisualFacts VisualEdges SpecClip CircleReal CellGeom CellTrail CellBorder CellFirst CellArea CellDraw DrawAll.

Section Event.
Context (A : Arith) (pts corners : list (pt A)).
Implicit Types s : state A.
(* the current event, if it is a circle event: its circle and the vertex made for it *)
Definition event_ok s : Prop := forall k, s_event s = Some (ECircle k) ->
  exists e a b c pa pb pc v, s_cevs s !! k = Some e /\ c_valid e = true /\ c_triple e = (a, b, c) /\ pxy A s a = Some pa /\ pxy A s b = Some pb /\ pxy A s c = Some pc /\
    circle_of A pa pb pc = Val (Some (c_x e, c_y e, c_r e)) /\ NoDup [a; b; c] /\ s_sweep s = Some (dsub A (c_y e) (c_r e)) /\
    v ∈ s_vset s /\ located A s v (c_x e, c_y e) /\ forall f p, starts_at A s f v -> borders_site A s f = Some p -> p ∈ [a; b; c].
Lemma event_ok_reach s t done hist : reach A pts corners s t done hist -> event_ok s.
Proof.
  induction 1 as [s it q p m s' Hok Hpop Hev|s t done hist it q k e HR IH Hpop Hev He Hv HI|s t done hist it q k e s' t' HR IH Hpop Hev Eit He Hv HL HI HT HF HI'|s t done hist it q p pi s' t' HR IH Hpop Hev].
  - intros k Hk. cbn in Hk. congruence.
  - exact IH.
  - intros k' Hk'. cbn in Hk'. assert (k' = k) as -> by congruence.
    destruct HT as (L1 & l & b1 & b2 & m & L2 & u & a & b & c & ev & EL & _ & _ & Sl & Sn & Sm & N1 & N2 & N3 & _ & _ & _ & _ & _ & _ & _ & _ & _ & _ & (conn & HVs) & HVt & _ & _ & _ & HIn & HC).
    repeat (apply proj2 in HC). destruct (HC k e He) as (e' & E1 & _ & _ & E2).
    destruct HL as (K1 & l' & b1' & b2' & m' & K2 & pa & pb & pc & ar & x & EL' & Sl' & _ & Sn' & _ & Sm' & Kt & (xa & xb & xc & HP3 & HCo) & _).
    pose proof (i_nodup _ _ _ _ _ HI) as HN.
    assert (ED : K1 ++ [l'; b1'] = L1 ++ [l; b1] /\ b2' :: m' :: K2 = b2 :: m :: L2).
    { pose proof HN as HN2. rewrite EL' in HN2. rewrite EL' in EL. change (L1 ++ l :: b1 :: c_node e :: b2 :: m :: L2) with (L1 ++ [l; b1] ++ c_node e :: b2 :: m :: L2) in EL. rewrite app_assoc in EL. by apply nodup_pos in EL. }
    destruct ED as [ED1 ED2]. injection ED2 as -> -> ->. apply app_inj_2 in ED1 as [-> ED1]; [|done]. injection ED1 as -> ->.
    change (site A s l = Some a) in Sl. change (site A s (c_node e) = Some b) in Sn. change (site A s m = Some c) in Sm.
    assert (pa = a) as -> by congruence. assert (pb = b) as -> by congruence. assert (pc = c) as -> by congruence.
    assert (NL : c_node e <> l /\ c_node e <> m).
    { rewrite EL in HN. clear -HN. rewrite NoDup_app in HN. destruct HN as (_ & _ & HN). rewrite !NoDup_cons in HN. set_solver. }
    rewrite (E2 (proj1 NL) (proj2 NL)) in E1. clear E2 e'.
    destruct HF as (Fsw & _ & _ & _ & HF & _). assert (HX : forall p, pxy A s' p = pxy A s p). { intros p. unfold pxy. rewrite <- !list_lookup_fmap. change (s_points s) with (s_points (started A it (set_queue q s))). by rewrite HF. }
    unfold points3 in HP3. destruct (pxy A s a) as [ya|] eqn:Ea; [|done]. destruct (pxy A s b) as [yb|] eqn:Eb; [|done]. destruct (pxy A s c) as [yc|] eqn:Ec; [|done]. injection HP3 as -> -> ->.
    exists e, a, b, c, xa, xb, xc, (length (s_verts s)). split; [exact E1|]. split; [done|]. split; [done|].
    split; [etransitivity; [apply HX|done]|]. split; [etransitivity; [apply HX|done]|]. split; [etransitivity; [apply HX|done]|]. split; [done|].
    split; [repeat constructor; set_solver|]. split; [cbn; rewrite Fsw, Eit; done|]. cbn [ended set_log set_event s_vset]. rewrite HVt. cbn [started set_log set_sweep set_queue s_vset s_verts] in *.
    split; [apply elem_of_app; right; left|]. split.
    { unfold located. cbn [ended set_log set_event s_verts]. rewrite HVs. eexists. split; [by apply list_lookup_middle|done]. }
    intros f p (h & Hh & Ho) Hb. destruct (HIn f h Hh Ho) as [X|[X|X]]; unfold borders_site in Hb; cbn [ended set_log set_event s_hedges] in Hb, Hh; rewrite Hh in Hb; cbn in Hb; rewrite X in Hb; injection Hb as <-; rewrite !elem_of_cons; auto.
  - intros k Hk. cbn in Hk. congruence.
Qed.
Lemma event_reach_last s t done hist : reach A pts corners s t done hist -> s_event s = i_ev <$> last hist.
Proof.
  induction 1 as [s it q p m s' Hok Hpop Hev|s t done hist it q k e HR IH Hpop Hev He Hv HI|s t done hist it q k e s' t' HR IH Hpop Hev Eit He Hv HL HI HT HF HI'|s t done hist it q p pi s' t' HR IH Hpop Hev].
  - done.
  - exact IH.
  - by rewrite last_snoc.
  - by rewrite last_snoc.
Qed.
Lemma event_last s index hist : lawful A pts -> runs A pts corners s index hist -> s_event s = i_ev <$> last hist.
Proof.
  intros (TO & MO & CC) HR. destruct (runs_reach A pts corners TO MO CC _ _ _ HR) as [(Hok & _ & ->)|(t & dn & HR' & _)]; [|by eapply event_reach_last].
  destruct Hok as (q0 & -> & _). done.
Qed.
Lemma queue_valid s index hist i k : lawful A pts -> runs A pts corners s index hist -> i ∈ s_queue s -> i_ev i = ECircle k -> ignored A s i = false ->
  exists e, s_cevs s !! k = Some e /\ c_valid e = true.
Proof.
  intros (TO & MO & CC) HR Hi Hk Hn. destruct (runs_reach A pts corners TO MO CC _ _ _ HR) as [(Hok & _ & ->)|(t & dn & HR' & _)].
  - destruct Hok as (q0 & -> & HQ & _). change (i ∈ q0) in Hi. rewrite HQ in Hi. apply elem_of_lookup_imap in Hi as (j & y & -> & _). done.
  - pose proof (i_queue _ _ _ _ _ (f_inv _ _ _ _ _ _ _ (reach_facts A pts corners TO _ _ _ _ HR')) i Hi) as HQ. rewrite Hk in HQ. destruct HQ as (e & He & _). exists e. split; [done|].
    unfold ignored in Hn. rewrite Hk, He in Hn. by destruct (c_valid e).
Qed.
Lemma heappop_mem {X} (lt : X -> X -> bool) h x h' : heappop lt h = Some (x, h') -> x ∈ h.
Proof.
  unfold heappop. destruct (reverse h) as [|lst rest] eqn:E; [done|]. assert (Eh : h = reverse rest ++ [lst]) by (rewrite <- (reverse_involutive h), E, reverse_cons; done).
  destruct (reverse rest) as [|r0 t] eqn:Er; [intros [= <- <-]; subst h; by left|]. destruct (siftup _ _ _ _). intros [= <- <-]. subst h. left.
Qed.
(* a run that handles a circle event: it is in the queue before, and the last event after *)
Lemma run_circle s index hist : lawful A pts -> runs A pts corners s index hist -> (0 < handled_circles A hist)%nat ->
  exists s1 index1 hist1 s2 index2 i k, runs A pts corners s1 index1 hist1 /\ i ∈ s_queue s1 /\ i_ev i = ECircle k /\ ignored A s1 i = false /\
    runs A pts corners s2 index2 (hist1 ++ [i]).
Proof.
  intros LW. induction 1 as [s Hs|s index hist s1 i s2 index' HR IH Hg Hst]; [cbn; lia|]. intros HC.
  destruct (ignored A s i) eqn:Ei; [by apply IH|]. destruct (i_ev i) as [p|k] eqn:Ek.
  - apply IH. unfold handled_circles in *. rewrite List.filter_app, app_length in HC. cbn in HC. rewrite Ek in HC. cbn in HC. lia.
  - exists s, index, hist, s2, index', i, k. split; [done|]. split; [|split; [done|split; [done|]]].
    + unfold queue_get in Hg. destruct (heappop (event_lt A) (s_queue s)) as [[i' q]|] eqn:Ep; [|done]. injection Hg as <- <-. eapply heappop_mem. exact Ep.
    + pose proof (runs_step A pts corners s index hist s1 i s2 index' HR Hg Hst) as H. by rewrite Ei in H.
Qed.
End Event.

Section EventReal.
Local Open Scope R_scope.
Notation A := RArith.
Implicit Types s : state A.
Context (xys corners : list (pt A)) (ND : NoDup xys).
Notation TO := RArith_order.
Notation MO := (RArith_mid (fst <$> xys)).
Notation CC := RArith_circle.

Definition circle_cmds (col : color) (tri : bool) (z : rpt) (r : R) (P : list rpt) : list (cmd A) :=
  CCircle A col z r :: (if tri then [CPolygon A TRIANGLE P] else []) ++ [CScatter A VALID_CIRCLE P].
Lemma circle_exact s k e a b c pa pb pc tri : s_cevs s !! k = Some e -> c_triple e = (a, b, c) -> pxy A s a = Some pa -> pxy A s b = Some pb -> pxy A s c = Some pc ->
  plot_circle A k tri s = Val (s, circle_cmds (if c_valid e then VALID_CIRCLE else INVALID_CIRCLE) tri (c_x e, c_y e) (c_r e) [pa; pb; pc]).
Proof.
  intros He Ht Ha Hb Hc. unfold plot_circle, bind at 1.
  assert (cevs_do (get_at k) s = Val (s, e)) as -> by (unfold cevs_do, zoom, get_at; rewrite He; by destruct s).
  rewrite Ht. unfold bind at 1. rewrite (point_xy_get s a pa Ha). unfold bind at 1. rewrite (point_xy_get s b pb Hb). unfold bind at 1. rewrite (point_xy_get s c pc Hc).
  unfold plot_sites, bind, read. cbn [or_list mmap]. unfold bind. rewrite (point_xy_get s a pa Ha), (point_xy_get s b pb Hb), (point_xy_get s c pc Hc). done.
Qed.
Lemma out_r (p : rpt) (x y r : R) : EdgeReal.out p (y - r) (x, y) = 0 -> dist2 p (x, y) = r * r.
Proof. unfold EdgeReal.out. cbn [snd]. intros H. apply Rminus_diag_uniq in H. rewrite H. ring. Qed.
Lemma circle_on (a b c : rpt) (x y r : R) : circle_of A a b c = Val (Some (x, y, r)) -> 0 < r /\ dist2 a (x, y) = r * r /\ dist2 b (x, y) = r * r /\ dist2 c (x, y) = r * r.
Proof.
  intros HC. destruct (circle_of_some a b c x y r HC) as (_ & H1 & H2 & H3 & H4). split; [|by split; [|split]; apply out_r].
  change (y - r < y) in H1. clear -H1. lra.
Qed.
Lemma three_of (a b c p q r : nat) : NoDup [p; q; r] -> p ∈ [a; b; c] -> q ∈ [a; b; c] -> r ∈ [a; b; c] -> forall x, x ∈ [a; b; c] -> x ∈ [p; q; r].
Proof.
  intros HN Hp Hq Hr. assert (HS : [p; q; r] ⊆+ [a; b; c]). { apply NoDup_submseteq; [done|]. intros x Hx. apply elem_of_cons in Hx as [-> |Hx]; [exact Hp|]. apply elem_of_cons in Hx as [-> |Hx]; [exact Hq|]. apply elem_of_list_singleton in Hx as ->. exact Hr. }
  apply submseteq_Permutation_length_eq in HS; [|done]. intros x. by rewrite HS.
Qed.

Lemma event_drawn s index hist k arg tri : runs A xys corners s index hist -> s_event s = Some (ECircle k) -> arg = ENone \/ arg = EBool false ->
  exists a b c (pa pb pc : rpt) x y r v, NoDup [a; b; c] /\ xys !! a = Some pa /\ xys !! b = Some pb /\ xys !! c = Some pc /\
    plot_event A arg tri s = Val (s, circle_cmds VALID_CIRCLE tri (x, y) r [pa; pb; pc]) /\
    0 < r /\ dist2 pa (x, y) = r * r /\ dist2 pb (x, y) = r * r /\ dist2 pc (x, y) = r * r /\ s_sweep s = Some (y - r) /\
    v ∈ s_vset s /\ located A s v (x, y) /\ nearest xys a (x, y) /\ nearest xys b (x, y) /\ nearest xys c (x, y).
Proof.
  intros HR He Harg. destruct (runs_reach A xys corners TO MO CC _ _ _ HR) as [(Hok & _ & _)|(t & dn & HR' & _)].
  { destruct Hok as (q0 & -> & _). done. }
  pose proof (reach_facts A xys corners TO _ _ _ _ HR') as F.
  destruct (event_ok_reach A xys corners _ _ _ _ HR' k He) as (e & a & b & c & pa & pb & pc & v & E1 & E2 & E3 & E4 & E5 & E6 & E7 & E8 & E9 & E10 & E11 & E12).
  destruct (circle_on _ _ _ _ _ _ E7) as (R0 & R1 & R2 & R3).
  assert (HP : plot_event A arg tri s = Val (s, circle_cmds VALID_CIRCLE tri (c_x e, c_y e) (c_r e) [pa; pb; pc])).
  { unfold plot_event, bind, read. pose proof (circle_exact s k e a b c pa pb pc tri E1 E3 E4 E5 E6) as HP. rewrite E2 in HP. destruct Harg as [-> | ->]; rewrite He; exact HP. }
  assert (HNr : forall x, x ∈ [a; b; c] -> nearest xys x (c_x e, c_y e)).
  { destruct (d_conn _ _ _ _ _ _ _ _ (runs_dcel A xys corners TO MO CC _ _ _ HR) v E10) as (w' & W1' & p & q & r & xp & xq & xr & x & y & ra & e1 & e2 & e3 & C1 & C2 & C3 & C4 & C5 & C6 & _).
    assert (HO : forall f p' q', out (s_hedges s) f v p' q' -> p' ∈ [a; b; c] /\ nearest xys p' (c_x e, c_y e)).
    { intros f p' q' (h & g & hg & O1 & O2 & O3 & _). assert (S1 : starts_at A s f v) by (exists h; done). assert (S2 : borders_site A s f = Some p') by (unfold borders_site, half; rewrite O1; exact O3).
      split; [by eapply E12|]. exact (vertex_near xys corners ND s index hist v _ f p' HR E11 S1 S2). }
    destruct (HO _ _ _ C4) as [A1 B1]. destruct (HO _ _ _ C5) as [A2 B2]. destruct (HO _ _ _ C6) as [A3 B3]. intros z Hz. apply (three_of a b c p q r C3) in Hz; [|done..].
    rewrite !elem_of_cons, elem_of_nil in Hz. destruct Hz as [-> |[-> |[-> |[]]]]; done. }
  exists a, b, c, pa, pb, pc, (c_x e), (c_y e), (c_r e), v. split; [done|].
  rewrite <- !(pxy_pts A xys s _ (f_pts _ _ _ _ _ _ _ F)). do 4 (split; [done|]). split; [exact R0|]. do 3 (split; [done|]). split; [exact E9|]. do 2 (split; [done|]).
  split; [apply HNr; left|]. split; apply HNr; rewrite !elem_of_cons; auto.
Qed.

Lemma pending_drawn s index hist i k tri : runs A xys corners s index hist -> i ∈ s_queue s -> i_ev i = ECircle k ->
  (exists e, s_cevs s !! k = Some e /\ c_valid e = true) ->
  exists a b c (pa pb pc : rpt) x y r, NoDup [a; b; c] /\ xys !! a = Some pa /\ xys !! b = Some pb /\ xys !! c = Some pc /\
    plot_event A (EEvent (ECircle k)) tri s = Val (s, circle_cmds VALID_CIRCLE tri (x, y) r [pa; pb; pc]) /\
    0 < r /\ dist2 pa (x, y) = r * r /\ dist2 pb (x, y) = r * r /\ dist2 pc (x, y) = r * r /\ i_x i = x /\ i_y i = y - r.
Proof.
  intros HR Hi Hk (e & He & Hv). destruct (runs_reach A xys corners TO MO CC _ _ _ HR) as [(Hok & _ & _)|(t & dn & HR' & _)].
  { destruct Hok as (q0 & -> & _). done. }
  pose proof (reach_facts A xys corners TO _ _ _ _ HR') as F. pose proof (f_inv _ _ _ _ _ _ _ F) as HI.
  pose proof (i_queue _ _ _ _ _ HI i Hi) as HQ. rewrite Hk in HQ. destruct HQ as (e' & He' & Ei & HL). assert (e' = e) as -> by congruence.
  destruct (HL Hv) as (L1 & l & b1 & b2 & m & L2 & a & b & c & ar & x & _ & _ & _ & _ & _ & _ & Ht & (xa & xb & xc & HP3 & HC) & _).
  unfold points3 in HP3. destruct (pxy A s a) as [ya|] eqn:Ea; [|done]. destruct (pxy A s b) as [yb|] eqn:Eb; [|done]. destruct (pxy A s c) as [yc|] eqn:Ec; [|done]. injection HP3 as -> -> ->.
  destruct (circle_on _ _ _ _ _ _ HC) as (R0 & R1 & R2 & R3).
  assert (N3 : cross3 xa xb xc <> 0). { destruct (circle_of_some _ _ _ _ _ _ HC) as (HX & _). apply Rlt_not_eq. exact HX. }
  exists a, b, c, xa, xb, xc, (c_x e), (c_y e), (c_r e). split.
  { assert (a <> b /\ a <> c /\ b <> c) as (X1 & X2 & X3). { repeat split; intros ->; apply N3; [assert (ya' := Ea); assert (xa = xb) as -> by congruence|assert (xa = xc) as -> by congruence|assert (xb = xc) as -> by congruence]; unfold cross3; cbn [fst snd]; ring. }
    repeat constructor; set_solver. }
  rewrite <- !(pxy_pts A xys s _ (f_pts _ _ _ _ _ _ _ F)). do 3 (split; [done|]). split.
  { unfold plot_event, bind, read. pose proof (circle_exact s k e a b c xa xb xc tri He Ht Ea Eb Ec) as HP. rewrite Hv in HP. exact HP. }
  split; [exact R0|]. do 3 (split; [done|]). rewrite Ei. done.
Qed.
End EventReal.

Section ArcsReal.
Local Open Scope R_scope.
Notation A := RArith.
Implicit Types s : state A.
(* the call for one arc *)
Definition arc_call s (xs : list R) (l : R) (a : nat) : list (cmd A) :=
  match arc_site A s a with
  | Some P => if Req_EM_T (snd P) l then [CVertical A SWEEP_LINE (fst P)] else [CCurve A ARC true (combine xs ((fun x => para P l x) <$> xs))]
  | None => []
  end.
Lemma arc_lines_calls s arcs xs l show : xs <> [] -> (forall a, a ∈ arcs -> is_Some (arc_site A s a)) ->
  arc_lines A arcs xs l show s = Val (s, (if show then flat_map (arc_call s xs l) arcs else [], omap (arc_ys s xs l) arcs)).
Proof.
  intros N. induction arcs as [|a arcs IH]; intros HS; [by destruct show|].
  specialize (IH (fun b Hb => HS b (elem_of_list_further _ _ _ Hb))).
  destruct (HS a ltac:(left)) as [P HP]. pose proof HP as HP'. unfold arc_site in HP. destruct (s_arcs s !! a) as [ar|] eqn:Ea; [|done]. cbn in HP.
  change (omap (arc_ys s xs l) (a :: arcs)) with (match arc_ys s xs l a with Some y => y :: omap (arc_ys s xs l) arcs | None => omap (arc_ys s xs l) arcs end).
  cbn [flat_map]. unfold arc_ys at 1, arc_call at 1. rewrite HP'.
  cbn [arc_lines]. unfold bind at 1. rewrite (arcs_get s a ar Ea). unfold bind at 1. rewrite (point_xy_get s _ P HP). unfold bind at 1. rewrite IH. cbn [fst snd].
  pose proof (arc_line_real P xs l N) as AL. rewrite AL. clear AL. destruct P as [px py]. cbn [fst snd]. change (D RArith) with R in *. destruct (Req_EM_T py l) as [El|Nl]; by destruct show.
Qed.
Definition arc_kind (c : cmd A) : Prop := match c with CCurve _ ARC _ _ => True | CVertical _ _ _ => True | _ => False end.
Lemma plot_arcs_calls s cv order arcs given show labels : (forall a, a ∈ or_list arcs order -> is_Some (arc_site A s a)) ->
  let l := default (cv_max_y A cv) (or_sweep A given (s_sweep s)) in let xs := linspace A (cv_min_x A cv) (cv_max_x A cv) 1000 in
  exists cmds, plot_arcs A cv order arcs given show labels s = Val (s, cmds) /\
    forall c, arc_kind c -> (c ∈ cmds <-> show = true /\ exists a, a ∈ or_list arcs order /\ c ∈ arc_call s xs l a).
Proof.
  intros HA. cbv zeta. unfold plot_arcs. set (L := or_list arcs order) in *. clearbody L. unfold bind at 1. cbn [read]. cbn [toF RArith].
  set (xs := linspace A _ _ 1000). set (l := default _ _). clearbody l.
  assert (LX : length xs = 1000%nat) by (apply linspace_length; lia). assert (NX : xs <> []) by (intros E; rewrite E in LX; done).
  unfold bind at 1. rewrite (arc_lines_calls s L xs l show NX HA). cbn [fst snd]. pose proof (omap_length_le (arc_ys s xs l) L) as LL. set (lines := omap (arc_ys s xs l) L) in *. clearbody lines.
  assert (HL : exists c, (if labels then plot_arc_labels A cv xs lines (bottom_of A lines (length xs)) l L else ret []) s = Val (s, c) /\ Forall (fun c => ~ arc_kind c) c).
  { destruct labels; [|exists []; by split]. unfold plot_arc_labels.
    match goal with |- exists c, mcat A ?f ?ls s = _ /\ _ => destruct (mcat_val f (fun c => ~ arc_kind c) ls s) as (c & E & Fc) end; [|by exists c].
    intros k Hk. apply elem_of_list_In, filter_In in Hk as [Hk _]. apply in_seq in Hk.
    destruct (lookup_lt_is_Some_2 L k (Nat.lt_le_trans _ _ _ (proj2 Hk) LL)) as [a Ha]. rewrite Ha. destruct (HA a ltac:(by eapply elem_of_list_lookup_2)) as [P HP].
    unfold arc_site in HP. destruct (s_arcs s !! a) as [ar|] eqn:Ear; [|done]. cbn in HP. unfold pxy in HP. destruct (s_points s !! a_origin ar) as [pp|] eqn:Ep; [|done].
    eexists. split; [unfold bind at 1; cbn [deref ret]; unfold bind at 1; rewrite (arcs_get s a ar Ear); unfold bind at 1; rewrite (points_get' s _ pp Ep); reflexivity|].
    repeat constructor. cbn. tauto. }
  destruct HL as (lab & EL & FL).
  assert (HC : forall c, c ∈ (if show then flat_map (arc_call s xs l) L else []) <-> show = true /\ exists a, a ∈ L /\ c ∈ arc_call s xs l a).
  { intros c. destruct show; [|split; [by intros ?%elem_of_nil|by intros [? _]]]. rewrite elem_of_list_In, in_flat_map. split.
    - intros (a & H1 & H2). split; [done|]. exists a. by rewrite !elem_of_list_In.
    - intros (_ & a & H1 & H2). exists a. by rewrite <- !elem_of_list_In. }
  destruct lines as [|y lines]; [by eexists|]. unfold bind at 1. rewrite EL. eexists. split; [reflexivity|]. intros c Hk. rewrite elem_of_app, elem_of_cons, HC. split; [|auto].
  intros [H|[-> |H]]; [done| |]; exfalso; [exact Hk|]. by apply (proj1 (Forall_forall _ _) FL c H).
Qed.

Lemma follows_curve cv l (P : rpt) : snd P <> l -> let xs := linspace A (cv_min_x A cv) (cv_max_x A cv) 1000 in follows cv l P (combine xs ((fun x => para P l x) <$> xs)).
Proof.
  intros HN. cbv zeta. set (xs := linspace A _ _ 1000). assert (LX : length xs = 1000%nat) by (apply linspace_length; lia).
  split; [rewrite combine_length, fmap_length, LX; done|]. intros i x y Hi.
  assert (Li : (i < 1000)%nat). { apply lookup_lt_Some in Hi. rewrite combine_length, fmap_length, LX in Hi. lia. }
  assert (Ex : xs !! i = Some (cv_min_x A cv + INR i * (cv_max_x A cv - cv_min_x A cv) / INR (1000 - 1))) by (apply linspace_real; lia).
  assert (E9 : INR (1000 - 1) = 999) by (rewrite INR_IZR_INZ; reflexivity). rewrite E9 in Ex.
  assert (HX : forall (u : list R) i x y, combine u ((fun x => para P l x) <$> u) !! i = Some (x, y) -> u !! i = Some x /\ y = para P l x).
  { clear. induction u as [|a u IH]; intros [|i] x y Hi; cbn in Hi; try done; [by injection Hi as <- <-|by apply IH]. }
  destruct (HX xs i x y Hi) as [X1 X2]. pose proof (eq_trans (eq_sym X1) Ex) as Ex'. injection Ex' as Ex'. split; [exact Ex'|]. rewrite X2. by apply FinishReal.para_dist'.
Qed.
Context (xys corners : list (pt A)).
Notation TO := RArith_order.
Notation MO := (RArith_mid (fst <$> xys)).
Notation CC := RArith_circle.
Lemma arcs_known s index hist a : runs A xys corners s index hist -> a ∈ s_arcset s -> exists p (P : rpt), passed hist p /\ xys !! p = Some P /\ arc_site A s a = Some P.
Proof.
  intros HR Ha. destruct (runs_reach A xys corners TO MO CC _ _ _ HR) as [(Hok & _ & _)|(t & dn & HR' & _)].
  { destruct Hok as (q0 & -> & _). by apply elem_of_nil in Ha. }
  destruct (arc_site_reach xys corners s t dn hist a HR' Ha) as (p & P & Hp & H1 & H2). exists p, P. split; [|done]. unfold passed. by rewrite (f_hist _ _ _ _ _ _ _ (reach_facts A xys corners TO _ _ _ _ HR')) in Hp.
Qed.
Lemma uses_val s given l cv : uses_line s given l -> default (cv_max_y A cv) (or_sweep A given (s_sweep s)) = l.
Proof. intros [[-> ->]|[-> N0]]; [done|]. unfold or_sweep. cbn [deqb dZ RArith]. rewrite Reqb_dec. destruct (Req_EM_T l 0); [contradiction|done]. Qed.
Lemma arc_call_val s xs (l : R) a (P : rpt) : arc_site A s a = Some P ->
  arc_call s xs l a = if Req_EM_T (snd P) l then [CVertical A SWEEP_LINE (fst P)] else [CCurve A ARC true (combine xs ((fun x => para P l x) <$> xs))].
Proof. unfold arc_call. by intros ->. Qed.
Lemma arcs_drawn s index hist l given cv order labels :
  runs A xys corners s index hist -> uses_line s given l -> order ≡ₚ s_arcset s ->
  exists cmds, plot_arcs A cv order None given true labels s = Val (s, cmds) /\
    (forall L n p (P : rpt), beach A s L -> n ∈ L -> site A s n = Some p -> xys !! p = Some P ->
       (snd P <> l -> exists curve, CCurve A ARC true curve ∈ cmds /\ follows cv l P curve) /\
       (snd P = l -> CVertical A SWEEP_LINE (fst P) ∈ cmds)) /\
    (forall dashed curve, CCurve A ARC dashed curve ∈ cmds -> dashed = true /\ exists p (P : rpt), passed hist p /\ xys !! p = Some P /\ snd P <> l /\ follows cv l P curve) /\
    (forall c x, CVertical A c x ∈ cmds -> c = SWEEP_LINE /\ exists p (P : rpt), passed hist p /\ xys !! p = Some P /\ snd P = l /\ x = fst P).
Proof.
  intros HR HU HO. assert (HK : forall a, a ∈ or_list None order -> exists p (P : rpt), passed hist p /\ xys !! p = Some P /\ arc_site A s a = Some P).
  { cbn [or_list]. intros a. rewrite HO. by apply (arcs_known s index). }
  destruct (plot_arcs_calls s cv order None given true labels) as (cmds & E & HC); [intros a Ha; destruct (HK a Ha) as (p & P & _ & _ & X); eauto|].
  cbv zeta in HC. rewrite (uses_val s given l cv HU) in HC. cbn [or_list] in *. pose proof (fun P => follows_curve cv l P) as HF. cbv zeta in HF.
  set (xs := linspace A _ _ 1000) in HC, HF. clearbody xs. exists cmds. split; [exact E|]. split; [|split].
  - intros L n p P HB Hn Hp HP. destruct (runs_reach A xys corners TO MO CC _ _ _ HR) as [(Hok & _ & _)|(t & dn & HR' & _)].
    { destruct Hok as (q0 & -> & _). exfalso. by unfold site in Hp. }
    pose proof (reach_facts A xys corners TO _ _ _ _ HR') as F. pose proof (f_inv _ _ _ _ _ _ _ F) as HI. assert (L = inord t) as -> by (eapply beach_det; [exact HB|]; eapply inv_beach, F).
    destruct (arcs_cover A xys corners _ _ _ _ n p HR' Hn Hp) as (a & x & Ha & Hx & Ho).
    assert (HS : arc_site A s a = Some P). { unfold arc_site. rewrite Hx. cbn. rewrite Ho, (pxy_pts A xys s _ (f_pts _ _ _ _ _ _ _ F)). exact HP. }
    rewrite <- HO in Ha. pose proof (arc_call_val s xs l a P HS) as HV. split; intros HN.
    + eexists. split; [|by apply HF]. apply HC; [exact I|]. split; [done|]. exists a. split; [done|]. rewrite HV. destruct (Req_EM_T (snd P) l); [done|]. left.
    + apply HC; [exact I|]. split; [done|]. exists a. split; [done|]. rewrite HV. destruct (Req_EM_T (snd P) l); [left|done].
  - intros d cu Hc. apply HC in Hc as (_ & a & Ha & Hc); [|exact I]. destruct (HK a Ha) as (p & P & H1 & H2 & H3). rewrite (arc_call_val s _ l a P H3) in Hc.
    destruct (Req_EM_T (snd P) l) as [e|n]; [by apply elem_of_list_singleton in Hc|]. apply elem_of_list_singleton in Hc. injection Hc as -> ->. split; [done|]. exists p, P. do 3 (split; [done|]). by apply HF.
  - intros c x Hc. apply HC in Hc as (_ & a & Ha & Hc); [|exact I]. destruct (HK a Ha) as (p & P & H1 & H2 & H3). rewrite (arc_call_val s _ l a P H3) in Hc.
    destruct (Req_EM_T (snd P) l) as [e|n]; [|by apply elem_of_list_singleton in Hc]. apply elem_of_list_singleton in Hc. injection Hc as -> ->. split; [done|]. exists p, P. done.
Qed.
Lemma arcs_hidden s index hist given cv order labels : runs A xys corners s index hist -> order ≡ₚ s_arcset s ->
  exists cmds, plot_arcs A cv order None given false labels s = Val (s, cmds) /\
    (forall dashed curve, CCurve A ARC dashed curve ∉ cmds) /\ (forall c x, CVertical A c x ∉ cmds).
Proof.
  intros HR HO. destruct (plot_arcs_calls s cv order None given false labels) as (cmds & E & HC).
  { cbn [or_list]. intros a. rewrite HO. intros Ha. destruct (arcs_known s index hist a HR Ha) as (p & P & _ & _ & X). eauto. }
  exists cmds. split; [exact E|]. split; intros ? ? Hc; apply HC in Hc; [|exact I| |exact I]; by destruct Hc.
Qed.
End ArcsReal.

(* ---------- drawing what is given ---------- *)
Section Given.
Local Open Scope R_scope.
Notation A := RArith.
Implicit Types s : state A.
Lemma edges_given s cv es given lb c : es <> [] -> (forall e, e ∈ es -> exists f a b, joins s e f a b /\ named s e /\ named s f) ->
  exists cmds, plot_edges A cv (Some es) given lb c s = Val (s, cmds) /\
    forall z, on_line cmds c z <-> exists e a b, e ∈ es /\ runs_to s e a b /\ on_segment a b z.
Proof.
  intros NE HE. unfold plot_edges, bind at 1 2, read. replace (or_list (Some es) (s_edges s)) with es by (by destruct es). set (sl := or_sweep A given (s_sweep s)). clearbody sl.
  set (body := fun e => (_ <- _;; _)%monad).
  assert (HB : forall e f a b, joins s e f a b -> named s e -> named s f -> body e s = Val (s, (CLine A c (xpt_of A a) (xpt_of A b) :: if lb then [CLabel A (xpt_of A (middle a b)) (TEdge (edge_name s e) (edge_name s f))] else []) ++ [CLine A c (xpt_of A b) (xpt_of A a)])).
  { intros e f a b HT N1 N2. unfold body, bind. rewrite (edge_val s cv e f a b sl lb c HT N1 N2), (twin_val s e f (proj1 HT)), (edge_val s cv f e b a sl false c (joins_sym _ _ _ _ _ HT) N2 N1). done. }
  destruct (mcat_spec body es s) as (cs & E1 & E2).
  { intros e He. destruct (HE e He) as (f & a & b & HT & N1 & N2). eexists. exact (HB e f a b HT N1 N2). }
  exists cs. split; [exact E1|]. intros z. split.
  - intros (a' & b' & X & HZ). apply (proj1 (walk_segment a' b' z)) in HZ. apply E2 in X as (e & cx & He & Ex & Hx). destruct (HE e He) as (f & a & b & HT & N1 & N2). rewrite (HB e f a b HT N1 N2) in Ex. injection Ex as <-.
    exists e, a, b. split; [done|]. split; [by eapply joins_runs|].
    assert (X3 : CLine A c (xpt_of A a') (xpt_of A b') = CLine A c (xpt_of A a) (xpt_of A b) \/ CLine A c (xpt_of A a') (xpt_of A b') = CLine A c (xpt_of A b) (xpt_of A a)).
    { apply elem_of_cons in Hx as [Hx|[Hx|Hx%elem_of_list_singleton]%elem_of_app]; [by left| |by right]. destruct lb; [|by apply elem_of_nil in Hx]. by apply elem_of_list_singleton in Hx. }
    destruct X3 as [X3|X3]; pose proof (f_equal (fun y => match y with CLine _ _ p _ => p | _ => xpt_of A a end) X3) as Y1; pose proof (f_equal (fun y => match y with CLine _ _ _ p => p | _ => xpt_of A b end) X3) as Y2; apply xpt_inj in Y1, Y2; subst; [done|by apply segment_sym].
  - intros (e & a & b & He & Hr & HZ). destruct (HE e He) as (f' & a' & b' & HT & N1 & N2). destruct (runs_to_fun s e a b a' b' Hr (joins_runs _ _ _ _ _ HT)) as [-> ->].
    exists a', b'. split; [|by apply walk_segment]. apply E2. eexists e, _. split; [done|]. split; [exact (HB e f' a' b' HT N1 N2)|]. left.
Qed.
Lemma vertices_given s vs : vs <> [] -> (forall v, v ∈ vs -> exists xy, located A s v xy) ->
  exists l, plot_vertices A (Some vs) s = Val (s, [CScatter A VERTICES l]) /\ Forall2 (fun v z => located A s v z) vs l.
Proof.
  intros NE HV. assert (HL : exists l, mmap A (vertex_xy A) vs s = Val (s, l) /\ Forall2 (fun v z => located A s v z) vs l).
  { clear NE. induction vs as [|v vs IH]; [exists []; by split|]. destruct (HV v ltac:(left)) as (z & Hz). destruct IH as (l & E & F); [intros u Hu; apply HV; by right|].
    exists (z :: l). split; [|by constructor]. cbn [mmap]. unfold bind. destruct Hz as (w & W1 & W2). unfold vertex_xy at 1. unfold bind. rewrite (verts_get' s v w W1), W2. cbn. by rewrite E. }
  destruct HL as (l & E & F). exists l. split; [|done]. unfold plot_vertices, bind, read. replace (or_list (Some vs) (s_vset s)) with vs by (by destruct vs). by rewrite E.
Qed.
Lemma sites_given s (xys : list (pt A)) ps c : p_xy <$> s_points s = xys -> ps <> [] -> (forall p, p ∈ ps -> is_Some (xys !! p)) ->
  exists l, plot_sites A (Some ps) false c s = Val (s, [CScatter A c l]) /\ Forall2 (fun p z => xys !! p = Some z) ps l.
Proof.
  intros HX NE HP. assert (HL : exists l, mmap A (fun p => point_xy p) ps s = Val (s, l) /\ Forall2 (fun p z => xys !! p = Some z) ps l).
  { clear NE. induction ps as [|v vs IH]; [exists []; by split|]. destruct (HP v ltac:(left)) as (z & Hz). destruct IH as (l & E & F); [intros u Hu; apply HP; by right|].
    exists (z :: l). split; [|by constructor]. cbn [mmap]. unfold bind. rewrite (point_xy_get s v z), E; [done|]. unfold pxy. rewrite <- list_lookup_fmap, HX. done. }
  destruct HL as (l & E & F). exists l. split; [|done]. unfold plot_sites, bind, read. replace (or_list (Some ps) (s_sites s)) with ps by (by destruct ps). by rewrite E.
Qed.
End Given.
