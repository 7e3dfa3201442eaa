(* Voronoi.v -- the half-edges of the sweep in exact arithmetic: at every state they draw the
   Voronoi diagram of the handled sites above the beach line; at the end, all of it. *)
From stdpp Require Import base list sets.
From Coq Require Import ZArith Reals Lra Lia Psatz.
From Verif Require Import Arith Geom Monad Tree Heapq State Sweep HeapqProofs EventOrder TreeProofs TreeOps TreeSearch Beach
  SweepBase Dcel SweepInv SweepTrans SweepSite SweepCircle SweepLoop Spec SweepFacts RArith GeomReal AngleReal EdgeReal Envelope EnvelopeEvents EnvelopeRow
  SweepReal SweepRealStep SweepRealLoop SweepRealFacts VoronoiGeom VoronoiStep VoronoiUnique.
Local Open Scope R_scope.

Section Vor.
Context (pts corners : list (pt RArith)) (ND : NoDup pts).
Notation A := RArith.
Notation St := (state A).
Implicit Types s : St.
Notation k0 := (length corners).
Local Notation PT p := (@lookup nat (pt RArith) (list (pt RArith)) (@list_lookup (pt RArith)) p pts) (only parsing).
Notation ls := (ls pts).
Notation Hs := (Hs pts).
Local Arguments lv : simpl never.
Local Arguments SweepReal.ls : simpl never.

(* where half-edge h starts *)
Definition start s (h : hedge) : option rpt := match h_origin h with OVx v => match s_verts s !! v with Some w => v_xy w | None => None end | OBp _ => None end.
Definition hv s : halves := fun e P Q o w => exists h f g p q, s_hedges s !! e = Some h /\ h_twin h = Some f /\ s_hedges s !! f = Some g /\
  h_inc h = Some p /\ h_inc g = Some q /\ (PT p) = Some P /\ (PT q) = Some Q /\ o = start s h /\ w = start s g.

(* every half-edge that still grows is drawn by a breakpoint of the tree, or grows upwards
   without end between two sites of the topmost row; of such an edge the other half is in the list *)
Definition grows s (t : tree) (done : list nat) : Prop := forall e h b, s_hedges s !! e = Some h -> h_origin h = OBp b ->
  (exists n, n ∈ inord t /\ drawn A s n = Some e) \/
  (exists f g p q P Q, h_twin h = Some f /\ s_hedges s !! f = Some g /\ h_inc h = Some p /\ h_inc g = Some q /\ (PT p) = Some P /\ (PT q) = Some Q /\
     snd P = snd Q /\ fst P < fst Q /\ (forall r : rpt, r ∈ Hs done -> snd r <= snd P) /\ e ∉ s_edges s).
Definition known s (done : list nat) : Prop := forall e h p, s_hedges s !! e = Some h -> h_inc h = Some p -> p ∈ done.

Section State.
Context s (t : tree) (done : list nat) (HI : Inv A s t done k0) (HP : p_xy <$> s_points s = pts).

Lemma start_vert e h v : s_hedges s !! e = Some h -> h_origin h = OVx v -> (v < length (s_verts s))%nat /\ exists y, start s h = Some y.
Proof.
  intros He Ho. destruct (d_vert _ _ _ _ _ _ _ _ (i_dcel _ _ _ _ _ HI) e h v He Ho) as (Hv & _).
  destruct (d_conn _ _ _ _ _ _ _ _ (i_dcel _ _ _ _ _ HI) v Hv) as (w & Hw & a & b & c & pa & pb & pc & x & y & r & e1 & e2 & e3 & _ & _ & _ & _ & _ & _ & _ & _ & _ & _ & Hxy).
  split; [by eapply lookup_lt_Some|]. exists (x, y). unfold start. rewrite Ho. change (s_verts s !! v = Some w) in Hw. rewrite Hw. exact Hxy.
Qed.
Lemma start_none e h : s_hedges s !! e = Some h -> start s h = None -> exists b, h_origin h = OBp b.
Proof. intros He Hn. destruct (h_origin h) as [b|v] eqn:Ho; [eauto|]. destruct (start_vert e h v He Ho) as (_ & y & Hy). congruence. Qed.

Lemma hv_wf : known s done -> wf (Hs done) (hv s).
Proof.
  intros HK e P Q o w (h & f & g & p & q & He & Hf & Hg & Hp & Hq & EP & EQ & Ho & Hw).
  destruct (d_twin _ _ _ _ _ _ _ _ (i_dcel _ _ _ _ _ HI) e h He) as (f' & g' & p' & q' & X1 & X2 & X3 & X4 & X5 & X6 & X7).
  assert (f' = f) as -> by congruence. change (s_hedges s !! f = Some g') in X3. assert (g' = g) as -> by congruence. assert (p' = p) as -> by congruence. assert (q' = q) as -> by congruence.
  split; [apply elem_of_list_omap; exists p; eauto|]. split; [apply elem_of_list_omap; exists q; eauto|].
  split. { intros ->. apply X7. eapply NoDup_lookup; [exact ND|exact EP|exact EQ]. }
  exists f. exists g, e, h, q, p. auto 12.
Qed.
Lemma drawn_node n e : n ∈ inord t -> drawn A s n = Some e -> exists b x h f g, bpid A s n = Some b /\ s_bps s !! b = Some x /\ label A s n = Some (b_l x, b_r x) /\
  s_hedges s !! e = Some h /\ h_origin h = OBp b /\ h_inc h = Some (b_r x) /\ h_twin h = Some f /\ s_hedges s !! f = Some g /\ h_inc g = Some (b_l x).
Proof.
  intros Hn Hd. unfold drawn in Hd. destruct (bpid A s n) as [b|] eqn:Hb; [|done]. simpl in Hd. destruct (s_bps s !! b) as [x|] eqn:Hx; [|done]. simpl in Hd.
  destruct (i_open _ _ _ _ _ HI n b Hn Hb) as (x' & e' & h & X1 & X2 & X3 & X4). assert (x' = x) as -> by congruence. assert (e' = e) as -> by congruence.
  destruct (d_open _ _ _ _ _ _ _ _ (i_dcel _ _ _ _ _ HI) e h b X3 X4) as (x'' & f & g & Y1 & Y2 & Y3 & Y4 & Y5 & Y6).
  change (s_bps s !! b = Some x'') in Y1. assert (x'' = x) as -> by congruence.
  exists b, x, h, f, g. unfold label. rewrite Hb. simpl. rewrite Hx. auto 12.
Qed.
(* an open end that is not on the beach line *)
Lemma hv_top : grows s t done -> forall e P Q w, hv s e P Q None w -> (exists k, ls s (inord t) !! k = Some Q /\ ls s (inord t) !! S k = Some P) \/
  (snd P = snd Q /\ fst P < fst Q /\ (forall r : rpt, r ∈ Hs done -> snd r <= snd P) /\ e ∉ s_edges s).
Proof.
  intros HG e P Q w (h & f & g & p & q & He & Hf & Hg & Hp & Hq & EP & EQ & Ho & Hw). symmetry in Ho. destruct (start_none e h He Ho) as [b Hb].
  destruct (HG e h b He Hb) as [(n & Hn & Hd)|(f' & g' & p' & q' & P' & Q' & X1 & X2 & X3 & X4 & X5 & X6 & X7)].
  - left. destruct (drawn_node n e Hn Hd) as (b' & x & h' & f' & g' & _ & _ & HL & Y1 & _ & Y3 & Y4 & Y5 & Y6).
    assert (h' = h) as -> by congruence. assert (f' = f) as -> by congruence. assert (g' = g) as -> by congruence.
    apply elem_of_list_split in Hn as (l1 & l2 & E).
    destruct (label_pos pts corners s t done l1 n l2 HI HP E _ _ HL) as (pre & suf & m & m' & P' & Q' & _ & _ & Z1 & Z2 & _ & _ & _ & _ & Z3 & _).
    assert (b_l x = q) as Eq by congruence. assert (b_r x = p) as Ep by congruence. rewrite Eq in Z1. rewrite Ep in Z2.
    assert (P' = Q) as -> by congruence. assert (Q' = P) as -> by congruence.
    exists (length (ls s pre)). rewrite Z3. split; [by rewrite list_lookup_middle|]. rewrite lookup_app_r by lia. by replace (S (length (ls s pre)) - length (ls s pre))%nat with 1%nat by lia.
  - right. assert (f' = f) as -> by congruence. assert (g' = g) as -> by congruence. assert (p' = p) as -> by congruence. assert (q' = q) as -> by congruence.
    assert (P' = P) as -> by congruence. assert (Q' = Q) as -> by congruence. exact X7.
Qed.
Lemma hv_opened : grows s t done -> opened (ls s (inord t)) (hv s).
Proof. intros HG e P Q w He. destruct (hv_top HG e P Q w He) as [X|X]; [by left|right; tauto]. Qed.
(* which neighbouring arcs a growing half-edge belongs to *)
Definition pos (e k : nat) : Prop := exists n, inord t !! S (k + k) = Some n /\ drawn A s n = Some e.
Definition tw (e : nat) : nat := match s_hedges s !! e ≫= h_twin with Some f => f | None => e end.
Lemma pos_inj e e' k : pos e k -> pos e' k -> e = e'.
Proof. intros (n & H1 & H2) (n' & H1' & H2'). congruence. Qed.
Lemma label_at L : chain (site A s) (label A s) L -> (forall n, n ∈ L -> n ∈ inord t) -> forall i n p q P Q, L !! i = Some n -> label A s n = Some (p, q) ->
  (PT p) = Some P -> (PT q) = Some Q -> exists k, i = S (k + k) /\ ls s L !! k = Some P /\ ls s L !! S k = Some Q.
Proof.
  induction 1 as [m r Hm|m b m' L r r' Hm Hb Hm' Hrr HC IH]; intros HL i n p q P Q Hi Hn EP EQ.
  - apply list_lookup_singleton_Some in Hi as [-> <-]. apply site_label in Hm. congruence.
  - destruct (st_site' pts corners s t done HI HP m r) as [R' HR']; [apply HL; left|done|].
    destruct (st_site' pts corners s t done HI HP m' r') as [R'' HR'']; [apply HL; right; right; left|done|].
    assert (Sb : site A s b = None). { destruct (site A s b) as [x|] eqn:X; [|done]. apply site_label in X. congruence. }
    rewrite (ls_site pts _ _ _ _ _ Hm HR'), (ls_none pts _ _ _ Sb). destruct i as [|[|i]]; simpl in Hi.
    + injection Hi as <-. apply site_label in Hm. congruence.
    + injection Hi as <-. exists 0%nat. split; [done|]. rewrite (ls_site pts _ _ _ _ _ Hm' HR''). simpl. assert (r = p) as -> by congruence. assert (r' = q) as -> by congruence. split; [exact (eq_trans (eq_sym HR') EP)|exact (eq_trans (eq_sym HR'') EQ)].
    + destruct (IH ltac:(intros x Hx; apply HL; right; by right) i n p q P Q Hi Hn EP EQ) as (k & -> & K1 & K2). exists (S k). split; [lia|]. done.
Qed.
Lemma hv_pos : grows s t done -> forall e P Q w, hv s e P Q None w -> (exists k, pos e k /\ ls s (inord t) !! k = Some Q /\ ls s (inord t) !! S k = Some P) \/ (snd P = snd Q /\ fst P < fst Q).
Proof.
  intros HG e P Q w (h & f & g & p & q & He & Hf & Hg & Hp & Hq & EP & EQ & Ho & Hw). symmetry in Ho. destruct (start_none e h He Ho) as [b Hb].
  destruct (HG e h b He Hb) as [(n & Hn & Hd)|(f' & g' & p' & q' & P' & Q' & X1 & X2 & X3 & X4 & X5 & X6 & X7)].
  - left. destruct (drawn_node n e Hn Hd) as (b' & x & h' & f' & g' & _ & _ & HL & Y1 & _ & Y3 & Y4 & Y5 & Y6).
    assert (h' = h) as -> by congruence. assert (f' = f) as -> by congruence. assert (g' = g) as -> by congruence.
    assert (b_l x = q) as Eq by congruence. assert (b_r x = p) as Ep by congruence. rewrite Eq, Ep in HL.
    apply elem_of_list_lookup in Hn as [i Hi].
    destruct (label_at (inord t) (i_chain _ _ _ _ _ HI) (fun _ H => H) i n q p Q P Hi HL EQ EP) as (k & -> & K1 & K2).
    exists k. split; [exists n; auto|auto].
  - right. assert (f' = f) as -> by congruence. assert (g' = g) as -> by congruence. assert (p' = p) as -> by congruence. assert (q' = q) as -> by congruence.
    assert (P' = P) as -> by congruence. assert (Q' = Q) as -> by congruence. tauto.
Qed.
Lemma hv_tw e P Q o w : hv s e P Q o w -> hv s (tw e) Q P w o /\ tw (tw e) = e.
Proof.
  intros (h & f & g & p & q & He & Hf & Hg & Hp & Hq & EP & EQ & Ho & Hw).
  destruct (d_twin _ _ _ _ _ _ _ _ (i_dcel _ _ _ _ _ HI) e h He) as (f' & g' & p' & q' & X1 & X2 & X3 & X4 & X5 & X6 & X7).
  assert (f' = f) as -> by congruence. change (s_hedges s !! f = Some g') in X3. assert (g' = g) as -> by congruence.
  assert (E1 : tw e = f) by (unfold tw; rewrite He; simpl; by rewrite Hf). assert (E2 : tw f = e) by (unfold tw; rewrite Hg; simpl; by rewrite X4).
  rewrite E1. split; [|done]. exists g, e, h, q, p. auto 12.
Qed.
(* neighbouring arcs and the breakpoint between them *)
Lemma between L : chain (site A s) (label A s) L -> (forall n, n ∈ L -> n ∈ inord t) -> forall k P Q, ls s L !! k = Some P -> ls s L !! S k = Some Q ->
  exists n p q, n ∈ L /\ label A s n = Some (p, q) /\ (PT p) = Some P /\ (PT q) = Some Q.
Proof.
  induction 1 as [n p Hn|n b m L p q Hn Hb Hm Hpq HC IH]; intros HL k P Q HP0 HQ0.
  - destruct (st_site' pts corners s t done HI HP n p) as [P' HP']; [apply HL; left|done|].
    rewrite (ls_site pts _ _ _ _ _ Hn HP') in HQ0. done.
  - destruct (st_site' pts corners s t done HI HP n p) as [P' HP']; [apply HL; left|done|].
    destruct (st_site' pts corners s t done HI HP m q) as [Q' HQ']; [apply HL; right; right; left|done|].
    assert (Sb : site A s b = None). { destruct (site A s b) as [x|] eqn:X; [|done]. apply site_label in X. congruence. }
    rewrite (ls_site pts _ _ _ _ _ Hn HP'), (ls_none pts _ _ _ Sb) in HP0, HQ0. destruct k as [|k].
    + cbn [lookup list_lookup] in HP0. injection HP0 as <-. rewrite (ls_site pts _ _ _ _ _ Hm HQ') in HQ0. cbn in HQ0. injection HQ0 as <-.
      exists b, p, q. split; [right; left|]. auto.
    + destruct (IH ltac:(intros x Hx; apply HL; right; by right) k P Q HP0 HQ0) as (n' & p' & q' & X1 & X2). exists n', p', q'. split; [right; by right|done].
Qed.
Lemma hv_linked : linked (ls s (inord t)) (hv s).
Proof.
  intros k P Q HQ0 HP0. destruct (between (inord t) (i_chain _ _ _ _ _ HI) (fun _ H => H) k Q P HQ0 HP0) as (n & q & p & Hn & HL & EQ & EP).
  destruct (label_inv _ _ _ _ HL) as (nd & b & x & X1 & X2 & X3 & X4 & [= -> ->]).
  destruct (i_open _ _ _ _ _ HI n b Hn X3) as (x' & e & h & Y1 & Y2 & Y3 & Y4). assert (x' = x) as -> by congruence.
  destruct (d_open _ _ _ _ _ _ _ _ (i_dcel _ _ _ _ _ HI) e h b Y3 Y4) as (x'' & f & g & Z1 & Z2 & Z3 & Z4 & Z5 & Z6).
  change (s_bps s !! b = Some x'') in Z1. assert (x'' = x) as -> by congruence.
  exists e, (start s g), h, f, g, (b_r x), (b_l x). unfold start at 1. rewrite Y4. auto 12.
Qed.
Lemma ls_some : ls s (inord t) <> [].
Proof.
  pose proof (i_chain _ _ _ _ _ HI) as HC. destruct (inord t) as [|n L] eqn:E; [inversion HC|]. destruct (chain_head _ _ _ _ HC) as [p Hp].
  destruct (st_site' pts corners s t done HI HP n p) as [P HP']; [rewrite E; left|done|]. rewrite (ls_site pts _ _ _ _ _ Hp HP'). done.
Qed.
Lemma vor_down l l1 : shape pts s t done l -> known s done -> grows s t done -> drawn_ok l (Hs done) (hv s) -> l1 <= l ->
  (forall j z B, pend s t j -> cw (ls s (inord t)) j z B -> B <= l1) -> drawn_ok l1 (Hs done) (hv s).
Proof.
  intros HS HK HG G Hl HQ. apply (move_down l l1 (Hs done) (ls s (inord t)) (hv s)); auto using hv_wf, hv_opened, hv_linked, ls_some.
  - intros m Hm1 Hm2. destruct HS as [R|(BO & Y1 & _)]; [by apply (row_down l)|].
    apply (step_down l m _ _ _ BO ltac:(lra) Y1). intros j z B Hj C. pose proof (HQ j z B Hj C). lra.
  - intros p Hp. destruct HS as [R|(BO & _)]; [rewrite (r_lev _ _ _ R p Hp); lra|by apply (b_above _ _ _ BO)].
Qed.
Lemma vor_single l l1 : shape pts s t done l -> known s done -> grows s t done -> drawn_ok l (Hs done) (hv s) -> l1 <= l ->
  (forall j z B, pend s t j -> cw (ls s (inord t)) j z B -> B <= l1) -> single l (Hs done) (hv s) -> single l1 (Hs done) (hv s).
Proof.
  intros HS HK HG G Hl HQ. apply (single_down l l1 (Hs done) (ls s (inord t)) (hv s) pos tw); auto; [| |by apply hv_wf|intros; by apply hv_tw|exact pos_inj|by apply hv_pos].
  - intros m Hm1 Hm2. destruct HS as [R|(BO & Y1 & _)]; [by apply (row_down l)|].
    apply (step_down l m _ _ _ BO ltac:(lra) Y1). intros j z B Hj C. pose proof (HQ j z B Hj C). lra.
  - intros p Hp. destruct HS as [R|(BO & _)]; [rewrite (r_lev _ _ _ R p Hp); lra|by apply (b_above _ _ _ BO)].
Qed.
End State.

Lemma site_not_drawn s n p e : site A s n = Some p -> drawn A s n = Some e -> False.
Proof. intros Hs. apply site_inv in Hs as (nd & a & x & H1 & H2 & _). unfold drawn, bpid. rewrite H1. simpl. rewrite H2. done. Qed.

(* ---------- a circle event ---------- *)
Section CEvent.
Context s (t : tree) (done : list nat) s' (t' : tree) (e : cevent A) (l : R).
Context (HI : Inv A s t done k0) (HP : p_xy <$> s_points s = pts) (HI' : Inv A s' t' done k0) (HT : circle_trans A s t s' t' e).
Context (HK : known s done) (HG : grows s t done) (BO : beach_ok l (Hs done) (ls s (inord t))) (G : drawn_ok l (Hs done) (hv s)) (G1 : single l (Hs done) (hv s)).
Context (HC : exists i, lv s (inord t) !! S i = Some (c_node e) /\ cw (ls s (inord t)) i (c_x e, c_y e) l).

Lemma circle_vor : known s' done /\ grows s' t' done /\ drawn_ok l (Hs done) (hv s') /\ single l (Hs done) (hv s').
Proof.
  pose proof HT as (L1 & n1 & b1 & b2 & n2 & L2 & u & a & b & c & ev & EL & EL' & Hu & Ha & Hb & Hc & Nab & Nbc & Nac & Lb1 & Lb2 & Lu & Hss & _ & _ & _ & _ & _ & _ & (conn & Ev) & Evs & HLen & HEd & _ & _ & (el & er & tl & tr & bu & Del & Der & Eh) & Du & Dold & _).
  destruct (st_site pts corners s t done HI HP n1 a) as (Pa & HPa & Ia); [rewrite EL, elem_of_app, !elem_of_cons; tauto|done|].
  destruct (st_site pts corners s t done HI HP (c_node e) b) as (Pb & HPb & Ib); [rewrite EL, elem_of_app, !elem_of_cons; tauto|done|].
  destruct (st_site pts corners s t done HI HP n2 c) as (Pc & HPc & Ic); [rewrite EL, elem_of_app, !elem_of_cons; tauto|done|].
  assert (Ib1 : b1 ∈ inord t) by (rewrite EL, elem_of_app, !elem_of_cons; tauto).
  assert (Ib2 : b2 ∈ inord t) by (rewrite EL, elem_of_app, !elem_of_cons; tauto).
  destruct (drawn_node s t done HI b1 el Ib1 Del) as (B1 & x1 & hl & fl & gl & _ & _ & L1' & El1 & El2 & El3 & El4 & El5 & El6).
  destruct (drawn_node s t done HI b2 er Ib2 Der) as (B2 & x2 & hr & fr & gr & _ & _ & L2' & Er1 & Er2 & Er3 & Er4 & Er5 & Er6).
  assert (b_l x1 = a /\ b_r x1 = b) as [Xa Xb] by (rewrite Lb1 in L1'; injection L1'; auto). rewrite Xa, Xb in *.
  assert (b_l x2 = b /\ b_r x2 = c) as [Yb Yc] by (rewrite Lb2 in L2'; injection L2'; auto). rewrite Yb, Yc in *.
  set (n := length (s_hedges s)) in *. set (v := length (s_verts s)) in *. set (y := (c_x e, c_y e) : rpt) in *.
  set (up := upd_he v el er tl tr n) in *.
  assert (OLD : forall f h, s_hedges s !! f = Some h -> s_hedges s' !! f = Some (up f h)) by (intros f h Hf; rewrite Eh; by apply add_vertex_look).
  assert (NEW1 : s_hedges s' !! n = Some (mkHedge (OBp bu) (Some c) (Some (S n)) (Some er) None)).
  { rewrite Eh. unfold add_vertex. rewrite lookup_app_r by (rewrite imap_length; done). rewrite imap_length. fold n. by rewrite Nat.sub_diag. }
  assert (NEW2 : s_hedges s' !! S n = Some (mkHedge (OVx v) (Some a) (Some n) None (Some tl))).
  { rewrite Eh. unfold add_vertex. rewrite lookup_app_r by (rewrite imap_length; unfold n; lia). rewrite imap_length. fold n. by replace (S n - n)%nat with 1%nat by lia. }
  assert (CASES : forall f h, s_hedges s' !! f = Some h -> (exists h0, s_hedges s !! f = Some h0 /\ h = up f h0) \/ (f = n /\ h = mkHedge (OBp bu) (Some c) (Some (S n)) (Some er) None) \/
      (f = S n /\ h = mkHedge (OVx v) (Some a) (Some n) None (Some tl))).
  { intros f h Hf. destruct (s_hedges s !! f) as [h0|] eqn:E0; [left; exists h0; split; [done|]; specialize (OLD _ _ E0); congruence|right].
    apply lookup_ge_None in E0. pose proof (lookup_lt_Some _ _ _ Hf) as Lt. rewrite HLen in Lt. fold n in E0, Lt.
    destruct (decide (f = n)) as [->|]; [left; split; [done|]; congruence|right]. assert (f = S n) as -> by lia. split; [done|]. congruence. }
  assert (SV : start s' (mkHedge (OVx v) (Some a) (Some n) None (Some tl)) = Some y).
  { unfold start. simpl. rewrite Ev. rewrite lookup_app_r by (unfold v; lia). unfold v. by rewrite Nat.sub_diag. }
  assert (TW : forall f h g k, s_hedges s !! f = Some h -> h_twin h = Some g -> s_hedges s !! g = Some k -> forall p q, h_inc h = Some p -> h_inc k = Some q ->
     forall P Q, (PT p) = Some P -> (PT q) = Some Q -> ends Pa Pb Pc y P Q (start s h) (start s' (up f h))).
  { intros f h g k Hf Hg Hk p q Hp Hq P Q EP EQ. unfold up, upd_he, start. cbn [h_origin]. case_decide as Hd.
    - right. rewrite Ev. rewrite lookup_app_r by (unfold v; lia). unfold v at 1. rewrite Nat.sub_diag. cbn [lookup list_lookup mbind option_bind v_xy].
      destruct Hd as [-> | ->].
      + assert (h = hl) as -> by congruence. rewrite El2. split; [done|]. split; [done|]. left. split; [congruence|]. assert (g = fl) as -> by congruence. assert (k = gl) as -> by congruence. congruence.
      + assert (h = hr) as -> by congruence. rewrite Er2. split; [done|]. split; [done|]. right. split; [congruence|]. assert (g = fr) as -> by congruence. assert (k = gr) as -> by congruence. congruence.
    - left. destruct (h_origin h) as [b0|v0] eqn:Ho; [done|]. destruct (start_vert s t done HI f h v0 Hf Ho) as (Lt & _). rewrite Ev. rewrite lookup_app_l by exact Lt. done. }
  assert (TWIN : forall f h, s_hedges s !! f = Some h -> exists g k, h_twin h = Some g /\ s_hedges s !! g = Some k /\ h_twin k = Some f).
  { intros f h Hf. destruct (d_twin _ _ _ _ _ _ _ _ (i_dcel _ _ _ _ _ HI) f h Hf) as (g & k & _ & _ & X1 & _ & X3 & X4 & _). eauto. }
  split; [|split].
  - intros f h p Hf Hp. destruct (CASES f h Hf) as [(h0 & H0 & ->)|[(-> & ->)|(-> & ->)]].
    + exact (HK f h0 p H0 Hp).
    + simpl in Hp. injection Hp as <-. apply (i_sites _ _ _ _ _ HI). apply (in_sites A s (inord t) n2); [rewrite EL, elem_of_app, !elem_of_cons; tauto|done].
    + simpl in Hp. injection Hp as <-. apply (i_sites _ _ _ _ _ HI). apply (in_sites A s (inord t) n1); [rewrite EL, elem_of_app, !elem_of_cons; tauto|done].
  - intros f h bb Hf Ho. destruct (CASES f h Hf) as [(h0 & H0 & ->)|[(-> & ->)|(-> & ->)]].
    + unfold up, upd_he in Ho. cbn [h_origin] in Ho. case_decide as Hd; [done|].
      destruct (HG f h0 bb H0 Ho) as [(m & Hm & Dm)|(g & k & p & q & P & Q & X1 & X2 & X3 & X4 & X5 & X6 & X7)].
      * left. exists m. assert (Hm' : m ∈ L1 ++ L2).
        { rewrite EL, elem_of_app, !elem_of_cons in Hm. rewrite elem_of_app.
          destruct Hm as [Hm|[->|[->|[->|[->|[->|Hm]]]]]]; [by left| | | | | |by right]; exfalso.
          - by apply (site_not_drawn s n1 a f).
          - apply Hd. left. congruence.
          - by apply (site_not_drawn s (c_node e) b f).
          - apply Hd. right. congruence.
          - by apply (site_not_drawn s n2 c f). }
        split; [|rewrite (Dold m Hm'); exact Dm]. rewrite EL'. rewrite elem_of_app in Hm'. rewrite elem_of_app, !elem_of_cons. tauto.
      * right. exists g, (up g k), p, q, P, Q. split; [exact X1|]. split; [by apply OLD|]. destruct X7 as (X7 & X8 & X9 & X10). do 7 (split; [done|]).
        rewrite HEd, not_elem_of_app, elem_of_list_singleton. split; [exact X10|]. apply lookup_lt_Some in H0. fold n. fold n in H0. lia.
    + left. exists u. split; [rewrite EL', elem_of_app, !elem_of_cons; tauto|exact Du].
    + done.
  - assert (ELs : ls s (inord t) = ls s L1 ++ Pa :: Pb :: Pc :: ls s L2 /\ lv s (inord t) = lv s L1 ++ n1 :: c_node e :: n2 :: lv s L2).
    { pose proof (i_chain _ _ _ _ _ HI) as Hch. rewrite EL in Hch.
      assert (Sb1 : site A s b1 = None). { eapply (chain_gap' A s L1 n1 b1); [exact Hch|exact Ha]. }
      assert (Sb2 : site A s b2 = None). { eapply (chain_gap A s (L1 ++ [n1; b1; c_node e]) b2 n2); [rewrite <- app_assoc; exact Hch|exact Hc]. }
      rewrite EL. split.
      - rewrite (ls_app pts), (ls_site pts _ _ _ _ _ Ha HPa), (ls_none pts _ _ _ Sb1), (ls_site pts _ _ _ _ _ Hb HPb), (ls_none pts _ _ _ Sb2), (ls_site pts _ _ _ _ _ Hc HPc). done.
      - rewrite lv_app, (lv_site _ _ _ _ Ha), (lv_none _ _ _ Sb1), (lv_site _ _ _ _ Hb), (lv_none _ _ _ Sb2), (lv_site _ _ _ _ Hc). done. }
    destruct ELs as [ELs ELv].
    assert (CV : conv Pa Pb Pc y l).
    { destruct HC as (i & Hi & Hcw). assert (i = length (ls s L1)) as ->.
      { rewrite (ls_len pts s L1). 2:{ intros m q Hm Hq. eapply (st_site' pts corners s t done HI HP m); [rewrite EL, elem_of_app; by left|done]. }
        cut (S i = S (length (lv s L1))); [lia|]. eapply NoDup_lookup; [apply (lv_nodup s), (i_nodup _ _ _ _ _ HI)|exact Hi|].
        rewrite ELv. replace (S (length (lv s L1))) with (length (lv s L1) + 1)%nat by lia. by rewrite look_k. }
      rewrite ELs in Hcw. eapply (cw_conv _ _ Pa Pb Pc); [| | |exact Hcw].
      - by rewrite list_lookup_middle.
      - replace (S (length (ls s L1))) with (length (ls s L1) + 1)%nat by lia. by rewrite look_k.
      - replace (S (S (length (ls s L1)))) with (length (ls s L1) + 2)%nat by lia. by rewrite look_k. }
    destruct CV as (X & Hz & Oa & Ob & Oc). rewrite ELs in BO.
    pose proof (hv_wf s t done HI HK) as WF.
    assert (C1 : forall f P Q o' w', hv s' f P Q o' w' -> (exists o w, hv s f P Q o w /\ ends Pa Pb Pc y P Q o o' /\ ends Pa Pb Pc y Q P w w') \/
      (P = Pa /\ Q = Pc /\ o' = Some y /\ w' = None) \/ (P = Pc /\ Q = Pa /\ o' = None /\ w' = Some y)).
    { intros f P Q o w (h & g & k & p & q & X1 & X2 & X3 & X4 & X5 & X6 & X7 & -> & ->).
      destruct (CASES f h X1) as [(h0 & H0 & ->)|[(-> & ->)|(-> & ->)]].
      * left. destruct (TWIN f h0 H0) as (g' & k' & T1 & T2 & T3). cbn in X2. assert (g' = g) as -> by congruence.
        pose proof (OLD g k' T2) as OK. assert (k = up g k') as -> by congruence. cbn in X4, X5.
        exists (start s h0), (start s k'). split; [exists h0, g, k', p, q; auto 12|]. split.
        -- eapply (TW f h0 g k'); eauto.
        -- eapply (TW g k' f h0); eauto.
      * right. right. cbn in X2, X4. injection X2 as <-. injection X4 as <-. assert (k = mkHedge (OVx v) (Some a) (Some n) None (Some tl)) as -> by congruence.
        cbn in X5. injection X5 as <-. rewrite SV. split; [congruence|]. split; [congruence|]. done.
      * right. left. cbn in X2, X4. injection X2 as <-. injection X4 as <-. assert (k = mkHedge (OBp bu) (Some c) (Some (S n)) (Some er) None) as -> by congruence.
        cbn in X5. injection X5 as <-. rewrite SV. split; [congruence|]. split; [congruence|]. done. }
    split; [|by apply (single_circle l (Hs done) (ls s L1) (ls s L2) Pa Pb Pc y (hv s) (hv s'))].
    apply (circle_drawn l (Hs done) (ls s L1) (ls s L2) Pa Pb Pc y (hv s) (hv s')); auto.
    + intros f P Q o w (h & g & k & p & q & X1 & X2 & X3 & X4 & X5 & X6 & X7 & -> & ->).
      destruct (TWIN f h X1) as (g' & k' & T1 & T2 & T3). assert (g' = g) as -> by congruence. assert (k' = k) as -> by congruence.
      exists (start s' (up f h)), (start s' (up g k)). split; [exists (up f h), g, (up g k), p, q; split_and!; auto|]. split.
      * eapply (TW f h g k); eauto.
      * eapply (TW g k f h); eauto.
Qed.
End CEvent.

(* ---------- a site event ---------- *)
Section SEvent.
Context s (t : tree) (done : list nat) s' (t' : tree) (i : nat) (pi : rpt) (l : R).
Context (HI : Inv A s t done k0) (HP : p_xy <$> s_points s = pts) (HI' : Inv A s' t' (done ++ [i]) k0) (HT : site_trans A s t s' t' i pi).
Context (Hi : (PT i) = Some pi) (Hni : i ∉ done) (El : snd pi = l).
Context (HK : known s done) (HG : grows s t done) (G : drawn_ok l (Hs done) (hv s)) (G1 : single l (Hs done) (hv s)).
Context (HS : beach_ok l (Hs done) (ls s (inord t)) \/ row_ok l (Hs done) (ls s (inord t))).

Lemma new_site : pi ∉ Hs done.
Proof. intros H. apply elem_of_list_omap in H as (j & Hj & E). apply Hni. replace i with j; [done|]. eapply NoDup_lookup; [exact ND|exact E|exact Hi]. Qed.

Lemma site_vor : known s' (done ++ [i]) /\ grows s' t' (done ++ [i]) /\ drawn_ok l (Hs (done ++ [i])) (hv s') /\ single l (Hs (done ++ [i])) (hv s').
Proof.
  pose proof HT as (L1 & above & L2 & j & pj & mid & evs & EL & Hj & Hpj & Hfd & EL' & _ & _ & _ & _ & _ & _ & _ & Hmid & Ev & _ & HLen & HEd & _ & (x1 & x2 & Eh) & Dold & D1 & D3 & _).
  rewrite (pxy_pts A pts s j HP) in Hpj.
  destruct (st_site pts corners s t done HI HP above j) as (Pj & HPj & Ij); [rewrite EL, elem_of_app, elem_of_cons; tauto|done|].
  assert (Pj = pj) as -> by congruence. clear HPj.
  destruct (inv_site _ _ _ _ _ above j HI) as [Dj _]; [rewrite EL, elem_of_app, elem_of_cons; tauto|done|].
  set (n := length (s_hedges s)) in *.
  set (h1 := mkHedge (OBp x1) (Some i) (Some (n + 1)%nat) None None) in *. set (h2 := mkHedge (OBp x2) (Some j) (Some (n + 0)%nat) None None) in *.
  assert (N1 : s_hedges s' !! n = Some h1) by (rewrite Eh; by apply list_lookup_middle).
  assert (N2 : s_hedges s' !! S n = Some h2). { rewrite Eh, lookup_app_r by (unfold n; lia). fold n. by replace (S n - n)%nat with 1%nat by lia. }
  assert (OLD : forall f h, s_hedges s !! f = Some h -> s_hedges s' !! f = Some h) by (intros f h Hf; rewrite Eh; by apply lookup_app_l_Some).
  assert (CASES : forall f h, s_hedges s' !! f = Some h -> s_hedges s !! f = Some h \/ (f = n /\ h = h1) \/ (f = S n /\ h = h2)).
  { intros f h Hf. rewrite Eh in Hf. exact (look_2 _ _ _ _ _ Hf). }
  assert (ST : forall h, start s' h = start s h) by (intros h; unfold start; by rewrite Ev).
  assert (TWIN : forall f h, s_hedges s !! f = Some h -> exists g k, h_twin h = Some g /\ s_hedges s !! g = Some k).
  { intros f h Hf. destruct (d_twin _ _ _ _ _ _ _ _ (i_dcel _ _ _ _ _ HI) f h Hf) as (g & k & _ & _ & X1 & _ & X3 & _). eauto. }
  assert (HK' : known s' (done ++ [i])).
  { intros f h p Hf Hp. rewrite elem_of_app, elem_of_list_singleton. destruct (CASES f h Hf) as [H0|[(-> & ->)|(-> & ->)]].
    - left. exact (HK f h p H0 Hp).
    - right. simpl in Hp. congruence.
    - left. simpl in Hp. injection Hp as <-. exact Dj. }
  split; [exact HK'|]. split.
  - intros f h bb Hf Ho. destruct (CASES f h Hf) as [H0|[(-> & ->)|(-> & ->)]].
    + destruct (HG f h bb H0 Ho) as [(m & Hm & Dm)|(g & k & p & q & P & Q & X1 & X2 & X3 & X4 & X5 & X6 & X7 & X8 & X9 & X10)].
      * left. exists m. assert (Hm' : m ∈ L1 ++ L2).
        { rewrite EL, elem_of_app, elem_of_cons in Hm. rewrite elem_of_app. destruct Hm as [Hm|[->|Hm]]; [by left| |by right]. exfalso. by apply (site_not_drawn s above j f). }
        split; [|rewrite (Dold m Hm'); exact Dm]. rewrite EL'. rewrite elem_of_app in Hm'. rewrite !elem_of_app. tauto.
      * right. exists g, k, p, q, P, Q. split; [done|]. split; [by apply OLD|]. do 6 (split; [done|]).
        assert (IP : P ∈ Hs done) by (apply elem_of_list_omap; exists p; split; [exact (HK f h p H0 X3)|done]).
        split; [|rewrite HEd, not_elem_of_app, elem_of_list_singleton; split; [exact X10|]; apply lookup_lt_Some in H0; fold n; fold n in H0; lia].
        intros r Hr. rewrite (Hs_app pts done i pi Hi) in Hr. apply elem_of_app in Hr as [Hr|Hr%elem_of_list_singleton]; [by apply X9|]. rewrite Hr, El.
        destruct HS as [BO|RO]; [by apply (b_above _ _ _ BO)|pose proof (r_lev _ _ _ RO P IP) as E1; change (D A) with R in *; lra].
    + left. assert (exists m, mid !! 1%nat = Some m) as [m Hm].
      { destruct (does_intersect A pi pj); [destruct Hmid as (? & ? & ? & ? & ? & -> & _)|destruct Hmid as (? & ? & ? & -> & _)]; simpl; eauto. }
      destruct (D1 m Hm) as [Dm _]. exists m. split; [rewrite EL', !elem_of_app; right; left; by eapply elem_of_list_lookup_2|]. rewrite Dm. f_equal. lia.
    + destruct (does_intersect A pi pj) eqn:DI.
      * left. destruct Hmid as (m1 & m2 & m3 & m4 & m5 & -> & _). destruct (D3 m4 eq_refl) as [Dm _]. exists m4.
        split; [rewrite EL', !elem_of_app, !elem_of_cons; tauto|]. rewrite Dm. f_equal. lia.
      * right. exists n, h1, j, i, pj, pi. unfold h2. simpl. rewrite Nat.add_0_r. do 6 (split; [done|]).
        unfold does_intersect in DI. apply negb_false_iff, andb_true_iff in DI as [DI1 DI2]. apply Reqb_true in DI1. apply Rltb_true in DI2. split; [symmetry; exact DI1|]. split; [exact DI2|].
        split. 2:{ rewrite HEd, not_elem_of_app, elem_of_list_singleton. fold n. split; [|lia]. intros X. destruct (d_edges _ _ _ _ _ _ _ _ (i_dcel _ _ _ _ _ HI)) as (_ & E2 & _). specialize (E2 _ X). change (S n < n)%nat in E2. lia. }
        intros r Hr. rewrite (Hs_app pts done i pi Hi) in Hr. apply elem_of_app in Hr as [Hr|Hr%elem_of_list_singleton]; [|rewrite Hr; apply Req_le; exact DI1].
        destruct HS as [BO|RO]; [|pose proof (r_lev _ _ _ RO r Hr) as E1; pose proof (r_lev _ _ _ RO pj Ij) as E2; change (D A) with R in *; lra]. exfalso.
        assert (HU : under (ls s (inord t)) l (length (ls s L1)) pj (fst pi)).
        { eapply (st_under pts corners s t done HI HP l (fst pi) L1 above L2 j pj); eauto. rewrite <- El. exact Hfd. }
        assert (ELs : ls s (inord t) = ls s L1 ++ pj :: ls s L2) by (rewrite EL, (ls_app pts), (ls_site pts _ _ _ _ _ Hj Hpj); done).
        rewrite ELs in BO, HU. pose proof (a_above l (Hs done) (ls s L1) (ls s L2) pj pi BO El new_site HU) as La. change (D A) with R in *. lra.
  - assert (HVO : forall f P Q o w, hv s f P Q o w -> hv s' f P Q o w).
    { intros f P Q o w (h & g & k & p & q & X1 & X2 & X3 & X4 & X5 & X6 & X7 & -> & ->). exists h, g, k, p, q. rewrite !ST. split_and!; auto. }
    assert (HVN : hv s' n pi pj None None).
    { exists h1, (S n), h2, i, j. split; [done|]. split; [unfold h1; simpl; f_equal; lia|]. auto 12. }
    assert (HVC : forall f P Q o w, hv s' f P Q o w -> hv s f P Q o w \/ (o = None /\ w = None /\ ((f = n /\ P = pi /\ Q = pj) \/ (f = S n /\ P = pj /\ Q = pi)))).
    { intros f P Q o w (h & g & k & p & q & X1 & X2 & X3 & X4 & X5 & X6 & X7 & -> & ->). destruct (CASES f h X1) as [H0|[(-> & ->)|(-> & ->)]].
      - left. destruct (TWIN f h H0) as (g' & k' & T1 & T2). assert (g' = g) as -> by congruence. pose proof (OLD g k' T2). assert (k' = k) as -> by congruence.
        exists h, g, k, p, q. rewrite !ST. auto 12.
      - right. unfold h1 in X2. simpl in X2. injection X2 as <-. replace (n + 1)%nat with (S n) in X3 by lia. assert (k = h2) as -> by congruence. simpl in X4, X5.
        split; [done|]. split; [done|]. left. split_and!; congruence.
      - right. unfold h2 in X2. simpl in X2. injection X2 as <-. rewrite Nat.add_0_r in X3. assert (k = h1) as -> by congruence. simpl in X4, X5.
        split; [done|]. split; [done|]. right. split_and!; congruence. }
    assert (HVC' : forall f P Q o w, hv s' f P Q o w -> hv s f P Q o w \/ (o = None /\ w = None /\ ((P = pi /\ Q = pj) \/ (P = pj /\ Q = pi)))).
    { intros f P Q o w Hf. destruct (HVC f P Q o w Hf) as [X|(X1 & X2 & X3)]; [by left|right; tauto]. }
    pose proof (hv_wf s' t' (done ++ [i]) HI' HK') as WF'. split.
    2:{ rewrite (Hs_app pts done i pi Hi). apply (single_site l (Hs done) pj pi (hv s) (hv s') n (S n)); auto using new_site.
      - by apply (hv_wf s t done HI).
      - intros f P Q o w Hf. destruct (HVC f P Q o w Hf) as [X|(X1 & X2 & X3)]; [by left|right; tauto]. }
    rewrite (Hs_app pts done i pi Hi) in *.
    destruct HS as [BO|R].
    + assert (HU : under (ls s (inord t)) l (length (ls s L1)) pj (fst pi)).
      { eapply (st_under pts corners s t done HI HP l (fst pi) L1 above L2 j pj); eauto. rewrite <- El. exact Hfd. }
      assert (ELs : ls s (inord t) = ls s L1 ++ pj :: ls s L2) by (rewrite EL, (ls_app pts), (ls_site pts _ _ _ _ _ Hj Hpj); done).
      assert (La : l < snd pj). { pose proof BO as BO'. pose proof HU as HU'. rewrite ELs in BO', HU'. exact (a_above l (Hs done) (ls s L1) (ls s L2) pj pi BO' El new_site HU'). }
      apply (site_drawn l (Hs done) (ls s (inord t)) (length (ls s L1)) pj pi (hv s) (hv s')); auto using new_site.
      exists n. exact HVN.
    + apply row_drawn; auto.
      * intros p Hp. apply elem_of_app in Hp as [Hp|Hp%elem_of_list_singleton]; [exact (r_lev _ _ _ R p Hp)|]. rewrite Hp. exact El.
      * intros f P Q y w He. destruct (HVC' _ _ _ _ _ He) as [H0|(X & _)]; [|done].
        destruct (g_vert _ _ _ G f P Q y w H0) as (V1 & V2 & V3). destruct (hv_wf s t done HI HK f P Q (Some y) w H0) as (I1 & I2 & N & _).
        apply (row_none l P Q y); auto; by apply (r_lev _ _ _ R).
Qed.
End SEvent.

(* ---------- every state of a run ---------- *)
Definition vor s (t : tree) (done : list nat) : Prop := known s done /\ grows s t done /\ forall l, s_sweep s = Some l -> drawn_ok l (Hs done) (hv s) /\ single l (Hs done) (hv s).

Lemma reach_vor s t done hist : reach A pts corners s t done hist -> vor s t done.
Proof.
  induction 1 as [s it q p m s' Hst Hpop Hev HI Hm HF Hq Hvs Hve Hce
    |s t done hist it q k e HR IH Hpop Hev Hk Hv HI
    |s t done hist it q k e s' t' HR IH Hpop Hev Hit Hk Hv Hl HI0 HT HF HI
    |s t done hist it q p pi s' t' HR IH Hpop Hev Hit Hp Hpi HI0 HI1 HT HF HI].
  - assert (E : s_hedges s' = []).
    { pose proof (i_count _ _ _ _ _ HI) as C. rewrite Hvs in C. simpl in C. pose proof (d_half _ _ _ _ _ _ _ _ (i_dcel _ _ _ _ _ HI)) as D.
      apply length_zero_iff_nil. change (s_hedges s') with (s_hedges s') in D. lia. }
    assert (EE : s_hedges (ended A it s') = []) by exact E.
    assert (NH : forall e h, s_hedges (ended A it s') !! e = Some h -> False) by (intros e h X; rewrite EE in X; done).
    split; [intros e h p' X; destruct (NH _ _ X)|]. split; [intros e h b X; destruct (NH _ _ X)|].
    intros l Hsw. pose proof Hst as (q0 & Es & HP0 & Hh).
    destruct (heappop_spec _ (event_swo A RArith_order) (s_queue s) it q) as (HPq & _ & Hmin); [by subst s|done|].
    destruct (start_queue A pts corners s it Hst) as (p' & xy & Hxy & Eit); [rewrite <- HPq; left|].
    assert (p' = p) as -> by (rewrite Eit in Hev; simpl in Hev; congruence).
    assert (E1 : Hs [p] = [xy]) by (unfold SweepReal.Hs; simpl; by rewrite Hxy). rewrite E1.
    split; [|intros e e' p1 q1 o w o' w' z X; destruct X as (h & ? & ? & ? & ? & X & _); destruct (NH _ _ X)].
    split; try (intros; exfalso; match goal with X : hv _ _ _ _ _ _ |- _ => destruct X as (h & ? & ? & ? & ? & X & _); exact (NH _ _ X) end).
    intros P Q z HP HQ N. apply elem_of_list_singleton in HP, HQ. congruence.
  - exact IH.
  - destruct IH as (HK & HG & IH). pose proof (reach_facts A pts corners RArith_order _ _ _ _ HR) as F.
    pose proof (f_inv _ _ _ _ _ _ _ F) as HIs. pose proof (f_pts _ _ _ _ _ _ _ F) as HPs.
    destruct (reach_geo pts corners ND _ _ _ _ HR) as (l & Hsw & HB & HS). destruct (IH l Hsw) as [IH0 IH1].
    destruct (live_cw pts corners s t done HIs HPs k e Hl) as (i & Hi & C).
    destruct HS as [R|(BO & H1 & H2)]; [by apply (row_no_cw _ _ _ _ _ _ R) in C|].
    pose proof (pop_beach pts corners s t done it q l HIs HPs Hpop HB BO H1) as BO'.
    pose proof (pop_le corners s t done it q l HIs Hpop HB) as Hle.
    assert (Ey : i_y it = c_y e - c_r e) by (rewrite Hit; done).
    assert (G : drawn_ok (i_y it) (Hs done) (hv s)).
    { apply (vor_down s t done HIs HPs l (i_y it)); auto; [right; done|]. apply (pop_pend pts corners s t done it q HIs HPs Hpop). }
    assert (G1 : single (i_y it) (Hs done) (hv s)).
    { apply (vor_single s t done HIs HPs l (i_y it)); auto; [right; done|]. apply (pop_pend pts corners s t done it q HIs HPs Hpop). }
    set (s1 := started A it (set_queue q s)) in *.
    assert (HI1 : Inv A s1 t done k0) by (by apply inv_started).
    destruct (circle_vor s1 t done s' t' e (i_y it) HI1 HPs HT HK HG BO' G G1) as (X1 & X2 & X3).
    + exists i. split; [exact Hi|]. rewrite Ey. exact C.
    + split; [exact X1|]. split; [exact X2|]. intros l' Hl'. change (s_sweep s' = Some l') in Hl'. destruct HF as (HF & _). rewrite HF in Hl'. injection Hl' as <-. exact X3.
  - destruct IH as (HK & HG & IH). pose proof (reach_facts A pts corners RArith_order _ _ _ _ HR) as F.
    pose proof (f_inv _ _ _ _ _ _ _ F) as HIs. pose proof (f_pts _ _ _ _ _ _ _ F) as HPs.
    destruct (reach_geo pts corners ND _ _ _ _ HR) as (l & Hsw & HB & HS). destruct (IH l Hsw) as [IH0 IH1].
    pose proof (pop_le corners s t done it q l HIs Hpop HB) as Hle.
    assert (Ey : i_y it = snd pi) by (rewrite Hit; done).
    assert (G : drawn_ok (i_y it) (Hs done) (hv s)).
    { apply (vor_down s t done HIs HPs l (i_y it)); auto. apply (pop_pend pts corners s t done it q HIs HPs Hpop). }
    assert (G1 : single (i_y it) (Hs done) (hv s)).
    { apply (vor_single s t done HIs HPs l (i_y it)); auto. apply (pop_pend pts corners s t done it q HIs HPs Hpop). }
    assert (HS' : beach_ok (i_y it) (Hs done) (ls s (inord t)) \/ row_ok (i_y it) (Hs done) (ls s (inord t))).
    { destruct HS as [R|(BO & H1 & H2)].
      - destruct (Rle_lt_or_eq_dec _ _ Hle) as [Hlt|Heq]; [left; by apply (row_down l)|right; by rewrite Heq].
      - left. exact (pop_beach pts corners s t done it q l HIs HPs Hpop HB BO H1). }
    set (s1 := started A it (named A p (length done) (set_queue q s))) in *.
    assert (HPs1 : p_xy <$> s_points s1 = pts). { change (s_points s1) with (s_points (named A p (length done) (set_queue q s))). rewrite named_pts. exact HPs. }
    destruct (site_vor s1 t done s' t' p pi (i_y it) HI1 HPs1 HI HT Hpi Hp (eq_sym Ey) HK HG G G1 HS') as (X1 & X2 & X3).
    split; [exact X1|]. split; [exact X2|]. intros l' Hl'. change (s_sweep s' = Some l') in Hl'. destruct HF as (HF & _). rewrite HF in Hl'. injection Hl' as <-. exact X3.
Qed.
End Vor.
