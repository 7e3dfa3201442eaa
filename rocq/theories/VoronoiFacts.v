(* VoronoiFacts.v -- the diagram of a finished sweep is the Voronoi diagram of the sites. *)
From stdpp Require Import base list sets.
From Coq Require Import ZArith Reals Lra Lia Psatz.
From Verif Require Import Arith Geom Monad Tree Heapq State Sweep HeapqProofs EventOrder TreeProofs TreeOps TreeSearch Beach
  SweepBase Dcel SweepInv SweepTrans SweepSite SweepCircle SweepLoop Spec SweepFacts RArith GeomReal AngleReal EdgeReal Envelope EnvelopeEvents EnvelopeRow FinishFacts
  SweepReal SweepRealStep SweepRealLoop SweepRealFacts VoronoiGeom VoronoiStep VoronoiUnique Voronoi SpecVoronoi.
Local Open Scope R_scope.

(* ---------- a half-edge as a set of points ---------- *)
Lemma turned_dir p q : turned p q = dir p q.
Proof. destruct p, q. unfold turned, dir; cbn [fst snd]. f_equal; lra. Qed.
Lemma walk_move z t u : walk z t u = move z t u. Proof. done. Qed.
Lemma middle_equi p q : dist2 p (middle p q) = dist2 q (middle p q).
Proof. destruct p, q. unfold dist2, middle; cbn [fst snd]. field. Qed.
Lemma move_0 z u : move z 0 u = z.
Proof. destruct z. unfold move; cbn [fst snd]. f_equal; ring. Qed.
Lemma move_part y p q b t : move y (t * b) (dir p q) = walk y t (fst (move y b (dir p q)) - fst y, snd (move y b (dir p q)) - snd y).
Proof. destruct y, p, q. unfold move, walk, dir; cbn [fst snd]. f_equal; ring. Qed.

Section Shape.
Context (p q : rpt) (N : p <> q).
Lemma on_both y w z : dist2 p y = dist2 q y -> dist2 p w = dist2 q w -> 0 <= ahead p q y w ->
  (on p q (Some y) (Some w) z <-> exists t, 0 <= t <= 1 /\ z = walk y t (fst w - fst y, snd w - snd y)).
Proof.
  intros Ey Ew Ha. destruct (same_line p q y w N Ey Ew) as [b ->]. rewrite ahead_move in Ha. pose proof (dist2_pos p q N) as D.
  assert (B : 0 <= b) by nra. split.
  - intros (E & H1 & H2). specialize (H1 y eq_refl). specialize (H2 _ eq_refl). destruct (same_line p q y z N Ey E) as [a ->].
    rewrite ahead_move in H1. assert (X : ahead p q (move y b (dir p q)) (move y a (dir p q)) = (a - b) * dist2 p q).
    { destruct y, p, q. unfold ahead, move, dir, dist2; cbn [fst snd]. ring. }
    rewrite X in H2. assert (A0 : 0 <= a) by nra. assert (A1 : a <= b) by nra.
    destruct (Req_dec b 0) as [->|Nb].
    + exists 0. split; [lra|]. assert (a = 0) as -> by lra. rewrite move_0. unfold walk. destruct y; cbn [fst snd]. f_equal; ring.
    + exists (a / b). assert (B' : 0 < b) by lra. split.
      * split; [apply Rmult_le_pos; [done|]; left; by apply Rinv_0_lt_compat|]. apply (Rmult_le_reg_r b); [done|]. unfold Rdiv. rewrite Rmult_assoc, Rinv_l by lra. lra.
      * rewrite <- move_part. f_equal. field. lra.
  - intros (t & Ht & ->). rewrite <- move_part. split; [by apply equi_move|]. split; intros u [= <-].
    + rewrite ahead_move. apply Rmult_le_pos; [|lra]. apply Rmult_le_pos; lra.
    + assert (X : ahead p q (move y b (dir p q)) (move y (t * b) (dir p q)) = - ((1 - t) * b * dist2 p q)).
      { destruct y, p, q. unfold ahead, move, dir, dist2; cbn [fst snd]. ring. }
      rewrite X. assert (0 <= (1 - t) * b * dist2 p q); [|lra]. apply Rmult_le_pos; [|lra]. apply Rmult_le_pos; lra.
Qed.
Lemma on_start y z : dist2 p y = dist2 q y -> (on p q (Some y) None z <-> exists t, 0 <= t /\ z = walk y t (turned p q)).
Proof.
  intros Ey. rewrite turned_dir. pose proof (dist2_pos p q N) as D. split.
  - intros (E & H1 & _). destruct (same_line p q y z N Ey E) as [a ->]. specialize (H1 y eq_refl). rewrite ahead_move in H1. exists a. split; [nra|done].
  - intros (t & Ht & ->). split; [by apply equi_move|]. split; [|done]. intros u [= <-]. rewrite walk_move, ahead_move. apply Rmult_le_pos; lra.
Qed.
Lemma on_line z : on p q None None z <-> exists t, z = walk (middle p q) t (turned p q).
Proof.
  rewrite turned_dir. split.
  - intros (E & _). destruct (same_line p q (middle p q) z N (middle_equi p q) E) as [a ->]. by exists a.
  - intros (t & ->). split; [|done]. apply equi_move, middle_equi.
Qed.
End Shape.
Lemma on_end p q w z : p <> q -> dist2 p w = dist2 q w -> (on p q None (Some w) z <-> exists t, 0 <= t /\ z = walk w t (turned q p)).
Proof.
  intros N E. rewrite <- (on_start q p ltac:(congruence) w z) by congruence. split; apply on_sym.
Qed.

(* ---------- the end of the sweep ---------- *)
Section Final.
Context (pts corners : list (pt RArith)) (ND : NoDup pts).
Notation A := RArith.
Notation St := (state A).
Implicit Types s : St.
Notation k0 := (length corners).
Local Notation PT p := (@lookup nat (pt RArith) (list (pt RArith)) (@list_lookup (pt RArith)) p pts) (only parsing).
Notation TO := RArith_order.
Notation MO := (RArith_mid (fst <$> pts)).
Notation CC := RArith_circle.
Notation hv := (hv pts).

(* [s]: no event is left *)
Definition over s : Prop := (s_queue s = [] /\ exists t done hist, reach A pts corners s t done hist) \/ pts = [] /\ s_hedges s = [] /\ s_vset s = [].

Lemma swept_over s idx hist : swept A pts corners s idx hist -> over s.
Proof.
  intros [HR Hq]. destruct (runs_reach A pts corners TO MO CC _ _ _ HR) as [(Hok & _ & _)|(t & dn & HR' & _)].
  - right. destruct Hok as (q & -> & Hp & _). simpl in *. subst q. apply Permutation_nil in Hp. destruct pts as [|x l]; [|discriminate Hp]. done.
  - left. split; [done|]. eauto.
Qed.

Section Over.
Context s (HO : over s).
Lemma over_facts : pts <> [] -> exists t done l, Inv A s t done k0 /\ p_xy <$> s_points s = pts /\ known s done /\ (forall P, P ∈ pts <-> P ∈ SweepReal.Hs pts done) /\
  drawn_ok l (SweepReal.Hs pts done) (hv s) /\ forall l', l' <= l -> drawn_ok l' (SweepReal.Hs pts done) (hv s) /\ single l' (SweepReal.Hs pts done) (hv s).
Proof.
  intros HN. destruct HO as [(Hq & t & dn & hist & HR)|(X & _)]; [|done].
  pose proof (reach_facts A pts corners TO _ _ _ _ HR) as F. pose proof (f_inv _ _ _ _ _ _ _ F) as HI. pose proof (f_pts _ _ _ _ _ _ _ F) as HP.
  destruct (reach_geo pts corners ND _ _ _ _ HR) as (l & Hsw & HB & HS). destruct (reach_vor pts corners ND _ _ _ _ HR) as (HK & HG & HV). destruct (HV l Hsw) as [HV0 HV1].
  exists t, dn, l. split; [done|]. split; [done|]. split; [done|]. split; [|split; [done|]].
  - intros P. unfold SweepReal.Hs. rewrite elem_of_list_omap. split.
    + intros HPin. apply elem_of_list_lookup in HPin as [p Hp]. exists p. split; [|done].
      destruct (f_all _ _ _ _ _ _ _ F p) as [|(it & Hit & _)]; [by eapply lookup_lt_Some|done|]. rewrite Hq in Hit. by apply elem_of_nil in Hit.
    + intros (p & _ & Hp). by eapply elem_of_list_lookup_2.
  - assert (NP : forall l' j z B, pend s t j -> cw (SweepReal.ls pts s (inord t)) j z B -> B <= l').
    { intros l' j z B (k & e & ((it & Hit & _) & _) & _). rewrite Hq in Hit. by apply elem_of_nil in Hit. }
    intros l' Hl'. split; [by apply (vor_down pts corners ND s t dn HI HP l l'); auto; apply NP|by apply (vor_single pts corners ND s t dn HI HP l l'); auto; apply NP].
Qed.
(* every point is above the beach line once the sweep line is low enough *)
Lemma low_enough p z l : exists l', l' <= l /\ l' < snd z /\ out p l' z <= 0.
Proof.
  set (d := dist2 p z). pose proof (dist2_nonneg p z) as D. fold d in D.
  set (l' := Rmin l (snd z - (d + 1))). assert (L1 : l' <= l) by apply Rmin_l. assert (L2 : l' <= snd z - (d + 1)) by apply Rmin_r.
  exists l'. split; [done|]. split; [lra|]. unfold out. fold d. assert ((d + 1) * (d + 1) <= (snd z - l') * (snd z - l')) by (apply Rmult_le_compat; lra). nra.
Qed.
Lemma over_sound e P Q o w z : hv s e P Q o w -> on P Q o w z -> forall r, r ∈ pts -> dist2 P z <= dist2 r z.
Proof.
  intros He Hon r Hr. destruct over_facts as (t & dn & l & HI & HP & HK & HS & _ & HV); [intros X; rewrite X in Hr; by apply elem_of_nil in Hr|].
  destruct (low_enough P z l) as (l' & L1 & L2 & L3). apply (g_sound _ _ _ (proj1 (HV l' L1)) e P Q o w z He Hon L2 L3). by apply HS.
Qed.
Lemma over_complete P Q z : P ∈ pts -> Q ∈ pts -> P <> Q -> dist2 P z = dist2 Q z -> (forall r, r ∈ pts -> dist2 P z <= dist2 r z) ->
  exists e P' Q' o w, hv s e P' Q' o w /\ on P' Q' o w z /\ dist2 P' z = dist2 P z.
Proof.
  intros HPi HQi N E HM. destruct over_facts as (t & dn & l & HI & HP & HK & HS & _ & HV); [intros X; rewrite X in HPi; by apply elem_of_nil in HPi|].
  destruct (low_enough P z l) as (l' & L1 & L2 & L3). apply (g_complete _ _ _ (proj1 (HV l' L1)) P Q z); auto; [by apply HS|by apply HS|]. intros r Hr. by apply HM, HS.
Qed.
Lemma over_single e e' P Q o w o' w' z : hv s e P Q o w -> hv s e' P Q o' w' -> on P Q o w z -> on P Q o' w' z ->
  (forall r : rpt, r ∈ pts -> dist2 r z <= dist2 P z -> r = P \/ r = Q) -> e = e'.
Proof.
  intros He He' On On' HU. destruct over_facts as (t & dn & l & HI & HP & HK & HS & _ & HV).
  { destruct He as (h & f & g & p & q & _ & _ & _ & _ & _ & X & _). intros Y. rewrite Y in X. done. }
  destruct (low_enough P z l) as (l' & L1 & L2 & L3). apply (proj2 (HV l' L1) e e' P Q o w o' w' z He He' On On' L2 L3). intros r Hr. by apply HU, HS.
Qed.
Lemma hv_pts e P Q o w : hv s e P Q o w -> P ∈ pts /\ Q ∈ pts.
Proof. intros (h & f & g & p & q & _ & _ & _ & _ & _ & X & Y & _). split; by eapply elem_of_list_lookup_2. Qed.
Lemma hv_over e P Q o w : hv s e P Q o w -> P <> Q /\ (forall y, o = Some y -> dist2 P y = dist2 Q y) /\ (forall y, w = Some y -> dist2 P y = dist2 Q y) /\
  (forall y y', o = Some y -> w = Some y' -> 0 <= ahead P Q y y').
Proof.
  intros He. destruct over_facts as (t & dn & l & HI & HP & HK & HS & HV & _).
  { destruct (hv_pts _ _ _ _ _ He) as [X _]. intros Y. rewrite Y in X. by apply elem_of_nil in X. }
  destruct (hv_wf pts corners ND s t dn HI HK e P Q o w He) as (_ & _ & N & f & Hf). split; [done|]. split; [|split].
  - intros y ->. apply (g_vert _ _ _ HV _ _ _ _ _ He).
  - intros y ->. symmetry. apply (g_vert _ _ _ HV _ _ _ _ _ Hf).
  - intros y y' -> ->. apply (g_order _ _ _ HV _ _ _ _ _ He).
Qed.
Lemma start_origin e h y : s_hedges s !! e = Some h -> (start s h = Some y <-> origin_at s e y).
Proof.
  intros He. unfold origin_at, starts_at, located, half, start. split.
  - destruct (h_origin h) as [b|v] eqn:Ho; [done|]. destruct (s_verts s !! v) as [w|] eqn:Hw; [|done]. intros Hy. exists v. split; [by exists h|]. by exists w.
  - intros (v & (h' & H1 & H2) & w & H3 & H4). assert (h' = h) as -> by congruence. rewrite H2, H3. done.
Qed.
Lemma start_no e h : s_hedges s !! e = Some h -> (start s h = None <-> no_origin s e).
Proof.
  intros He. split.
  - intros Hn v (h' & H1 & H2). unfold half in H1. assert (h' = h) as -> by congruence.
    destruct over_facts as (t & dn & l & HI & HP & HK & _).
    { intros E. destruct HO as [(_ & t & dn & hist & HR)|(_ & X & _)]; [|rewrite X in He; done].
      pose proof (reach_facts A pts corners TO _ _ _ _ HR) as F. pose proof (f_done _ _ _ _ _ _ _ F) as D. destruct dn as [|p dn]; [done|].
      pose proof (facts_lt A pts corners _ _ _ _ p F ltac:(left)) as Lt. rewrite E in Lt. simpl in Lt. lia. }
    destruct (start_vert corners s t dn HI e h v He H2) as (_ & y & Hy). congruence.
  - intros Hn. unfold start. destruct (h_origin h) as [b|v] eqn:Ho; [done|]. exfalso. apply (Hn v). exists h. done.
Qed.

(* the points of an edge *)
Lemma edge_point_hv e f p q z : edge_point pts s e f p q z <->
  exists P Q o w, hv s e P Q o w /\ on P Q o w z /\ twin A s e = Some f /\ borders_site A s e = Some p /\ borders_site A s f = Some q /\ (PT p) = Some P /\ (PT q) = Some Q.
Proof.
  split.
  - intros (Ht & Hp & Hq & P & Q & EP & EQ & HC). unfold twin, borders_site, half in *.
    destruct (s_hedges s !! e) as [h|] eqn:He; [|done]. destruct (s_hedges s !! f) as [g|] eqn:Hf; [|done]. simpl in Ht, Hp, Hq.
    assert (HV : hv s e P Q (start s h) (start s g)) by (exists h, f, g, p, q; auto 12).
    exists P, Q, (start s h), (start s g). split; [done|]. split; [|simpl; auto 12].
    destruct (hv_over _ _ _ _ _ HV) as (N & O1 & O2 & O3).
    destruct HC as [(y & w & t & X & Y & Z)|[(y & t & X & Y & Z)|[(w & t & X & Y & Z)|(t & X & Y & Z)]]].
    + apply (start_origin e h y He) in X. apply (start_origin f g w Hf) in Y. rewrite X, Y in *. apply on_both; auto. eauto.
    + apply (start_origin e h y He) in X. apply (start_no f g Hf) in Y. rewrite X, Y in *. apply on_start; auto. eauto.
    + apply (start_no e h He) in X. apply (start_origin f g w Hf) in Y. rewrite X, Y in *. apply on_end; auto. eauto.
    + apply (start_no e h He) in X. apply (start_no f g Hf) in Y. rewrite X, Y in *. apply on_line; auto. eauto.
  - intros (P & Q & o & w & HV & Hon & Ht & Hp & Hq & EP & EQ). split; [done|]. split; [done|]. split; [done|]. exists P, Q. split; [done|]. split; [done|].
    destruct (hv_over _ _ _ _ _ HV) as (N & O1 & O2 & O3). destruct HV as (h & f' & g & p' & q' & He & Hf & Hg & _ & _ & _ & _ & -> & ->).
    unfold twin, borders_site, half in *. rewrite He in *. simpl in Ht. assert (f' = f) as -> by congruence.
    destruct (start s h) as [y|] eqn:Sh; destruct (start s g) as [w|] eqn:Sg.
    + left. apply on_both in Hon as (t & Ht' & Z); auto. exists y, w, t. split; [by apply (start_origin e h)|]. split; [by apply (start_origin f g)|]. done.
    + right. left. apply on_start in Hon as (t & Ht' & Z); auto. exists y, t. split; [by apply (start_origin e h)|]. split; [by apply (start_no f g)|]. done.
    + right. right. left. apply on_end in Hon as (t & Ht' & Z); auto. exists w, t. split; [by apply (start_no e h)|]. split; [by apply (start_origin f g)|]. done.
    + right. right. right. apply on_line in Hon as (t & Z); auto. exists t. split; [by apply (start_no e h)|]. split; [by apply (start_no f g)|]. done.
Qed.

Theorem edge_nearest e f p q z : edge_point pts s e f p q z -> nearest pts p z /\ nearest pts q z.
Proof.
  intros HE. apply edge_point_hv in HE as (P & Q & o & w & HV & Hon & _ & _ & _ & EP & EQ). pose proof (over_sound _ _ _ _ _ _ HV Hon) as HM. destruct Hon as (E & _).
  split; [exists P|exists Q]; (split; [done|]); intros r Hr; [|rewrite <- E]; by apply HM.
Qed.
Theorem nearest_edge p q z : p <> q -> nearest pts p z -> nearest pts q z -> exists e f p' q', p' <> q' /\ edge_point pts s e f p' q' z.
Proof.
  intros N (P & EP & HMP) (Q & EQ & HMQ). assert (IP : P ∈ pts) by (by eapply elem_of_list_lookup_2). assert (IQ : Q ∈ pts) by (by eapply elem_of_list_lookup_2).
  destruct (over_complete P Q z IP IQ) as (e & P' & Q' & o & w & HV & Hon & E); auto.
  - intros ->. apply N. eapply NoDup_lookup; [exact ND|exact EP|exact EQ].
  - apply Rle_antisym; auto.
  - pose proof HV as (h & f & g & p' & q' & H1 & H2 & H3 & H4 & H5 & H6 & H7 & _). exists e, f, p', q'. split.
    + intros ->. destruct (hv_over _ _ _ _ _ HV) as (N' & _). apply N'. congruence.
    + apply edge_point_hv. exists P', Q', o, w. unfold twin, borders_site, half. rewrite H1. simpl. rewrite H2, H3. simpl. auto 12.
Qed.
Lemma edge_point_swap e f p q z : edge_point pts s e f p q z -> edge_point pts s f e q p z.
Proof.
  intros HE. pose proof HE as (Ht & _). apply edge_point_hv in HE as (P & Q & o & w & HV & Hon & X1 & X2 & X3 & EP & EQ). apply edge_point_hv. exists Q, P, w, o.
  assert (TW : hv s f Q P w o /\ twin A s f = Some e).
  { destruct over_facts as (t & dn & l & HI & HP & HK & _). { intros Y. destruct (hv_pts _ _ _ _ _ HV) as [X _]. rewrite Y in X. by apply elem_of_nil in X. }
    destruct HV as (h & f' & g & p' & q' & H1 & H2 & H3 & H4 & H5 & H6 & H7 & H8). unfold twin, half in Ht. rewrite H1 in Ht. simpl in Ht. assert (f' = f) as -> by congruence.
    destruct (d_twin _ _ _ _ _ _ _ _ (i_dcel _ _ _ _ _ HI) e h H1) as (f' & g' & _ & _ & Y1 & _ & Y3 & Y4 & _). assert (f' = f) as -> by congruence.
    change (s_hedges s !! f = Some g') in Y3. assert (g' = g) as -> by congruence. split; [exists g, e, h, q', p'; tauto|]. unfold twin, half. rewrite H3. exact Y4. }
  destruct TW as [TW1 TW2]. split; [done|]. split; [by apply on_sym|]. auto 10.
Qed.
(* when no third site is as near, the edge is the one between the two *)
Theorem pair_edge p q z : p <> q -> nearest pts p z -> nearest pts q z -> (forall r, nearest pts r z -> r = p \/ r = q) -> exists e f, edge_point pts s e f p q z.
Proof.
  intros N Hp Hq HU. destruct (nearest_edge p q z N Hp Hq) as (e & f & p' & q' & N' & HE). destruct (edge_nearest _ _ _ _ _ HE) as [H1 H2].
  destruct (HU _ H1) as [-> | ->]; destruct (HU _ H2) as [-> | ->]; try done; [by exists e, f|]. exists f, e. by apply edge_point_swap.
Qed.
(* and that edge is the only one *)
Theorem pair_single e f e' f' p q z : edge_point pts s e f p q z -> edge_point pts s e' f' p q z -> (forall r, nearest pts r z -> r = p \/ r = q) -> e = e' /\ f = f'.
Proof.
  intros H1 H2 HU. destruct (edge_nearest _ _ _ _ _ H1) as [N1 _].
  apply edge_point_hv in H1 as (P & Q & o & w & HV & On & T1 & _ & _ & EP & EQ). apply edge_point_hv in H2 as (P' & Q' & o' & w' & HV' & On' & T2 & _ & _ & EP' & EQ').
  pose proof (eq_trans (eq_sym EP) EP') as X. injection X as <-. pose proof (eq_trans (eq_sym EQ) EQ') as X. injection X as <-.
  assert (e = e') as <-; [|split; congruence]. apply (over_single e e' P Q o w o' w' z); auto.
  intros r Hr Hd. apply elem_of_list_lookup in Hr as [k Hk]. destruct N1 as (P1 & E1 & HM). pose proof (eq_trans (eq_sym EP) E1) as X. injection X as <-.
  destruct (HU k) as [-> | ->].
  - exists r. split; [done|]. intros Q0 HQ0. specialize (HM Q0 HQ0). lra.
  - left. pose proof (eq_trans (eq_sym Hk) EP) as X. by injection X.
  - right. pose proof (eq_trans (eq_sym Hk) EQ) as X. by injection X.
Qed.

(* ---------- vertices ---------- *)
Lemma third (P Q R P' Q' : rpt) : P <> Q -> Q <> R -> P <> R -> exists X, (X = P \/ X = Q \/ X = R) /\ X <> P' /\ X <> Q'.
Proof.
  intros H1 H2 H3. destruct (rpt_dec P P') as [->|A1].
  - destruct (rpt_dec Q Q') as [->|]; [exists R|exists Q]; intuition congruence.
  - destruct (rpt_dec P Q') as [->|]; [|exists P; tauto]. destruct (rpt_dec Q P') as [->|]; [exists R|exists Q]; intuition congruence.
Qed.
Theorem meeting_vertex a b c z : a <> b -> b <> c -> a <> c -> nearest pts a z -> nearest pts b z -> nearest pts c z ->
  exists v, v ∈ s_vset s /\ located A s v z.
Proof.
  intros Nab Nbc Nac (P & EP & HP) (Q & EQ & HQ) (R & ER & HR).
  assert (INJ : forall i j X Y, i <> j -> (PT i) = Some X -> (PT j) = Some Y -> X <> Y) by (intros i j X Y N E1 E2 ->; apply N; eapply NoDup_lookup; [exact ND|exact E1|exact E2]).
  pose proof (INJ _ _ _ _ Nab EP EQ) as NPQ. pose proof (INJ _ _ _ _ Nbc EQ ER) as NQR. pose proof (INJ _ _ _ _ Nac EP ER) as NPR.
  assert (IP : P ∈ pts) by (by eapply elem_of_list_lookup_2). assert (IQ : Q ∈ pts) by (by eapply elem_of_list_lookup_2). assert (IR : R ∈ pts) by (by eapply elem_of_list_lookup_2).
  assert (E1 : dist2 P z = dist2 Q z) by (apply Rle_antisym; auto). assert (E2 : dist2 P z = dist2 R z) by (apply Rle_antisym; auto).
  destruct (over_complete P Q z IP IQ NPQ E1 HP) as (e & P' & Q' & o & w & HV & Hon & E).
  destruct over_facts as (t & dn & l & HI & HPx & HK & _). { intros Y. rewrite Y in IP. by apply elem_of_nil in IP. }
  assert (VX : forall e h y, s_hedges s !! e = Some h -> start s h = Some y -> exists v, v ∈ s_vset s /\ located A s v y).
  { intros e0 h y He Hy. unfold start in Hy. destruct (h_origin h) as [b0|v] eqn:Ho; [done|]. destruct (s_verts s !! v) as [w0|] eqn:Hw; [|done].
    exists v. split; [|by exists w0]. apply (d_vert _ _ _ _ _ _ _ _ (i_dcel _ _ _ _ _ HI) e0 h v He Ho). }
  destruct (hv_over _ _ _ _ _ HV) as (N' & O1 & O2 & _). pose proof HV as (h & f & g & p' & q' & H1 & H2 & H3 & H4 & H5 & H6 & H7 & H8 & H9).
  destruct (Classical_Prop.classic (o = Some z)) as [Eo|No]; [apply (VX e h z H1); congruence|].
  destruct (Classical_Prop.classic (w = Some z)) as [Ew|Nw]; [apply (VX f g z H3); congruence|]. exfalso.
  destruct (third P Q R P' Q' NPQ NQR NPR) as (X & EX & X1 & X2).
  assert (IX : X ∈ pts) by (destruct EX as [-> |[-> | ->]]; done). assert (DX : dist2 X z = dist2 P' z) by (rewrite E; destruct EX as [-> |[-> | ->]]; congruence).
  pose proof Hon as (Eon & On1 & On2). pose proof (dist2_pos P' Q' N') as D.
  assert (C : cross3 P' Q' X <> 0).
  { apply (cocircular_cross P' Q' X z (sqrt (dist2 P' z))); try (rewrite sqrt_sqrt by apply dist2_nonneg); congruence. }
  (* a point of the edge on the side of X *)
  assert (exists u, on P' Q' o w (move z u (dir P' Q')) /\ u * cross3 P' Q' X < 0) as (u & Hu & Hc).
  { assert (AM : forall y u, ahead P' Q' y (move z u (dir P' Q')) = ahead P' Q' y z + u * dist2 P' Q').
    { intros y u. destruct y, z, P', Q'. unfold ahead, move, dir, dist2; cbn [fst snd]. ring. }
    destruct (Rle_lt_dec (cross3 P' Q' X) 0) as [Lc|Lc].
    - destruct w as [y|].
      + specialize (On2 y eq_refl). assert (NZ : ahead P' Q' y z <> 0). { intros Z. apply (ahead_zero P' Q' y z N' (O2 y eq_refl) Eon) in Z. congruence. }
        exists (- ahead P' Q' y z / dist2 P' Q'). assert (U : 0 < - ahead P' Q' y z / dist2 P' Q') by (apply Rdiv_lt_0_compat; lra). split; [|nra].
        split; [by apply equi_move|]. split.
        * intros y' Hy'. rewrite AM. specialize (On1 y' Hy'). nra.
        * intros y' [= <-]. rewrite AM. replace (- ahead P' Q' y z / dist2 P' Q' * dist2 P' Q') with (- ahead P' Q' y z) by (field; lra). lra.
      + exists 1. split; [|lra]. split; [by apply equi_move|]. split; [|done]. intros y' Hy'. rewrite AM. specialize (On1 y' Hy'). lra.
    - destruct o as [y|].
      + specialize (On1 y eq_refl). assert (NZ : ahead P' Q' y z <> 0). { intros Z. apply (ahead_zero P' Q' y z N' (O1 y eq_refl) Eon) in Z. congruence. }
        exists (- (ahead P' Q' y z / dist2 P' Q')). assert (U : 0 < ahead P' Q' y z / dist2 P' Q') by (apply Rdiv_lt_0_compat; lra). split; [|nra].
        split; [by apply equi_move|]. split.
        * intros y' [= <-]. rewrite AM. replace (- (ahead P' Q' y z / dist2 P' Q') * dist2 P' Q') with (- ahead P' Q' y z) by (field; lra). lra.
        * intros y' Hy'. rewrite AM. specialize (On2 y' Hy'). nra.
      + exists (- 1). split; [|lra]. split; [by apply equi_move|]. split; [done|]. intros y' Hy'. rewrite AM. specialize (On2 y' Hy'). lra. }
  pose proof (over_sound _ _ _ _ _ _ HV Hu X IX) as HM. pose proof (power_move P' Q' X z u) as PM. rewrite DX in PM. lra.
Qed.
End Over.

Lemma vertex_meeting s idx hist v z : runs A pts corners s idx hist -> v ∈ s_vset s -> located A s v z ->
  exists a b c, NoDup [a; b; c] /\ nearest pts a z /\ nearest pts b z /\ nearest pts c z.
Proof.
  intros HR Hv Hz. pose proof (runs_dcel A pts corners TO MO CC _ _ _ HR) as HD.
  destruct (d_conn _ _ _ _ _ _ _ _ HD v Hv) as (w & W1 & a & b & c & pa & pb & pc & x & y & r & e1 & e2 & e3 & C1 & C2 & C3 & C4 & C5 & C6 & C7 & C8 & C9 & _).
  destruct (runs_corners A pts corners TO MO CC _ _ _ HR) as (_ & _ & _ & Hp & _).
  assert (HPP : forall p xy, pxy A s p = Some xy -> (PT p) = Some xy). { intros p xy H. rewrite <- (pxy_pts A pts s p Hp). exact H. }
  assert (NE : forall e p q P, Dcel.out (s_hedges s) e v p q -> pxy A s p = Some P -> nearest pts p z).
  { intros e p q P (h & f & g & H1 & H2 & H3 & _) HP. apply HPP in HP. exists P. split; [done|]. intros Q HQ. apply elem_of_list_lookup in HQ as [j Hj].
    apply (vertex_nearest pts corners ND s idx hist v z e p P j Q HR Hz); auto; [by exists h|]. unfold borders_site, half. rewrite H1. exact H3. }
  exists a, b, c. split; [done|]. split; [|split]; eapply NE; eauto.
Qed.
End Final.
